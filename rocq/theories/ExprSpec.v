(** Specification vocabulary for expressions: what it means to visit elements in order.
    Nothing here mentions the code of [Iter] or of the expressions. *)
From Verif Require Import Base Spec.

(** Visiting the elements of a list in order with a closure that may stop the program. *)
Fixpoint foldM {A T : Type} (f : T -> A -> outcome T) (l : list A) (t : T) : outcome T :=
  match l with
  | [] => Ok t
  | a :: l' => let* t' := f t a in foldM f l' t'
  end.

(** The meaning of an array-valued computation: how to compute the item at an index.  Computing
    an item may change a state (captured variables of closures) and may stop the program. *)
Definition action (A S : Type) : Type := list Z -> S -> outcome (A * S).

(** Computing the items at the indices [l] in order, giving each to [f]. *)
Fixpoint run {A S T : Type} (act : action A S) (f : T -> A -> outcome T) (l : list (list Z))
    (s : S) (t : T) : outcome (S * T) :=
  match l with
  | [] => Ok (s, t)
  | idx :: l' =>
      let* (a, s') := act idx s in
      let* t' := f t a in
      run act f l' s' t'
  end.

(** Its final value. *)
Definition run_value {A S T : Type} (act : action A S) (f : T -> A -> outcome T)
    (l : list (list Z)) (s : S) (t : T) : outcome T :=
  let* (_, t') := run act f l s t in Ok t'.

(** The items at the indices [l], in order. *)
Fixpoint items {A S : Type} (act : action A S) (l : list (list Z)) (s : S) : outcome (list A * S) :=
  match l with
  | [] => Ok ([], s)
  | idx :: l' =>
      let* (a, s') := act idx s in
      let* (t, s'') := items act l' s' in
      Ok (a :: t, s'')
  end.

(** Pointwise application of a closure with captured state [F]. *)
Definition map_action {A B S F : Type} (f : A -> F -> outcome (B * F)) (act : action A S)
  : action B (S * F) :=
  fun idx s =>
    let* (a, s') := act idx (fst s) in
    let* (b, f') := f a (snd s) in
    Ok (b, (s', f')).

(** Pointwise application of a function. *)
Definition fun_action {A B S : Type} (f : A -> outcome B) (act : action A S) : action B S :=
  fun idx s => let* (a, s') := act idx s in let* b := f a in Ok (b, s').

(** Items numbered in the order in which they are computed. *)
Definition enum_action {A S : Type} (act : action A S) : action (Z * A) (S * Z) :=
  fun idx s => let* (a, s') := act idx (fst s) in Ok ((snd s, a), (s', snd s + 1)).

(** Pairs; the operand of rank [ra] (resp. [rb]) sees the last [ra] (resp. [rb]) coordinates. *)
Definition zip_action {A B S S' : Type} (ra rb : nat) (a : action A S) (b : action B S')
  : action (A * B) (S * S') :=
  fun idx s =>
    let* (x, sa) := a (lastn ra idx) (fst s) in
    let* (y, sb) := b (lastn rb idx) (snd s) in
    Ok ((x, y), (sa, sb)).

(** A closure called once per item, ignoring the index. *)
Definition call_action {A F : Type} (f : F -> outcome (A * F)) : action A F := fun _ s => f s.

(** A computation without state that gives item [g idx] at [idx]. *)
Definition pure_action {A : Type} (g : list Z -> A) : action A unit := fun idx s => Ok (g idx, s).

(** Element [flat idx] of the row-major list [l] of an array with dimensions [dims]. *)
Definition list_action {A : Type} (dims : list Z) (l : list A) : action A unit :=
  fun idx s => match nth_error l (Z.to_nat (flat dims idx)) with Some a => Ok (a, s) | None => UB end.

(** The closure is called with the index itself. *)
Definition index_action {A F : Type} (f : list Z -> F -> outcome (A * F)) : action A F := f.

(** The longer list, and agreement of the common trailing dimensions. *)
Definition longer {A} (a b : list A) : list A := if (length a <? length b)%nat then b else a.
Definition trailing_eq {A} (a b : list A) : Prop :=
  lastn (Nat.min (length a) (length b)) a = lastn (Nat.min (length a) (length b)) b.

(** The values [xs], one per index of [dims] in row-major order, are in the cells [addr idx] of
    [mem'], and all other cells are those of [mem]. *)
Definition stored {T : Type} (dims : list Z) (addr : list Z -> Z) (xs mem mem' : list T) : Prop :=
  length mem' = length mem /\
  (forall idx, in_bounds dims idx ->
     nth_error mem' (Z.to_nat (addr idx)) = nth_error xs (Z.to_nat (flat dims idx)) /\
     nth_error mem' (Z.to_nat (addr idx)) <> None) /\
  (forall a, (forall idx, in_bounds dims idx -> Z.to_nat (addr idx) <> a) ->
     nth_error mem' a = nth_error mem a).

(** A closure with captured state called on the members of a list in order. *)
Fixpoint traverse {A B F : Type} (f : A -> F -> outcome (B * F)) (xs : list A) (s : F) : outcome (list B * F) :=
  match xs with
  | [] => Ok ([], s)
  | x :: xt =>
      let* (y, s') := f x s in
      let* (ys, s'') := traverse f xt s' in
      Ok (y :: ys, s'')
  end.

(** The items computed at the indices [l] in order until one fails, and how that ends. *)
Fixpoint produce {A S : Type} (act : action A S) (l : list (list Z)) (s : S) : list A * outcome S :=
  match l with
  | [] => ([], Ok s)
  | idx :: l' =>
      match act idx s with
      | Ok (a, s') => let (xs, o) := produce act l' s' in (a :: xs, o)
      | Panic => ([], Panic)
      | UB => ([], UB)
      | NoFuel => ([], NoFuel)
      end
  end.
