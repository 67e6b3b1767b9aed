(** Programs that use owned arrays: any sequence of operations on any number of tensors.

    A program has variables holding tensors; an operation that panics is assumed to be called under
    [catch_unwind], so that the program goes on (the worst case for the consistency of the tensors).
    A tensor passed by value to an operation that panics is gone. *)
From Verif Require Import Base Spec Shape Mapping Index View Wf Expr Tensor TensorSpec.

Record state (T C : Type) : Type := mkState {
  st_vars : list (option (tensor T));   (* [None]: moved out *)
  st_w : world T C
}.
Arguments mkState {T C} _ _.
Arguments st_vars {T C} _.
Arguments st_w {T C} _.

Inductive op (T C : Type) : Type :=
(* creation; a new variable *)
| New (ty : shty) (cap : Z)                                        (* new, with_capacity *)
| FromVec (items : list T) (cap : Z)                               (* From<Vec> *)
| FromExpr (e : expression T)                                      (* from_expr, eval, from_elem, from_fn, to_tensor, collect *)
| Clone (i : nat) (clone : T -> C -> call T C)
(* operations on a variable *)
| Clear (i : nat)
| Truncate (i : nat) (size : Z)
| Reserve (i : nat) (n : Z)
| TryReserve (i : nat) (n : Z)
| ShrinkTo (i : nat) (n : Z)                                       (* shrink_to, shrink_to_fit *)
| Expand {Y : Type} (i : nat) (e : expression Y) (clone : Y -> C -> call T C)
| Extend (i : nat) (ys : list (C -> call T C))                     (* both [Extend] implementations *)
| ResizeWith (i : nat) (dims : list Z) (f : C -> call T C)
| Resize (i : nat) (dims : list Z) (value : T) (clone : T -> C -> call T C)
| DrainTake (i : nat) (lo hi : bound) (k : nat)                    (* drain, take [k] elements, drop the drain *)
| DrainLeak (i : nat) (lo hi : bound) (k : nat)                    (* drain, take [k] elements, forget the drain *)
| CloneFrom (i j : nat) (clone : T -> C -> call T C)               (* vars[i].clone_from(&vars[j]) *)
| Append (i j : nat)                                               (* vars[i].append(&mut vars[j]) *)
(* operations that consume a variable *)
| IntoShape (i : nat) (ty : shty) (dims : list Z)
| IntoMapping (i : nat) (ty : shty)                                (* into_mapping, into_dyn *)
| IntoFlat (i : nat)
| ZipWith {Y : Type} (i : nat) (e : expression Y) (f : T * Y -> C -> call T C)   (* zip_with, operators *)
| Map (i : nat) (f : T -> C -> call T C)
| Iterate (i : nat) (k : nat)                                      (* into_iter, [k] calls of next, dropped *)
| IntoScalar (i : nat)
| Drop (i : nat).
Arguments New {T C}.
Arguments FromVec {T C}.
Arguments FromExpr {T C}.
Arguments Clone {T C}.
Arguments Clear {T C}.
Arguments Truncate {T C}.
Arguments Reserve {T C}.
Arguments TryReserve {T C}.
Arguments ShrinkTo {T C}.
Arguments Expand {T C Y}.
Arguments Extend {T C}.
Arguments ResizeWith {T C}.
Arguments Resize {T C}.
Arguments DrainTake {T C}.
Arguments DrainLeak {T C}.
Arguments CloneFrom {T C}.
Arguments Append {T C}.
Arguments IntoShape {T C}.
Arguments IntoMapping {T C}.
Arguments IntoFlat {T C}.
Arguments ZipWith {T C Y}.
Arguments Map {T C}.
Arguments Iterate {T C}.
Arguments IntoScalar {T C}.
Arguments Drop {T C}.

Section Step.
  Context {T C : Type} (al : allocator).

  Definition w_uses (xs : list T) (w : world T C) : world T C :=
    mkWorld (w_clo w) (w_made w) (w_used w ++ xs) (w_dropped w).

  (** The tensor in a variable, if any. *)
  Definition var (st : state T C) (i : nat) : option (tensor T) :=
    match nth_error (st_vars st) i with Some (Some t) => Some t | _ => None end.
  Definition set_var (i : nat) (v : option (tensor T)) (w : world T C) (st : state T C) : state T C :=
    mkState (upd (st_vars st) i v) w.

  (** A new variable, unless the operation panics. *)
  Definition create (m : M (world T C) (tensor T)) : M (state T C) unit :=
    fun st =>
      match m (st_w st) with
      | Done t w => Done tt (mkState (st_vars st ++ [Some t]) w)
      | Unwound w => Done tt (mkState (st_vars st) w)
      | Aborted => Aborted
      | Fault => Fault
      end.
  (** An operation on [&mut self].  (A variable that was moved out cannot be used; the step then does
      nothing.) *)
  Definition on_var {A} (i : nat) (m : M (tensor T * world T C) A) : M (state T C) unit :=
    fun st =>
      match var st i with
      | None => Done tt st
      | Some t =>
          match m (t, st_w st) with
          | Done _ (t, w) | Unwound (t, w) => Done tt (set_var i (Some t) w st)
          | Aborted => Aborted
          | Fault => Fault
          end
      end.
  (** An operation on [self]. *)
  Definition consume (i : nat) (m : tensor T -> M (world T C) (option (tensor T))) : M (state T C) unit :=
    fun st =>
      match var st i with
      | None => Done tt st
      | Some t =>
          match m t (st_w st) with
          | Done v w => Done tt (set_var i v w st)
          | Unwound w => Done tt (set_var i None w st)
          | Aborted => Aborted
          | Fault => Fault
          end
      end.
  Definition kept {A} (m : M (world T C) A) : M (world T C) (option A) := x <- m ;; ret (Some x).

  Definition drained_by (lo hi : bound) (k : nat) (close : drain T -> world T C -> result (tensor T * world T C) unit)
    : M (tensor T * world T C) unit :=
    fun s =>
      match tn_drain (fst s) lo hi with
      | Ok d =>
          (* [Iterator::take]: stops at the end *)
          match it_nexts k (it_new (e_drain d)) with
          | Ok (xs, it) =>
              close (it_st it)
                (w_uses (flat_map (fun x => match x with Some x => [x] | None => [] end) xs) (snd s))
          | Panic => Unwound s
          | _ => Fault
          end
      | Panic => Unwound s
      | _ => Fault
      end.

  Definition step (o : op T C) : M (state T C) unit :=
    match o with
    | New ty cap => create (tn_with_capacity al ty cap)
    | FromVec items cap =>
        create (fun w => tn_from_vec items cap (mkWorld (w_clo w) (w_made w ++ items) (w_used w) (w_dropped w)))
    | FromExpr e => create (tn_from_expr al e)
    | Clone i cl => fun st => match var st i with Some t => create (tn_clone cl t) st | None => Done tt st end
    | Clear i => on_var i tn_clear
    | Truncate i n => on_var i (tn_truncate n)
    | Reserve i n => on_var i (tn_reserve al n)
    | TryReserve i n => on_var i (tn_try_reserve al n)
    | ShrinkTo i n => on_var i (tn_shrink_to n)
    | Expand i e cl => on_var i (tn_expand al e cl)
    | Extend i ys => on_var i (tn_extend al ys)
    | ResizeWith i dims f => on_var i (tn_resize_with al dims f)
    | Resize i dims v cl => on_var i (tn_resize al dims v cl)
    | DrainTake i lo hi k => on_var i (drained_by lo hi k drain_drop)
    | DrainLeak i lo hi k =>
        on_var i (drained_by lo hi k (fun d w => match drain_leak d with Some t => Done tt (t, w) | None => Fault end))
    | CloneFrom i j cl => fun st =>
        match var st j with
        | Some src => on_var i (tn_clone_from al cl (tn_mem src) (tn_dims src)) st
        | None => Done tt st
        end
    | Append i j => fun st =>
        match var st i, var st j with
        | Some self, Some other =>
            match tn_append al (self, other, st_w st) with
            | Done _ (self, other, w) | Unwound (self, other, w) =>
                Done tt (set_var j (Some other) w (set_var i (Some self) w st))
            | Aborted => Aborted
            | Fault => Fault
            end
        | _, _ => Done tt st
        end
    | IntoShape i ty dims => consume i (fun t => kept (tn_into_shape ty dims t))
    | IntoMapping i ty => consume i (fun t => kept (tn_into_mapping ty t))
    | IntoFlat i => consume i (fun t => kept (tn_into_flat t))
    | ZipWith i e f => consume i (fun t => kept (tn_zip_with e f t))
    | Map i f => consume i (fun t => kept (tn_map f t))
    | Iterate i k =>
        consume i (fun t w =>
          match it_nexts k (it_new (e_into (tn_ty t) (tn_dims t) (tn_mem t))) with
          | Ok (xs, it) =>
              Done None (w_drop (into_dropped (tn_mem t) (it_st it))
                 (w_uses (flat_map (fun x => match x with Some x => [x] | None => [] end) xs) w))
          | Panic => Unwound w
          | _ => Fault
          end)
    | IntoScalar i =>
        consume i (fun t => x <- tn_into_scalar t ;; fun w => Done None (w_use x w))
    | Drop i => consume i (fun t w => Done None (w_drop (tn_mem t) w))
    end.

  Fixpoint run_ops (ops : list (op T C)) : M (state T C) unit :=
    match ops with
    | [] => ret tt
    | o :: os => step o ;;; run_ops os
    end.
End Step.

(** ** What is asked of a program and of its states *)
Section Asked.
  Context {T C : Type} (al : allocator).

  (** What the Rust types and machine sizes guarantee about the arguments of an operation, and that
      operands behave (TensorSpec.v: [honest], [zips]). *)
  Definition op_ok (o : op T C) (st : state T C) : Prop :=
    match o with
    | New ty cap => nonneg (sh_default ty) /\ ty_wf ty /\ 0 <= cap
    | FromVec items cap => zlen items <= cap
    | FromExpr e => honest e /\ typed (e_ty e) (e_dims e) /\ ty_wf (e_ty e)
    | Truncate i n => 0 <= n
    | Expand i e cl => honest e
    | Extend i ys => forall t, var st i = Some t -> tn_ty t = STuple [DDyn]
    | ResizeWith i dims f => nonneg dims
    | Resize i dims v cl => nonneg dims
    | DrainTake i lo hi k | DrainLeak i lo hi k =>
        bound_arg lo /\ bound_arg hi /\ (forall t, var st i = Some t -> nth 0 (tn_dims t) 0 <= usize_max)
    | CloneFrom i j cl => i <> j /\ (forall t u, var st i = Some t -> var st j = Some u -> tn_ty t = tn_ty u)
    | Append i j => i <> j
    | IntoShape i ty dims =>
        nonneg dims /\ match sh_rank ty with Some k => length dims = k | None => True end /\ ty_wf ty
    | IntoMapping i ty => ty_wf ty
    | ZipWith i e f => forall t, var st i = Some t -> zips t e
    | _ => True
    end.

  Fixpoint ops_ok (ops : list (op T C)) (st : state T C) : Prop :=
    match ops with
    | [] => True
    | o :: os => op_ok o st /\ (forall st', step al o st = Done tt st' -> ops_ok os st')
    end.

  (** The elements in the variables. *)
  Definition held (vars : list (option (tensor T))) : list T :=
    flat_map (fun v => match v with Some t => tn_mem t | None => [] end) vars.

  (** Every tensor is consistent, and every element that came into being is in exactly one place: in a
      variable, leaked, given away or dropped. *)
  Definition consistent (st : state T C) (leaked : list T) : Prop :=
    Forall (fun v => match v with Some t => tensor_ok t | None => True end) (st_vars st) /\
    Permutation (w_made (st_w st)) (held (st_vars st) ++ leaked ++ w_used (st_w st) ++ w_dropped (st_w st)).

  (** How many elements an operation may leak ([None]: no bound). *)
  Definition leak_limit (o : op T C) : option nat :=
    match o with
    | DrainLeak _ _ _ _ => None
    | ZipWith _ _ _ => Some 1%nat
    | _ => Some 0%nat
    end.
  Fixpoint leak_limits (ops : list (op T C)) : option nat :=
    match ops with
    | [] => Some 0%nat
    | o :: os => match leak_limit o, leak_limits os with Some a, Some b => Some (a + b)%nat | _, _ => None end
    end.
  Definition within (l : list T) (n : option nat) : Prop :=
    match n with Some n => (length l <= n)%nat | None => True end.
End Asked.
