(** Model of [src/ops.rs] and of the traits of [src/slice.rs] that are built on iteration:
    equality, [contains], hashing, debug output and the arithmetic operators. *)
From Verif Require Import Base Spec Shape Mapping Index View Expr Tensor.

(** ** Slices *)

(** view.rs:407-411 [From<View<'a, T, (D,)>> for &'a [T]]: the [n] cells from [p] on.  Making a
    nonempty slice that is not inside the storage is undefined behaviour. *)
Definition cells {T : Type} (mem : list T) (p n : Z) : outcome (list T) :=
  if n =? 0 then Ok []
  else if (0 <=? p) && (p + n <=? Z.of_nat (length mem))
       then Ok (firstn (Z.to_nat n) (skipn (Z.to_nat p) mem))
       else UB.

(** [this.remap::<S, _>()[..]]: slice.rs:411-418 and index/slice.rs:127-129 ([RangeFull]). *)
Definition v_slice {T : Type} (mem : list T) (v : view) : outcome (list T) :=
  let* d := v_remap v Dense (v_ty v) in
  let* f := v_flatten d in
  cells mem (v_ptr f) (m_len (v_map f)).

Definition is_dense (v : view) : bool := match v_layout v with Dense => true | Strided => false end.

(** ** Equality: ops.rs:66-111 *)

(** [<[T] as PartialEq<[U]>>::eq]: lengths, then elements in order up to the first difference. *)
Fixpoint list_eq {T U : Type} (eq : T -> U -> outcome bool) (l : list T) (r : list U) : outcome bool :=
  match l, r with
  | x :: l', y :: r' => let* b := eq x y in if b then list_eq eq l' r' else Ok false
  | _, _ => Ok true
  end.
Definition slices_eq {T U : Type} (eq : T -> U -> outcome bool) (l : list T) (r : list U) : outcome bool :=
  if (length l =? length r)%nat then list_eq eq l r else Ok false.

(** [Iterator::eq]: both iterators are advanced with [next], the left one first. *)
Fixpoint iter_eq {A B : Type} {a : expression A} {b : expression B} (eq : A -> B -> outcome bool)
    (fuel : nat) (l : iter a) (r : iter b) : outcome bool :=
  match fuel with
  | O => NoFuel
  | S fuel' =>
      let* (x, l') := it_next l in
      match x with
      | None => let* (y, _) := it_next r in Ok (match y with None => true | Some _ => false end)
      | Some x =>
          let* (y, r') := it_next r in
          match y with
          | None => Ok false
          | Some y => let* c := eq x y in if c then iter_eq eq fuel' l' r' else Ok false
          end
      end
  end.

(** Fuel for external iteration: one call of [next] more than there are elements. *)
Definition next_fuel {A : Type} (e : expression A) : nat := S (Z.to_nat (sh_len (e_dims e))).

(** ops.rs:71-110.  The recursion is on the rank. *)
Fixpoint eq_loop {T U : Type} (eq : T -> U -> outcome bool) (am : list T) (bm : list U)
    (rank : nat) (a b : view) : outcome bool :=
  if slice_eqb (v_dims a) (v_dims b) then
    if is_dense a && is_dense b then
      let* l := v_slice am a in
      let* r := v_slice bm b in
      slices_eq eq l r
    else if (length (v_dims a) <? 2)%nat then
      let ea := e_view (Z.of_nat (length am)) true a in
      let eb := e_view (Z.of_nat (length bm)) true b in
      iter_eq (fun p q => let* x := read am p in let* y := read bm q in eq x y)
        (next_fuel ea) (it_new ea) (it_new eb)
    else
      match rank with
      | O => NoFuel
      | S rank' =>
          let* ea := e_axis true a (AxConst 0) in
          let* eb := e_axis true b (AxConst 0) in
          iter_eq (eq_loop eq am bm rank') (next_fuel ea) (it_new ea) (it_new eb)
      end
  else Ok false.
Definition v_eq {T U : Type} (eq : T -> U -> outcome bool) (am : list T) (bm : list U) (a b : view)
  : outcome bool := eq_loop eq am bm (length (v_dims a)) a b.

(** ** [contains]: slice.rs:898-906 *)

(** [<[T]>::contains]. *)
Fixpoint list_any {A : Type} (p : A -> outcome bool) (l : list A) : outcome bool :=
  match l with
  | [] => Ok false
  | x :: l' => let* b := p x in if b then Ok true else list_any p l'
  end.

(** [Iterator::any]. *)
Fixpoint iter_any {A : Type} {e : expression A} (p : A -> outcome bool) (fuel : nat) (it : iter e)
  : outcome bool :=
  match fuel with
  | O => NoFuel
  | S fuel' =>
      let* (x, it') := it_next it in
      match x with
      | None => Ok false
      | Some x => let* b := p x in if b then Ok true else iter_any p fuel' it'
      end
  end.

Fixpoint contains_loop {T : Type} (eq : T -> T -> outcome bool) (mem : list T) (value : T) (rank : nat)
    (v : view) : outcome bool :=
  if is_dense v then let* l := v_slice mem v in list_any (fun x => eq x value) l
  else if (length (v_dims v) <? 2)%nat then
    let e := e_view (Z.of_nat (length mem)) true v in
    iter_any (fun p => let* x := read mem p in eq x value) (next_fuel e) (it_new e)
  else
    match rank with
    | O => NoFuel
    | S rank' =>
        let* e := e_axis true v (AxConst 0) in
        iter_any (contains_loop eq mem value rank') (next_fuel e) (it_new e)
    end.
Definition v_contains {T : Type} (eq : T -> T -> outcome bool) (mem : list T) (v : view) (value : T)
  : outcome bool := contains_loop eq mem value (length (v_dims v)) v.

(** ** Hashing: slice.rs:823-835 *)

(** What the hasher is given: dimensions by [write_usize] and whatever hashing an element feeds. *)
Inductive hashed (H : Type) : Type := HDim (n : Z) | HElem (x : H).
Arguments HDim {H} n.
Arguments HElem {H} x.

Definition v_hash {T H : Type} (hash : T -> list H) (mem : list T) (v : view) : outcome (list (hashed H)) :=
  e_fold (e_view (Z.of_nat (length mem)) true v)
    (fun out p => let* x := read mem p in Ok (out ++ map HElem (hash x)))
    (map HDim (v_dims v)).

(** ** Debug output: slice.rs:813-821 *)

(** [DebugList] calls and the output of elements. *)
Inductive debug (D : Type) : Type := DItem (x : D) | DList (l : list (debug D)).
Arguments DItem {D} x.
Arguments DList {D} l.

(** [DebugList::entries]: a [for] loop. *)
Fixpoint iter_entries {A D : Type} {e : expression A} (f : A -> outcome D) (fuel : nat) (it : iter e)
  : outcome (list D) :=
  match fuel with
  | O => NoFuel
  | S fuel' =>
      let* (x, it') := it_next it in
      match x with
      | None => Ok []
      | Some x => let* d := f x in let* ds := iter_entries f fuel' it' in Ok (d :: ds)
      end
  end.

Fixpoint debug_loop {T D : Type} (fmt : T -> outcome D) (mem : list T) (rank : nat) (v : view)
  : outcome (debug D) :=
  if (length (v_dims v) =? 0)%nat then
    let* x := v_get mem v [] in
    let* d := fmt x in
    Ok (DItem d)
  else
    match rank with
    | O => NoFuel
    | S rank' =>
        let* e := e_axis true v (AxConst 0) in
        let* ds := iter_entries (debug_loop fmt mem rank') (next_fuel e) (it_new e) in
        Ok (DList ds)
    end.
Definition v_debug {T D : Type} (fmt : T -> outcome D) (mem : list T) (v : view) : outcome (debug D) :=
  debug_loop fmt mem (length (v_dims v)) v.

(** ** Binary operators: ops.rs:144-348

    The operator function [op] acts on a captured state, so that its calls and their order are
    visible.  The operand of a reference to an array is [e_copied] of its view expression: the
    operator is given the element behind each reference. *)

(** Left operand a reference, a view or an expression, right operand a reference, a view or an
    expression: [rhs.zip_with(self, |(x, y)| y.op(x))] with the lazy [zip_with]. *)
Definition op_expr {A B R F : Type} (op : A -> B -> F -> outcome (R * F)) (f0 : F) (lhs : expression A)
    (rhs : expression B) : outcome (expression R) :=
  e_zip_with rhs lhs (fun p => op (snd p) (fst p)) f0.

(** The same with an owned tensor on the right: tensor.rs:427-469 [zip_with]. *)
Definition op_expr_tensor {A T C : Type} (op : A -> T -> C -> call T C) (lhs : expression A) (rhs : tensor T)
  : M (world T C) (tensor T) := tn_zip_with lhs (fun p => op (snd p) (fst p)) rhs.

(** The same with an owned array on the right: array.rs:144-149 [zip_with]. *)
Definition op_expr_array {A T C : Type} (op : A -> T -> C -> call T C) (lhs : expression A)
    (ds : list dimty) (rhs : list T) : M (world T C) (list T) :=
  ar_zip_with ds rhs lhs (fun p => op (snd p) (fst p)).

(** ops.rs:322-331: left operand an owned tensor, [self.zip_with(rhs, |(x, y)| x.op(y))]. *)
Definition op_tensor {T B C : Type} (op : T -> B -> C -> call T C) (lhs : tensor T) (rhs : expression B)
  : M (world T C) (tensor T) := tn_zip_with rhs (fun p => op (fst p) (snd p)) lhs.

(** ops.rs:221-230: left operand an owned array. *)
Definition op_array {T B C : Type} (op : T -> B -> C -> call T C) (ds : list dimty) (lhs : list T)
    (rhs : expression B) : M (world T C) (list T) :=
  ar_zip_with ds lhs rhs (fun p => op (fst p) (snd p)).

(** ** Compound assignment: ops.rs:361-399: [self.expr_mut().zip(rhs).for_each(|(x, y)| x.op(y))]. *)
Definition v_op_assign {T Y C : Type} (op : T -> Y -> C -> outcome (T * C)) (v : view) (e : expression Y)
    (mem : list T) (c : C) : outcome (list T * C) :=
  let* z := e_zip (e_view (Z.of_nat (length mem)) false v) e in
  e_fold z (fun s p => let* x := read (fst s) (fst p) in
                       let* (x', c) := op x (snd p) (snd s) in
                       let* mem := write (fst s) (fst p) x' in Ok (mem, c)) (mem, c).

(** ** Unary operators: ops.rs:412-616: [self.apply(|x| x.op())]. *)
Definition neg_expr {A R F : Type} (op : A -> F -> outcome (R * F)) (f0 : F) (e : expression A)
  : expression R := e_map op f0 e.
Definition neg_tensor {T C : Type} (op : T -> C -> call T C) (t : tensor T) : M (world T C) (tensor T) :=
  tn_map op t.
Definition neg_array {T C : Type} (op : T -> C -> call T C) (ds : list dimty) (l : list T)
  : M (world T C) (list T) := ar_map ds l op.
