(** Specification vocabulary for owned arrays. *)
From Verif Require Import Base Spec Shape Wf Expr ExprSpec Tensor.

(** A tensor is consistent: its dimensions are sizes that its shape type admits, their product is the
    number of initialized elements, and these fit in the allocation. *)
Record tensor_ok {T : Type} (t : tensor T) : Prop := {
  to_nonneg : nonneg (tn_dims t);
  to_typed : typed (tn_ty t) (tn_dims t);
  to_ty : ty_wf (tn_ty t);
  to_len : Z.of_nat (length (tn_mem t)) = prodZ (tn_dims t);
  to_cap : Z.of_nat (length (tn_mem t)) <= tn_cap t
}.

(** Nothing is lost or duplicated: the elements there were at the beginning ([start]) and those that
    came in since are the ones now in the tensor, given away, or dropped. *)
Definition balanced {T C : Type} (start now : list T) (w : world T C) : Prop :=
  Permutation (start ++ w_made w) (now ++ w_used w ++ w_dropped w).

(** Calling the closures [fs] in order until one panics: the values, the captured state at the end
    and whether all of them returned. *)
Fixpoint gives {T C : Type} (fs : list (C -> call T C)) (c : C) : list T * C * bool :=
  match fs with
  | [] => ([], c, true)
  | f :: ft =>
      match f c with
      | Gives x c' => let '(xs, c'', b) := gives ft c' in (x :: xs, c'', b)
      | Throws c' => ([], c', false)
      end
  end.

(** The world after values [xs] came in and those of [ds] were dropped. *)
Definition after {T C : Type} (c : C) (xs ds : list T) (w : world T C) : world T C :=
  mkWorld c (w_made w ++ xs) (w_used w) (w_dropped w ++ ds).

(** [idx] is a valid index (as a test). *)
Fixpoint inside (dims idx : list Z) : bool :=
  match dims, idx with
  | [], [] => true
  | d :: ds, i :: is => (0 <=? i) && (i <? d) && inside ds is
  | _, _ => false
  end.

(** The element at [idx] of the array with dimensions [dims] and row-major contents [l]. *)
Definition elem_at {T : Type} (dims : list Z) (l : list T) (idx : list Z) : option T :=
  if inside dims idx then nth_error l (Z.to_nat (flat dims idx)) else None.

(** Going through [l] in order: the known values, and [vals] one after the other for the others. *)
Fixpoint fill_missing {I T : Type} (known : I -> option T) (l : list I) (vals : list T) : list T :=
  match l with
  | [] => []
  | i :: l' =>
      match known i with
      | Some x => x :: fill_missing known l' vals
      | None => match vals with
                | v :: vt => v :: fill_missing known l' vt
                | [] => []
                end
      end
  end.

(** The elements of the array [dims], [l] whose index is not an index of an array of dimensions [new],
    in row-major order; and how many indices of [new] are not indices of [dims]. *)
Definition lost {T : Type} (dims : list Z) (l : list T) (new : list Z) : list T :=
  flat_map (fun idx => if inside new idx then []
                       else match elem_at dims l idx with Some x => [x] | None => [] end) (indices dims).
Definition fresh (dims new : list Z) : nat :=
  length (filter (fun idx => negb (inside dims idx)) (indices new)).

(** An expression gives at most as many elements as its shape says, exactly as many if it does not
    panic, and does nothing undefined. *)
Definition honest {A : Type} (e : expression A) : Prop :=
  nonneg (e_dims e) /\
  Z.of_nat (length (fst (e_trace e))) <= prodZ (e_dims e) /\
  ((snd (e_trace e) = Ok tt /\ Z.of_nat (length (fst (e_trace e))) = prodZ (e_dims e)) \/
   snd (e_trace e) = Panic).

(** The operand [e] can be zipped with the tensor [t]: it is refused, or gives the
    items [ys] for the successive elements, all of them unless it panics. *)
Inductive zips {T Y} (t : tensor T) (e : expression Y) : Prop :=
| zips_refused : e_zip (e_view (zlen (tn_mem t)) false (whole (tn_ty t) (tn_dims t))) e = Panic -> zips t e
| zips_items z ys o :
    e_zip (e_view (zlen (tn_mem t)) false (whole (tn_ty t) (tn_dims t))) e = Ok z ->
    e_trace z = (combine (zrange (zlen (tn_mem t))) ys, o) ->
    (length ys <= length (tn_mem t))%nat ->
    (o = Ok tt /\ length ys = length (tn_mem t)) \/ o = Panic ->
    zips t e.

(** Rows [a .. b-1] of the array with dimensions [dims] and row-major contents [l]. *)
Definition rows_of {T : Type} (dims : list Z) (l : list T) (a b : Z) : list T :=
  firstn (Z.to_nat ((b - a) * prodZ (tl dims))) (skipn (Z.to_nat (a * prodZ (tl dims))) l).

(** How many of the indices of [new] before [idx], in row-major order, are not indices of [dims]. *)
Definition fresh_before (dims new idx : list Z) : nat :=
  length (filter (fun i => negb (inside dims i)) (firstn (Z.to_nat (flat new idx)) (indices new))).
