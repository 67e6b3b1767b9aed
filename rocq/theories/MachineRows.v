(** Equality, [contains], hashing, debug output and serialization ([src/ops.rs], [src/slice.rs], [src/serde.rs])
    with 64-bit machine integers.

    Like [Ops.v] and [Serde.v], but on top of [Machine.v] and [MachineIter.v]: with overflow checks ([dbg = true]) a
    sum, difference or product that does not fit panics, without it wraps around. *)
From Verif Require Import Base Spec Shape Mapping Index View Wf Expr Tensor Ops Serde Machine MachineSpec MachineIter.

(** ** Loops over iterators: [Iterator::eq], [Iterator::any] and the [for] loop of [DebugList::entries] and
    [Serializer::collect_seq], all with [next] (iter.rs:96-108). *)
Fixpoint x_iter_eq (dbg : bool) {A B : Type} {a : expression A} {b : expression B} (eq : A -> B -> outcome bool)
    (fuel : nat) (l : iter a) (r : iter b) : outcome bool :=
  match fuel with
  | O => NoFuel
  | S fuel' =>
      let* (x, l') := x_next dbg l in
      match x with
      | None => let* (y, _) := x_next dbg r in Ok (match y with None => true | Some _ => false end)
      | Some x =>
          let* (y, r') := x_next dbg r in
          match y with
          | None => Ok false
          | Some y => let* c := eq x y in if c : bool then x_iter_eq dbg eq fuel' l' r' else Ok false
          end
      end
  end.

Fixpoint x_iter_any (dbg : bool) {A : Type} {e : expression A} (p : A -> outcome bool) (fuel : nat) (it : iter e)
  : outcome bool :=
  match fuel with
  | O => NoFuel
  | S fuel' =>
      let* (x, it') := x_next dbg it in
      match x with
      | None => Ok false
      | Some x => let* b := p x in if b : bool then Ok true else x_iter_any dbg p fuel' it'
      end
  end.

Fixpoint x_iter_entries (dbg : bool) {A D : Type} {e : expression A} (f : A -> outcome D) (fuel : nat) (it : iter e)
  : outcome (list D) :=
  match fuel with
  | O => NoFuel
  | S fuel' =>
      let* (x, it') := x_next dbg it in
      match x with
      | None => Ok []
      | Some x => let* d := f x in let* ds := x_iter_entries dbg f fuel' it' in Ok (d :: ds)
      end
  end.

(** [this.remap::<S, _>()[..]]: slice.rs:411-418, index/slice.rs:127-129 and view.rs:407-411. *)
Definition x_v_slice (dbg : bool) {T : Type} (mem : list T) (v : view) : outcome (list T) :=
  let* d := x_v_remap dbg v Dense (v_ty v) in
  let* f := x_flatten dbg d in
  let* n := x_len dbg (v_dims f) in
  cells mem (v_ptr f) n.

(** ** Equality: ops.rs:66-111 *)
Fixpoint x_eq_loop (dbg : bool) {T U : Type} (eq : T -> U -> outcome bool) (am : list T) (bm : list U)
    (rank : nat) (a b : view) : outcome bool :=
  if slice_eqb (v_dims a) (v_dims b) then
    if is_dense a && is_dense b then
      let* l := x_v_slice dbg am a in
      let* r := x_v_slice dbg bm b in
      slices_eq eq l r
    else if (length (v_dims a) <? 2)%nat then
      let ea := x_e_view dbg (Z.of_nat (length am)) true a in
      let eb := x_e_view dbg (Z.of_nat (length bm)) true b in
      let* ia := x_it_new dbg ea in
      let* ib := x_it_new dbg eb in
      x_iter_eq dbg (fun p q => let* x := read am p in let* y := read bm q in eq x y) (next_fuel ea) ia ib
    else
      match rank with
      | O => NoFuel
      | S rank' =>
          let* ea := x_axis dbg true a (AxConst 0) in
          let* eb := x_axis dbg true b (AxConst 0) in
          let* ia := x_it_new dbg ea in
          let* ib := x_it_new dbg eb in
          x_iter_eq dbg (x_eq_loop dbg eq am bm rank') (next_fuel ea) ia ib
      end
  else Ok false.
Definition x_v_eq (dbg : bool) {T U : Type} (eq : T -> U -> outcome bool) (am : list T) (bm : list U) (a b : view)
  : outcome bool := x_eq_loop dbg eq am bm (length (v_dims a)) a b.

(** ** [contains]: slice.rs:898-906 *)
Fixpoint x_contains_loop (dbg : bool) {T : Type} (eq : T -> T -> outcome bool) (mem : list T) (value : T)
    (rank : nat) (v : view) : outcome bool :=
  if is_dense v then let* l := x_v_slice dbg mem v in list_any (fun x => eq x value) l
  else if (length (v_dims v) <? 2)%nat then
    let e := x_e_view dbg (Z.of_nat (length mem)) true v in
    let* it := x_it_new dbg e in
    x_iter_any dbg (fun p => let* x := read mem p in eq x value) (next_fuel e) it
  else
    match rank with
    | O => NoFuel
    | S rank' =>
        let* e := x_axis dbg true v (AxConst 0) in
        let* it := x_it_new dbg e in
        x_iter_any dbg (x_contains_loop dbg eq mem value rank') (next_fuel e) it
    end.
Definition x_v_contains (dbg : bool) {T : Type} (eq : T -> T -> outcome bool) (mem : list T) (v : view) (value : T)
  : outcome bool := x_contains_loop dbg eq mem value (length (v_dims v)) v.

(** ** Hashing: slice.rs:823-835 *)
Definition x_v_hash (dbg : bool) {T H : Type} (hash : T -> list H) (mem : list T) (v : view)
  : outcome (list (hashed H)) :=
  x_fold dbg (x_e_view dbg (Z.of_nat (length mem)) true v)
    (fun out p => let* x := read mem p in Ok (out ++ map HElem (hash x)))
    (map HDim (v_dims v)).

(** ** Debug output: slice.rs:813-821 *)
Fixpoint x_debug_loop (dbg : bool) {T D : Type} (fmt : T -> outcome D) (mem : list T) (rank : nat) (v : view)
  : outcome (debug D) :=
  if (length (v_dims v) =? 0)%nat then
    let* x := x_get dbg mem v [] in
    let* d := fmt x in
    Ok (DItem d)
  else
    match rank with
    | O => NoFuel
    | S rank' =>
        let* e := x_axis dbg true v (AxConst 0) in
        let* it := x_it_new dbg e in
        let* ds := x_iter_entries dbg (x_debug_loop dbg fmt mem rank') (next_fuel e) it in
        Ok (DList ds)
    end.
Definition x_v_debug (dbg : bool) {T D : Type} (fmt : T -> outcome D) (mem : list T) (v : view) : outcome (debug D) :=
  x_debug_loop dbg fmt mem (length (v_dims v)) v.

(** ** Serialization: serde.rs:117-139 *)
Fixpoint x_ser_loop (dbg : bool) {T E : Type} (ser : T -> outcome (sdata E)) (mem : list T) (rank : nat) (v : view)
  : outcome (sdata E) :=
  if (length (v_dims v) =? 0)%nat then let* x := x_get dbg mem v [] in ser x
  else
    match rank with
    | O => NoFuel
    | S rank' =>
        let* e := x_axis dbg true v (AxConst 0) in
        let* it := x_it_new dbg e in
        let* l := x_iter_entries dbg (x_ser_loop dbg ser mem rank') (next_fuel e) it in
        Ok (SSeq (Some (nth 0 (v_dims v) 0)) l)
    end.
Definition x_v_serialize (dbg : bool) {T E : Type} (ser : T -> outcome (sdata E)) (mem : list T) (v : view)
  : outcome (sdata E) :=
  match sh_rank (v_ty v) with
  | None => Panic
  | Some rank => x_ser_loop dbg ser mem rank v
  end.

(** ** Which views: a valid view of at most [isize::MAX] cells that may be empty; the product of its dimensions, empty
    ones not counted, fits in [isize]; so does the way along any single dimension.  With overflow checks the strides
    can be negated. *)
Definition modest (dbg : bool) (n : Z) (v : view) : Prop :=
  valid_view n v /\ n <= isize_max /\ roomy (v_dims v) /\
  forall i, (i < length (v_dims v))%nat ->
    (dbg = true -> Z.abs (nth i (m_strides (v_map v)) 0) <= isize_max) /\
    forall k, 0 <= k < nth i (v_dims v) 0 -> Z.abs (nth i (m_strides (v_map v)) 0 * k) <= isize_max.
