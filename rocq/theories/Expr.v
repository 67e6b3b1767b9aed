(** Model of [src/expr/*.rs] and of the expression implementation of views.

    An expression of item type [A] is a state and the methods of the [Expression] trait.
    Closures are functions from their captured state to a result and the new state, so that
    the number and the order of calls are visible.  [Panic] in a closure propagates. *)
From Verif Require Import Base Spec Shape Mapping Index View.

(** expression.rs:30-169 [trait Expression]. *)
Record expression (A : Type) : Type := mkExpr {
  e_st : Type;                                     (* the fields that iteration changes *)
  e_init : e_st;                                   (* the value that was built *)
  e_ty : shty;                                     (* type Shape *)
  e_dims : list Z;                                 (* shape() *)
  e_inner : option nat;                            (* inner_rank(); None is usize::MAX *)
  e_rep : bool;                                    (* IS_REPEATABLE *)
  e_get : Z -> e_st -> outcome (A * e_st);         (* get_unchecked *)
  e_reset : nat -> Z -> e_st -> outcome e_st;      (* reset_dim *)
  e_step : nat -> e_st -> outcome e_st             (* step_dim *)
}.
Arguments mkExpr {A} _ _ _ _ _ _ _ _ _.
Arguments e_st {A} _.
Arguments e_init {A} _.
Arguments e_ty {A} _.
Arguments e_dims {A} _.
Arguments e_inner {A} _.
Arguments e_rep {A} _.
Arguments e_get {A} _ _ _.
Arguments e_reset {A} _ _ _ _.
Arguments e_step {A} _ _ _.

(** expression.rs:142-144 [rank]. *)
Definition e_rank {A} (e : expression A) : nat := length (e_dims e).

(** ** Iteration: iter.rs *)

(** iter.rs:10-16. *)
Record iter {A} (e : expression A) : Type := mkIter {
  it_st : e_st e;
  it_index : Z;                                    (* inner_index *)
  it_limit : Z;                                    (* inner_limit *)
  it_outer : list Z;                               (* outer_index *)
  it_olimit : list Z                               (* outer_limit *)
}.
Arguments mkIter {A} {e} _ _ _ _ _.
Arguments it_st {A} {e} _.
Arguments it_index {A} {e} _.
Arguments it_limit {A} {e} _.
Arguments it_outer {A} {e} _.
Arguments it_olimit {A} {e} _.

(** iter.rs:20, 38: [rank.saturating_sub(inner_rank)]. *)
Definition outer_rank {A} (e : expression A) : nat :=
  match e_inner e with None => O | Some k => (e_rank e - k)%nat end.

(** iter.rs:19-35 [Iter::new].  The unused outer index of rank-0 iterations is [[]]. *)
Definition it_new {A} (e : expression A) : iter e :=
  let q := outer_rank e in
  mkIter (e_init e) 0 (fold_left Z.mul (skipn q (e_dims e)) 1)
    (if (0 <? q)%nat then repeat 0 (e_rank e) else [])
    (if (0 <? q)%nat then e_dims e else []).

(** iter.rs:47-57: the loop over the outer dimensions [n-1, .., 0].  Returns whether it
    stepped, the state of the expression and the outer index. *)
Fixpoint step_loop {A} (e : expression A) (olimit : list Z) (n : nat) (st : e_st e)
    (outer : list Z) : outcome (bool * e_st e * list Z) :=
  match n with
  | O => Ok (false, st, outer)
  | S i =>
      if nth i outer 0 + 1 <? nth i olimit 0
      then let* st := e_step e i st in
           Ok (true, st, upd outer i (nth i outer 0 + 1))
      else let* st := e_reset e i (nth i outer 0) st in
           step_loop e olimit i st (upd outer i 0)
  end.

(** iter.rs:37-63 [step_outer]. *)
Definition step_outer {A} {e : expression A} (it : iter e) : outcome (bool * iter e) :=
  let q := outer_rank e in
  let* st := if (q <? e_rank e)%nat then e_reset e (e_rank e - 1) 0 (it_st it) else Ok (it_st it) in
  let* (b, st, outer) := step_loop e (it_olimit it) q st (it_outer it) in
  let outer := if b then outer else map (fun _ => 0) outer in
  Ok (b, mkIter st (it_index it) (it_limit it) outer (it_olimit it)).

(** iter.rs:84-86: the inner loop over [i, .., i+n-1] with the closure [f]. *)
Fixpoint inner_loop {A T} (e : expression A) (f : T -> A -> outcome T) (n : nat) (i : Z)
    (st : e_st e) (acc : T) : outcome (e_st e * T) :=
  match n with
  | O => Ok (st, acc)
  | S k =>
      let* (a, st) := e_get e i st in
      let* acc := f acc a in
      inner_loop e f k (i + 1) st acc
  end.

(** iter.rs:83-93: [loop], with fuel for the outer iterations. *)
Fixpoint fold_loop {A T} {e : expression A} (f : T -> A -> outcome T) (fuel : nat) (it : iter e)
    (acc : T) : outcome T :=
  match fuel with
  | O => NoFuel
  | S k =>
      let n := Z.to_nat (it_limit it - it_index it) in
      let* (st, acc) := inner_loop e f n (it_index it) (it_st it) acc in
      let* (b, it) := step_outer (mkIter st (it_index it) (it_limit it) (it_outer it) (it_olimit it)) in
      if b
      then fold_loop f k (mkIter (it_st it) 0 (it_limit it) (it_outer it) (it_olimit it)) acc
      else Ok acc
  end.

(** Enough fuel for any iteration: the number of outer indices. *)
Definition it_fuel {A} {e : expression A} (it : iter e) : nat :=
  S (Z.to_nat (fold_left Z.mul (map (Z.max 1) (firstn (outer_rank e) (it_olimit it))) 1)).

(** iter.rs:80-94 [fold]. *)
Definition it_fold {A T} {e : expression A} (f : T -> A -> outcome T) (it : iter e) (acc : T)
  : outcome T := fold_loop f (it_fuel it) it acc.

(** iter.rs:96-108 [next]. *)
Definition it_next {A} {e : expression A} (it : iter e) : outcome (option A * iter e) :=
  let take (it : iter e) :=
    let i := it_index it + 1 in
    let* (a, st) := e_get e (i - 1) (it_st it) in
    Ok (Some a, mkIter st i (it_limit it) (it_outer it) (it_olimit it)) in
  if it_index it =? it_limit it
  then let* (b, it) := step_outer it in
       if b
       then take (mkIter (it_st it) 0 (it_limit it) (it_outer it) (it_olimit it))
       else Ok (None, it)
  else take it.

(** [n] calls of [next], with their results. *)
Fixpoint it_nexts {A} {e : expression A} (n : nat) (it : iter e) : outcome (list (option A) * iter e) :=
  match n with
  | O => Ok ([], it)
  | S k => let* (x, it) := it_next it in
           let* (l, it) := it_nexts k it in
           Ok (x :: l, it)
  end.

(** iter.rs:114-116: the loop of [size_hint]. *)
Fixpoint size_loop (n : nat) (limit index : list Z) (len : Z) : Z :=
  match n, limit, index with
  | S k, l :: lt, i :: it => size_loop k lt it (len * l - i)
  | _, _, _ => len
  end.

(** iter.rs:110-121 [size_hint] (without wrap-around; see Machine.v). *)
Definition it_size {A} {e : expression A} (it : iter e) : Z :=
  size_loop (outer_rank e) (it_olimit it) (it_outer it) 1 * it_limit it - it_index it.

(** expression.rs:108-121 [fold], [for_each]. *)
Definition e_fold {A T} (e : expression A) (f : T -> A -> outcome T) (acc : T) : outcome T :=
  it_fold f (it_new e) acc.

(** [into_iter().collect()] by internal iteration: the items in visiting order. *)
Definition e_collect {A} (e : expression A) : outcome (list A) :=
  let* l := e_fold e (fun l a => Ok (a :: l)) [] in Ok (rev l).

(** ** Views as expressions: view.rs:346-395 *)

(** The item is a reference: the address of the element.  Making a reference outside the
    storage of [n] cells is undefined behaviour.  The state is the moved pointer. *)
Definition e_ref (n addr : Z) : outcome Z := if (0 <=? addr) && (addr <? n) then Ok addr else UB.

(** view.rs:363-371 [inner_rank]. *)
Definition map_inner_rank (m : mapping) : option nat :=
  match m_layout m with
  | Dense => match sh_rank (m_ty m) with Some O => None | _ => Some (m_rank m) end
  | Strided => if (0 <? m_rank m)%nat then Some 1%nat else None
  end.

(** [rep] is [true] for [View] and [false] for [ViewMut] (view.rs:458-459). *)
Definition e_view (n : Z) (rep : bool) (v : view) : expression Z :=
  let m := v_map v in
  mkExpr Z (v_ptr v) (v_ty v) (v_dims v) (map_inner_rank m) rep
    (fun i p => let* r := e_ref n (p + inner_stride m * i) in Ok (r, p))
    (fun d c p => let* s := m_stride m d in Ok (p + - s * c))
    (fun d p => let* s := m_stride m d in Ok (p + s)).

(** ** Adapters: adapters.rs *)

(** adapters.rs:276-304 [Map]: the closure [f] with state [F]. *)
Definition e_map {A B F : Type} (f : A -> F -> outcome (B * F)) (f0 : F) (e : expression A)
  : expression B :=
  mkExpr (e_st e * F) (e_init e, f0) (e_ty e) (e_dims e) (e_inner e) (e_rep e)
    (fun i s => let* (a, st) := e_get e i (fst s) in
                let* (b, fs) := f a (snd s) in Ok (b, (st, fs)))
    (fun d c s => let* st := e_reset e d c (fst s) in Ok (st, snd s))
    (fun d s => let* st := e_step e d (fst s) in Ok (st, snd s)).

(** adapters.rs:127-155 [Cloned]; [cl] is [T::clone] acting on the referenced element. *)
Definition e_cloned {A B F : Type} (cl : A -> F -> outcome (B * F)) (f0 : F) (e : expression A)
  : expression B :=
  mkExpr (e_st e * F) (e_init e, f0) (e_ty e) (e_dims e) (e_inner e) (e_rep e)
    (fun i s => let* (a, st) := e_get e i (fst s) in
                let* (b, fs) := cl a (snd s) in Ok (b, (st, fs)))
    (fun d c s => let* st := e_reset e d c (fst s) in Ok (st, snd s))
    (fun d s => let* st := e_step e d (fst s) in Ok (st, snd s)).

(** adapters.rs:172-200 [Copied]; [rd] reads the referenced element. *)
Definition e_copied {A B : Type} (rd : A -> outcome B) (e : expression A) : expression B :=
  mkExpr (e_st e) (e_init e) (e_ty e) (e_dims e) (e_inner e) (e_rep e)
    (fun i s => let* (a, st) := e_get e i s in let* b := rd a in Ok (b, st))
    (fun d c s => e_reset e d c s)
    (fun d s => e_step e d s).

(** adapters.rs:211-253 [Enumerate]. *)
Definition e_enumerate {A : Type} (e : expression A) : expression (Z * A) :=
  mkExpr (e_st e * Z) (e_init e, 0) (e_ty e) (e_dims e) (e_inner e) (e_rep e)
    (fun i s => let c := snd s + 1 in
                let* (a, st) := e_get e i (fst s) in Ok ((c - 1, a), (st, c)))
    (fun d c s => let* st := e_reset e d c (fst s) in Ok (st, snd s))
    (fun d s => let* st := e_step e d (fst s) in Ok (st, snd s)).

(** [usize::min] with [None] for [usize::MAX]. *)
Definition inner_min (a b : option nat) : option nat :=
  match a, b with
  | None, x => x
  | x, None => x
  | Some i, Some j => Some (Nat.min i j)
  end.

(** adapters.rs:347: [Reverse<Merge<S::Reverse, R::Reverse>>]. *)
Definition zip_ty (s r : shty) : shty := sh_reverse (sh_merge (sh_reverse s) (sh_reverse r)).

(** adapters.rs:320-331: the shape of the zip. *)
Definition zip_dims (ty : shty) (a b : list Z) : outcome (list Z) :=
  let dims := if (length a <? length b)%nat then b else a in
  let* _ := assert (slice_eqb (skipn (length dims - length b) a) (skipn (length dims - length a) b)) in
  sh_from_dims ty dims.

(** adapters.rs:342-390: the methods of [Zip]. *)
Definition zip_expr {A B : Type} (a : expression A) (b : expression B) (dims : list Z)
  : expression (A * B) :=
  let rank := length dims in
  mkExpr (e_st a * e_st b) (e_init a, e_init b) (zip_ty (e_ty a) (e_ty b)) dims
    (inner_min (e_inner a) (e_inner b)) (e_rep a && e_rep b)
    (fun i s => let* (x, sa) := e_get a i (fst s) in
                let* (y, sb) := e_get b i (snd s) in Ok ((x, y), (sa, sb)))
    (fun d c s =>
       let delta := (rank - d)%nat in
       let* sa := if (delta <=? e_rank a)%nat then e_reset a (e_rank a - delta) c (fst s) else Ok (fst s) in
       let* sb := if (delta <=? e_rank b)%nat then e_reset b (e_rank b - delta) c (snd s) else Ok (snd s) in
       Ok (sa, sb))
    (fun d s =>
       let delta := (rank - d)%nat in
       let* sa := if (delta <=? e_rank a)%nat then e_step a (e_rank a - delta) (fst s) else Ok (fst s) in
       let* sb := if (delta <=? e_rank b)%nat then e_step b (e_rank b - delta) (snd s) else Ok (snd s) in
       Ok (sa, sb)).

(** adapters.rs:316-334 [Zip::new]; expression.rs:151-156 [zip]. *)
Definition e_zip {A B : Type} (a : expression A) (b : expression B) : outcome (expression (A * B)) :=
  let* _ := assert (e_rep a || (e_rank b <=? e_rank a)%nat) in
  let* _ := assert (e_rep b || (e_rank a <=? e_rank b)%nat) in
  let* dims := zip_dims (zip_ty (e_ty a) (e_ty b)) (e_dims a) (e_dims b) in
  Ok (zip_expr a b dims).

(** ** Sources: sources.rs *)

(** sources.rs:263-294 [FillWith]; the closure has state [F]. *)
Definition e_fill_with {A F : Type} (f : F -> outcome (A * F)) (f0 : F) : expression A :=
  mkExpr F f0 (STuple []) [] None true
    (fun _ s => f s) (fun _ _ s => Ok s) (fun _ s => Ok s).

(** sources.rs:221-252 [Fill]; [cl] clones the value. *)
Definition e_fill {A F : Type} (cl : F -> outcome (A * F)) (f0 : F) : expression A :=
  mkExpr F f0 (STuple []) [] None true
    (fun _ s => cl s) (fun _ _ s => Ok s) (fun _ s => Ok s).

(** sources.rs:305-338 [FromElem]. *)
Definition e_from_elem {A F : Type} (ty : shty) (dims : list Z) (cl : F -> outcome (A * F)) (f0 : F)
  : outcome (expression A) :=
  match sh_checked_len dims with
  | None => Panic
  | Some _ =>
      Ok (mkExpr F f0 ty dims None true
            (fun _ s => cl s) (fun _ _ s => Ok s) (fun _ s => Ok s))
  end.

(** [S::Dims::default()]: an array of zeros for static ranks, an empty box for [DynRank]
    (shape.rs:288, 432; dim.rs:91-111). *)
Definition dims_default (ty : shty) : list Z :=
  match ty with SDynRank => [] | STuple ds => repeat 0 (length ds) end.

(** [x.as_mut()[i] = g(x[i])] with the bounds check. *)
Definition upd_checked (l : list Z) (i : nat) (g : Z -> Z) : outcome (list Z) :=
  let* x := get_nth l i in Ok (upd l i (g x)).

(** sources.rs:349-397 [FromFn]; the closure gets the index slice and has state [F]. *)
Definition e_from_fn {A F : Type} (ty : shty) (dims : list Z)
    (f : list Z -> F -> outcome (A * F)) (f0 : F) : outcome (expression A) :=
  match sh_checked_len dims with
  | None => Panic
  | Some _ =>
      let rank := length dims in
      Ok (mkExpr (list Z * F) (dims_default ty, f0) ty dims
            (if (0 <? rank)%nat then Some 1%nat else None) true
            (fun _ s =>
               let* (a, fs) := f (fst s) (snd s) in
               let* index := if (0 <? rank)%nat
                             then upd_checked (fst s) (rank - 1) (fun x => x + 1) else Ok (fst s) in
               Ok (a, (index, fs)))
            (fun d _ s => let* index := upd_checked (fst s) d (fun _ => 0) in Ok (index, snd s))
            (fun d s =>
               if (d + 1 <? rank)%nat
               then let* index := upd_checked (fst s) d (fun x => x + 1) in Ok (index, snd s)
               else Ok s))
  end.

(** sources.rs:134-201 [AxisExpr], [AxisExprMut] ([rep = false]); items are views.  The state is
    [offset]. *)
Definition e_axis (rep : bool) (v : view) (a : axis) : outcome (expression view) :=
  let* m := ax_get a (v_map v) in
  Ok (mkExpr Z 0 (STuple [ax_dim a (v_ty v)]) (m_dims m) (Some 1%nat) rep
        (fun i off =>
           let offset := off + inner_stride m * i in
           let* m' := ax_remove_map a (v_map v) in
           match sh_checked_len (m_dims m') with
           | None => Panic
           | Some len => Ok (mkView (v_ptr v + if len =? 0 then 0 else offset) m', off)
           end)
        (fun _ _ _ => Ok 0)
        (fun _ off => Ok (off + inner_stride m))).

(** sources.rs:408-482 [Lanes], [LanesMut] ([rep = false]).  [get_unchecked] (441-449) computes
    the offset from the index alone. *)
Definition e_lanes (rep : bool) (v : view) (a : axis) : outcome (expression view) :=
  let* m := ax_remove_map a (v_map v) in
  match sh_checked_len (m_dims m) with
  | None => Panic
  | Some _ =>
      Ok (mkExpr Z 0 (ax_remove a (v_ty v)) (m_dims m) (map_inner_rank m) rep
            (fun i off =>
               let offset := inner_stride m * i in
               let* m' := ax_get a (v_map v) in
               Ok (mkView (v_ptr v + if m_is_empty m' then 0 else offset) m', off))
            (fun d c off => let* s := m_stride m d in Ok (off - s * c))
            (fun d off => let* s := m_stride m d in Ok (off + s)))
  end.

(** into_expr.rs:81-106 [IntoExpr] over the owned elements [l] (row-major); the state is [index].
    Taking past the end reads memory that is not an element (only a debug assertion guards
    it), which is undefined behaviour. *)
Definition e_into {A : Type} (ty : shty) (dims : list Z) (l : list A) : expression A :=
  mkExpr Z 0 ty dims None false
    (fun _ i => match nth_error l (Z.to_nat i) with
                | Some a => Ok (a, i + 1)
                | None => UB
                end)
    (fun _ _ i => Ok i) (fun _ i => Ok i).

(** into_expr.rs:70-79: the elements dropped when the expression is dropped in state [index]. *)
Definition into_dropped {A : Type} (l : list A) (index : Z) : list A := skipn (Z.to_nat index) l.

(** expression.rs:222-231 [apply], [zip_with] of expressions; view.rs:300-315 and slice.rs:723-757
    for views. *)
Definition e_zip_with {A B C F : Type} (a : expression A) (b : expression B)
    (f : A * B -> F -> outcome (C * F)) (f0 : F) : outcome (expression C) :=
  let* z := e_zip a b in Ok (e_map f f0 z).

(** ** Writing through views *)

(** Overwriting a storage cell.  Outside the storage this is undefined behaviour. *)
Definition write {T : Type} (mem : list T) (addr : Z) (x : T) : outcome (list T) :=
  if (0 <=? addr) && (addr <? Z.of_nat (length mem)) then Ok (upd mem (Z.to_nat addr) x) else UB.

(** slice.rs:55-57 [assign]; [cl] is [clone_to] (traits.rs:17-31), acting on a captured state so that
    clones that count, or panic, are covered. *)
Definition v_assign {T Y C : Type} (cl : Y -> C -> outcome (T * C)) (v : view) (e : expression Y)
    (mem : list T) (c : C) : outcome (list T * C) :=
  let* z := e_zip (e_view (Z.of_nat (length mem)) false v) e in
  e_fold z (fun s p => let* (x, c) := cl (snd p) (snd s) in
                       let* mem := write (fst s) (fst p) x in Ok (mem, c)) (mem, c).

(** slice.rs:227-232 [fill] and 234-237 [fill_with]; [f] gives the next value. *)
Definition v_fill_with {T C : Type} (f : C -> outcome (T * C)) (v : view) (mem : list T) (c : C)
  : outcome (list T * C) :=
  e_fold (e_view (Z.of_nat (length mem)) false v)
    (fun s a => let* (x, c) := f (snd s) in
                let* mem := write (fst s) a x in Ok (mem, c)) (mem, c).
Definition v_fill {T C : Type} (cl : C -> outcome (T * C)) (v : view) (mem : list T) (c : C)
  : outcome (list T * C) := v_fill_with cl v mem c.
