(** Model of iteration ([src/expr], view.rs:346-395) with 64-bit machine integers.

    Like [Expr.v], but every sum, difference and product of [usize] or [isize] is one of [Machine.v]: with
    overflow checks ([dbg = true]) it panics when the result does not fit, without it wraps around.
    Adapters without arithmetic ([Map], [Cloned], [Copied], [Zip], [Fill], [FillWith], [FromElem]) are those of
    [Expr.v]; the subtractions in [Zip] (adapters.rs:357-385) are of ranks and cannot underflow. *)
From Verif Require Import Base Spec Shape Mapping Index View Wf Machine Expr ExprSpec ExprTree.

(** ** The iterator *)

(** iter.rs:19-35 [Iter::new]. *)
Definition x_it_new (dbg : bool) {A} (e : expression A) : outcome (iter e) :=
  let q := outer_rank e in
  let* limit := x_prod dbg 1 (skipn q (e_dims e)) in
  Ok (mkIter (e_init e) 0 limit
        (if (0 <? q)%nat then repeat 0 (e_rank e) else [])
        (if (0 <? q)%nat then e_dims e else [])).

(** iter.rs:47-57: [outer_index[i] + 1] and [outer_index[i] += 1]. *)
Fixpoint x_step_loop (dbg : bool) {A} (e : expression A) (olimit : list Z) (n : nat) (st : e_st e)
    (outer : list Z) : outcome (bool * e_st e * list Z) :=
  match n with
  | O => Ok (false, st, outer)
  | S i =>
      let* k := u_res dbg (nth i outer 0 + 1) in
      if k <? nth i olimit 0
      then let* st := e_step e i st in
           let* k := u_res dbg (nth i outer 0 + 1) in
           Ok (true, st, upd outer i k)
      else let* st := e_reset e i (nth i outer 0) st in
           x_step_loop dbg e olimit i st (upd outer i 0)
  end.

(** iter.rs:37-63 [step_outer]. *)
Definition x_step_outer (dbg : bool) {A} {e : expression A} (it : iter e) : outcome (bool * iter e) :=
  let q := outer_rank e in
  let* st := if (q <? e_rank e)%nat then e_reset e (e_rank e - 1) 0 (it_st it) else Ok (it_st it) in
  let* (b, st, outer) := x_step_loop dbg e (it_olimit it) q st (it_outer it) in
  let outer := if b then outer else map (fun _ => 0) outer in
  Ok (b, mkIter st (it_index it) (it_limit it) outer (it_olimit it)).

(** iter.rs:83-93 *)
Fixpoint x_fold_loop (dbg : bool) {A T} {e : expression A} (f : T -> A -> outcome T) (fuel : nat) (it : iter e)
    (acc : T) : outcome T :=
  match fuel with
  | O => NoFuel
  | S k =>
      let n := Z.to_nat (it_limit it - it_index it) in
      let* (st, acc) := inner_loop e f n (it_index it) (it_st it) acc in
      let* (b, it) := x_step_outer dbg (mkIter st (it_index it) (it_limit it) (it_outer it) (it_olimit it)) in
      if b
      then x_fold_loop dbg f k (mkIter (it_st it) 0 (it_limit it) (it_outer it) (it_olimit it)) acc
      else Ok acc
  end.

(** iter.rs:80-94 [fold]; expression.rs:108-121 [fold], [for_each]. *)
Definition x_it_fold (dbg : bool) {A T} {e : expression A} (f : T -> A -> outcome T) (it : iter e) (acc : T)
  : outcome T := x_fold_loop dbg f (it_fuel it) it acc.
Definition x_fold (dbg : bool) {A T} (e : expression A) (f : T -> A -> outcome T) (acc : T) : outcome T :=
  let* it := x_it_new dbg e in x_it_fold dbg f it acc.

(** iter.rs:96-108 [next].  After [inner_index += 1] the index [inner_index - 1] is that before: without
    overflow checks the two wrap around together. *)
Definition x_next (dbg : bool) {A} {e : expression A} (it : iter e) : outcome (option A * iter e) :=
  let take (it : iter e) :=
    let* i := u_res dbg (it_index it + 1) in
    let* k := u_res dbg (i - 1) in
    let* (a, st) := e_get e k (it_st it) in
    Ok (Some a, mkIter st i (it_limit it) (it_outer it) (it_olimit it)) in
  if it_index it =? it_limit it
  then let* (b, it) := x_step_outer dbg it in
       if b
       then take (mkIter (it_st it) 0 (it_limit it) (it_outer it) (it_olimit it))
       else Ok (None, it)
  else take it.

Fixpoint x_nexts (dbg : bool) {A} {e : expression A} (n : nat) (it : iter e)
  : outcome (list (option A) * iter e) :=
  match n with
  | O => Ok ([], it)
  | S k => let* (x, it) := x_next dbg it in
           let* (l, it) := x_nexts dbg k it in
           Ok (x :: l, it)
  end.

(** iter.rs:110-121 [size_hint]. *)
Fixpoint x_size_loop (dbg : bool) (n : nat) (limit index : list Z) (len : Z) : outcome Z :=
  match n, limit, index with
  | S k, l :: lt, i :: it =>
      let* p := u_res dbg (len * l) in
      let* len := u_res dbg (p - i) in
      x_size_loop dbg k lt it len
  | _, _, _ => Ok len
  end.
Definition x_size (dbg : bool) {A} {e : expression A} (it : iter e) : outcome Z :=
  let* len := x_size_loop dbg (outer_rank e) (it_olimit it) (it_outer it) 1 in
  let* p := u_res dbg (len * it_limit it) in
  u_res dbg (p - it_index it).

(** ** Views *)

(** view.rs:346-395: [get_unchecked] (357-361) multiplies the inner stride with the index, [reset_dim] (374-380)
    negates the stride and multiplies it with the count; the pointers are those of [e_view]. *)
Definition x_e_view (dbg : bool) (n : Z) (rep : bool) (v : view) : expression Z :=
  let m := v_map v in
  mkExpr Z (v_ptr v) (v_ty v) (v_dims v) (map_inner_rank m) rep
    (fun i p => let* count := i_res dbg (inner_stride m * as_isize i) in
                let* r := e_ref n (p + count) in Ok (r, p))
    (fun d c p => let* s := x_stride dbg m d in
                  let* t := i_res dbg (- s) in
                  let* count := i_res dbg (t * as_isize c) in
                  Ok (p + count))
    (fun d p => let* s := x_stride dbg m d in Ok (p + s)).

(** ** Sources and adapters with arithmetic *)

(** axis.rs:30-37 [get]. *)
Definition x_ax_get (dbg : bool) (a : axis) (m : mapping) : outcome mapping :=
  let* i := ax_index a (m_rank m) in
  let* d := m_dim m i in
  let* s := x_stride dbg m i in
  x_prepend_dim dbg (ax_keep a (m_ty m) (m_layout m)) (STuple [ax_dim a (m_ty m)])
    (DenseM (STuple []) []) d s.

(** sources.rs:134-201 [AxisExpr], [AxisExprMut]. *)
Definition x_axis (dbg : bool) (rep : bool) (v : view) (a : axis) : outcome (expression view) :=
  let* m := x_ax_get dbg a (v_map v) in
  Ok (mkExpr Z 0 (STuple [ax_dim a (v_ty v)]) (m_dims m) (Some 1%nat) rep
        (fun i off =>
           let* p := i_res dbg (inner_stride m * as_isize i) in
           let* offset := i_res dbg (off + p) in
           let* m' := x_ax_remove dbg a (v_map v) in
           match sh_checked_len (m_dims m') with
           | None => Panic
           | Some len => Ok (mkView (v_ptr v + if len =? 0 then 0 else offset) m', off)
           end)
        (fun _ _ _ => Ok 0)
        (fun _ off => i_res dbg (off + inner_stride m))).

(** sources.rs:408-482 [Lanes], [LanesMut]. *)
Definition x_lanes (dbg : bool) (rep : bool) (v : view) (a : axis) : outcome (expression view) :=
  let* m := x_ax_remove dbg a (v_map v) in
  match sh_checked_len (m_dims m) with
  | None => Panic
  | Some _ =>
      Ok (mkExpr Z 0 (ax_remove a (v_ty v)) (m_dims m) (map_inner_rank m) rep
            (fun i off =>
               let* offset := i_res dbg (inner_stride m * as_isize i) in
               let* m' := x_ax_get dbg a (v_map v) in
               let* b := x_is_empty dbg (m_dims m') in
               Ok (mkView (v_ptr v + if b : bool then 0 else offset) m', off))
            (fun d c off => let* s := x_stride dbg m d in
                            let* p := i_res dbg (s * as_isize c) in
                            i_res dbg (off - p))
            (fun d off => let* s := x_stride dbg m d in i_res dbg (off + s)))
  end.

(** into_expr.rs:81-106 [IntoExpr]; the debug assertion (91) compares with the length. *)
Definition x_into {A : Type} (dbg : bool) (ty : shty) (dims : list Z) (l : list A) : expression A :=
  mkExpr Z 0 ty dims None false
    (fun _ i => let* _ := if dbg then let* n := x_len dbg dims in assert (i <? n) else Ok tt in
                let* k := u_res dbg (i + 1) in
                let* j := u_res dbg (k - 1) in
                match nth_error l (Z.to_nat j) with
                | Some a => Ok (a, k)
                | None => UB
                end)
    (fun _ _ i => Ok i) (fun _ i => Ok i).

(** [x.as_mut()[i] += 1] with the bounds check. *)
Definition x_incr (dbg : bool) (l : list Z) (i : nat) : outcome (list Z) :=
  let* x := get_nth l i in let* y := u_res dbg (x + 1) in Ok (upd l i y).

(** sources.rs:349-397 [FromFn]. *)
Definition x_from_fn {A F : Type} (dbg : bool) (ty : shty) (dims : list Z)
    (f : list Z -> F -> outcome (A * F)) (f0 : F) : outcome (expression A) :=
  match sh_checked_len dims with
  | None => Panic
  | Some _ =>
      let rank := length dims in
      Ok (mkExpr (list Z * F) (dims_default ty, f0) ty dims
            (if (0 <? rank)%nat then Some 1%nat else None) true
            (fun _ s =>
               let* (a, fs) := f (fst s) (snd s) in
               let* index := if (0 <? rank)%nat then x_incr dbg (fst s) (rank - 1) else Ok (fst s) in
               Ok (a, (index, fs)))
            (fun d _ s => let* index := upd_checked (fst s) d (fun _ => 0) in Ok (index, snd s))
            (fun d s =>
               if (d + 1 <? rank)%nat
               then let* index := x_incr dbg (fst s) d in Ok (index, snd s)
               else Ok s))
  end.

(** adapters.rs:211-253 [Enumerate]. *)
Definition x_enumerate {A : Type} (dbg : bool) (e : expression A) : expression (Z * A) :=
  mkExpr (e_st e * Z) (e_init e, 0) (e_ty e) (e_dims e) (e_inner e) (e_rep e)
    (fun i s => let* c := u_res dbg (snd s + 1) in
                let* k := u_res dbg (c - 1) in
                let* (a, st) := e_get e i (fst s) in Ok ((k, a), (st, c)))
    (fun d c s => let* st := e_reset e d c (fst s) in Ok (st, snd s))
    (fun d s => let* st := e_step e d (fst s) in Ok (st, snd s)).

(** The expression that the code builds for a tree. *)
Fixpoint x_build (dbg : bool) {A} (t : tree A) : outcome (expression A) :=
  match t in tree A return outcome (expression A) with
  | TView n rep v => Ok (x_e_view dbg n rep v)
  | TAxis rep v a => x_axis dbg rep v a
  | TLanes rep v a => x_lanes dbg rep v a
  | TInto ty dims l => Ok (x_into dbg ty dims l)
  | TFill cl f0 => Ok (e_fill cl f0)
  | TFillWith f f0 => Ok (e_fill_with f f0)
  | TFromElem ty dims cl f0 => e_from_elem ty dims cl f0
  | TFromFn ty dims f f0 => x_from_fn dbg ty dims f f0
  | TMap f f0 t => let* e := x_build dbg t in Ok (e_map f f0 e)
  | TCloned cl f0 t => let* e := x_build dbg t in Ok (e_cloned cl f0 e)
  | TCopied rd t => let* e := x_build dbg t in Ok (e_copied rd e)
  | TEnumerate t => let* e := x_build dbg t in Ok (x_enumerate dbg e)
  | TZip a b => let* x := x_build dbg a in let* y := x_build dbg b in e_zip x y
  end.

(** ** What is asked of the leaves *)

(** The view has elements and at most [isize::MAX] cells; its strides are machine integers.  With overflow checks
    no stride is [isize::MIN], whose negation overflows. *)
Definition walkable (dbg : bool) (n : Z) (v : view) : Prop :=
  valid_view n v /\ n <= isize_max /\ positive (v_dims v) /\
  Forall (fun s => isize_min <= s <= isize_max /\ (dbg = true -> s <> isize_min)) (m_strides (v_map v)).

Fixpoint t_machine (dbg : bool) (size : view -> Z) {A} (t : tree A) : Prop :=
  match t with
  | TView n _ v => walkable dbg n v
  | TAxis _ v _ | TLanes _ v _ => walkable dbg (size v) v
  | TInto _ dims _ | TFromElem _ dims _ _ | TFromFn _ dims _ _ => positive dims /\ prodZ dims <= usize_max
  | TFill _ _ | TFillWith _ _ => True
  | TMap _ _ t | TCloned _ _ t => t_machine dbg size t
  | TCopied _ t => t_machine dbg size t
  | TEnumerate t => t_machine dbg size t
  | TZip a b => t_machine dbg size a /\ t_machine dbg size b
  end.
