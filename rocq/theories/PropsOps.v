(** Theorems for C38-C41, C48 and C50: equality, hashing, [contains], debug output, operators and
    dynamic-rank shapes.

    [contents mem v xs] ([OpsFacts.v]): [xs] are the elements [v[idx]] in row-major order of [idx].
    [fits dims]: no product of leading dimensions exceeds [usize::MAX].  Every nonempty array whose
    storage exists fits ([nonempty_fits]); an empty one fits unless a product of its other
    dimensions overflows.  [view_fine v]: [v] is dense, or has no zero among its dimensions except
    possibly the last. *)
From Verif Require Import Base Spec SpecFacts Shape Mapping Index View Wf MappingFacts MapOps
  ReshapeFacts IndexFacts ViewFacts ViewMore PropsView.
From Verif Require Import Expr ExprSpec ExprFacts IterFacts SourceFacts ExprTree ExprMore PropsExpr.
From Verif Require Import Tensor TraceFacts TensorSpec TensorFacts ResizeFacts TensorOps DrainFacts OwnFacts
  ZipFacts OwnMore History HistoryFacts OwnProps PropsTensor.
From Verif Require Import Ops OpsFacts OpsMore.
Unset Strict Implicit.

(** ** C38 *)

(** [a == b] is true exactly if the dimensions are equal and the elements are equal at every index. *)
Theorem c38_eq_partial : forall T U (eqb : T -> U -> bool) am bm a b,
  valid_view (Z.of_nat (length am)) a -> valid_view (Z.of_nat (length bm)) b -> fits (v_dims a) ->
  exists r, v_eq (fun x y => Ok (eqb x y)) am bm a b = Ok r /\
    (r = true <-> v_dims a = v_dims b /\
       forall idx x y, in_bounds (v_dims a) idx -> v_get am a idx = Ok x -> v_get bm b idx = Ok y -> eqb x y = true).
Proof. exact @v_eq_pure. Qed.
Print Assumptions c38_eq_partial.

(** The same without the guard if [a] has elements. *)
Theorem c38_nonempty : forall T U (eqb : T -> U -> bool) am bm a b,
  valid_view (Z.of_nat (length am)) a -> valid_view (Z.of_nat (length bm)) b ->
  Z.of_nat (length am) <= usize_max -> 0 < prodZ (v_dims a) ->
  exists r, v_eq (fun x y => Ok (eqb x y)) am bm a b = Ok r /\
    (r = true <-> v_dims a = v_dims b /\
       forall idx x y, in_bounds (v_dims a) idx -> v_get am a idx = Ok x -> v_get bm b idx = Ok y -> eqb x y = true).
Proof. intros T U eqb am bm a b HA HB HM HP. exact (v_eq_pure eqb HA HB (nonempty_fits HA HM HP)). Qed.
Print Assumptions c38_nonempty.

(** An element comparison that can panic is called on the pairs in row-major order up to the first
    difference; with unequal dimensions it is not called. *)
Theorem c38_calls_partial : forall T U (eq : T -> U -> outcome bool) am bm a b xs ys,
  valid_view (Z.of_nat (length am)) a -> valid_view (Z.of_nat (length bm)) b -> fits (v_dims a) ->
  contents am a xs -> contents bm b ys ->
  (v_dims a = v_dims b -> v_eq eq am bm a b = list_eq eq xs ys) /\
  (v_dims a <> v_dims b -> v_eq eq am bm a b = Ok false).
Proof. exact @v_eq_ok. Qed.
Print Assumptions c38_calls_partial.

(** A transposed 2x2 view against a dense one: equal, different in the last element, and different
    in shape only. *)
Definition zeq (x y : Z) : outcome bool := Ok (x =? y).
Example c38_example :
  (valid_view 4 ex_2x2 /\ fits (v_dims ex_2x2)) /\
  v_eq zeq [1; 2; 3; 4] [1; 3; 2; 4] ex_2x2 (whole ty2 [2; 2]) = Ok true /\
  v_eq zeq [1; 2; 3; 4] [1; 3; 2; 5] ex_2x2 (whole (STuple [DDyn; DConst 2]) [2; 2]) = Ok false /\
  v_eq zeq [1; 2; 3; 4] [1; 2; 3; 4] (whole ty2 [2; 2]) (whole ty2 [1; 4]) = Ok false /\
  v_eq zeq ex_mem ex_mem ex_rev ex_rev = Ok true.
Proof.
  split; [split; [exact ex_2x2_valid|intros [|[|[|k]]]; vm_compute; discriminate]|]. vm_all.
Qed.

(** The guard is needed: comparing this empty view with itself panics. *)
Theorem c38_refuted : exists v, valid_view 0 v /\ v_eq zeq [] [] v v = Panic.
Proof. exists ex_big. split; [exact ex_big_valid|]. vm_compute. reflexivity. Qed.
Print Assumptions c38_refuted.

(** ** C39 *)

(** If equal elements feed the same values to the hasher, so do equal arrays. *)
Theorem c39_hash_partial : forall T U H (eqb : T -> U -> bool) (h1 : T -> list H) (h2 : U -> list H) am bm a b,
  (forall x y, eqb x y = true -> h1 x = h2 y) ->
  valid_view (Z.of_nat (length am)) a -> valid_view (Z.of_nat (length bm)) b -> fits (v_dims a) ->
  view_fine a -> view_fine b ->
  v_eq (fun x y => Ok (eqb x y)) am bm a b = Ok true ->
  exists out, v_hash h1 am a = Ok out /\ v_hash h2 bm b = Ok out.
Proof. exact @hash_eq. Qed.
Print Assumptions c39_hash_partial.

Lemma positive_removelast dims : 0 < prodZ dims -> nonneg dims -> positive (removelast dims).
Proof.
  intros HP HN. rewrite removelast_firstn'. apply positive_firstn. apply prodZ_pos_inv; auto.
Qed.

(** For arrays with elements, whatever their layouts. *)
Theorem c39_nonempty : forall T U H (eqb : T -> U -> bool) (h1 : T -> list H) (h2 : U -> list H) am bm a b,
  (forall x y, eqb x y = true -> h1 x = h2 y) ->
  valid_view (Z.of_nat (length am)) a -> valid_view (Z.of_nat (length bm)) b ->
  Z.of_nat (length am) <= usize_max -> 0 < prodZ (v_dims a) ->
  v_eq (fun x y => Ok (eqb x y)) am bm a b = Ok true ->
  exists out, v_hash h1 am a = Ok out /\ v_hash h2 bm b = Ok out.
Proof.
  intros T U H eqb h1 h2 am bm a b HH HA HB HM HP E.
  pose proof (nonempty_fits HA HM HP) as HF.
  assert (ED : v_dims a = v_dims b).
  { destruct (v_eq_pure eqb HA HB HF) as (r & E' & G). rewrite E in E'. injection E' as <-. now apply G. }
  apply (hash_eq HH HA HB HF); auto; right; left; apply positive_removelast; try apply wf_nonneg; try apply vv_wf; auto.
  - exact (vv_wf HA).
  - now rewrite <- ED.
  - exact (vv_wf HB).
Qed.
Print Assumptions c39_nonempty.

(** What the hasher is given: the dimensions and then the elements in row-major order. *)
Theorem c39_sequence_partial : forall T H (hash : T -> list H) mem v xs,
  valid_view (Z.of_nat (length mem)) v -> view_fine v -> contents mem v xs ->
  v_hash hash mem v = Ok (map HDim (v_dims v) ++ map HElem (flat_map hash xs)).
Proof. exact @hash_ok. Qed.
Print Assumptions c39_sequence_partial.

Example c39_example :
  v_hash (fun x : Z => [x; x + 10]) [1; 2; 3; 4] ex_2x2 =
    Ok [HDim 2; HDim 2; HElem 1; HElem 11; HElem 3; HElem 13; HElem 2; HElem 12; HElem 4; HElem 14] /\
  v_hash (fun x : Z => [x; x + 10]) [1; 3; 2; 4] (whole ty2 [2; 2]) =
    v_hash (fun x : Z => [x; x + 10]) [1; 2; 3; 4] ex_2x2.
Proof. vm_all. Qed.

(** False for empty arrays.  [ex_none] is the first 0 rows of the transposed 3x2 array: it equals
    the dense array of dimensions [0;3], but hashing it also feeds the three elements of its first
    row to the hasher, which are not its elements.  Hashing the transposed [3;0] array reads
    outside the storage. *)
Definition ex_none : view := mkView 0 (StridedM ty2 [0; 3] [1; 2]).
Example ex_none_made :
  v_run (whole ty2 [3; 2]) [OpReorder; OpView [IxRange (Included 0) (Excluded 0); IxFull]] = Ok ex_none.
Proof. vm_compute. reflexivity. Qed.
Example ex_none_valid : valid_view 6 ex_none.
Proof. apply empty_valid; [wf_tac|reflexivity]. Qed.
Theorem c39_refuted : exists a b (mem : list Z),
  valid_view (Z.of_nat (length mem)) a /\ valid_view 0 b /\
  v_eq zeq mem [] a b = Ok true /\
  v_hash (fun x => [x]) mem a = Ok [HDim 0; HDim 3; HElem 10; HElem 12; HElem 14] /\
  v_hash (fun x : Z => [x]) [] b = Ok [HDim 0; HDim 3].
Proof.
  exists ex_none, (whole ty2 [0; 3]), [10; 11; 12; 13; 14; 15]. split; [exact ex_none_valid|].
  split; [apply empty_valid; [wf_tac|reflexivity]|]. vm_all.
Qed.
Print Assumptions c39_refuted.
Theorem c39_unsafe_refuted : exists v, valid_view 0 v /\
  v_run (whole ty2 [3; 0]) [OpReorder] = Ok v /\ v_hash (fun x : Z => [x]) [] v = UB.
Proof. exists ex_0x3. split; [exact ex_0x3_valid|]. vm_all. Qed.
Print Assumptions c39_unsafe_refuted.

(** ** C40 *)

Theorem c40_contains_partial : forall T (eqb : T -> T -> bool) mem v value,
  valid_view (Z.of_nat (length mem)) v -> fits (v_dims v) ->
  exists r, v_contains (fun x y => Ok (eqb x y)) mem v value = Ok r /\
    (r = true <-> exists idx x, in_bounds (v_dims v) idx /\ v_get mem v idx = Ok x /\ eqb x value = true).
Proof. exact @contains_pure. Qed.
Print Assumptions c40_contains_partial.
Theorem c40_nonempty : forall T (eqb : T -> T -> bool) mem v value,
  valid_view (Z.of_nat (length mem)) v -> Z.of_nat (length mem) <= usize_max -> 0 < prodZ (v_dims v) ->
  exists r, v_contains (fun x y => Ok (eqb x y)) mem v value = Ok r /\
    (r = true <-> exists idx x, in_bounds (v_dims v) idx /\ v_get mem v idx = Ok x /\ eqb x value = true).
Proof. intros T eqb mem v value HV HM HP. exact (contains_pure eqb value HV (nonempty_fits HV HM HP)). Qed.
Print Assumptions c40_nonempty.

(** The comparison is called as [element == value], in row-major order, up to the first match. *)
Theorem c40_calls_partial : forall T (eq : T -> T -> outcome bool) mem value v xs,
  valid_view (Z.of_nat (length mem)) v -> fits (v_dims v) -> contents mem v xs ->
  v_contains eq mem v value = list_any (fun x => eq x value) xs.
Proof. intros T eq mem value v xs HV HF HX. exact (contains_loop_ok eq value HV (le_n _) HF HX). Qed.
Print Assumptions c40_calls_partial.

(** 110 is an element of the strided view, 101 is in its storage but not an element. *)
Example c40_example : v_contains zeq ex_mem ex_rev 110 = Ok true /\ v_contains zeq ex_mem ex_rev 101 = Ok false /\
  v_contains zeq ex_mem (whole ty3 [2; 3; 4]) 101 = Ok true /\ v_contains zeq [] (whole ty2 [0; 3]) 1 = Ok false.
Proof. vm_all. Qed.

Theorem c40_refuted : exists v, valid_view 0 v /\ v_contains zeq [] v 1 = Panic.
Proof. exists ex_big. split; [exact ex_big_valid|]. vm_compute. reflexivity. Qed.
Print Assumptions c40_refuted.

(** ** C48 *)

(** [nested get dims] is the element for rank 0 and otherwise the list of the nested forms of the
    subarrays along the first dimension. *)
Theorem c48_debug_partial : forall T D (fmt : T -> outcome D) mem v,
  valid_view (Z.of_nat (length mem)) v -> fits (v_dims v) ->
  v_debug fmt mem v = nested (fun idx => let* x := v_get mem v idx in fmt x) (v_dims v).
Proof. intros T D fmt mem v HV HF. exact (debug_ok fmt HV (le_n _) HF). Qed.
Print Assumptions c48_debug_partial.
Theorem c48_nonempty : forall T D (fmt : T -> outcome D) mem v,
  valid_view (Z.of_nat (length mem)) v -> Z.of_nat (length mem) <= usize_max -> 0 < prodZ (v_dims v) ->
  v_debug fmt mem v = nested (fun idx => let* x := v_get mem v idx in fmt x) (v_dims v).
Proof. intros T D fmt mem v HV HM HP. exact (debug_ok fmt HV (le_n _) (nonempty_fits HV HM HP)). Qed.
Print Assumptions c48_nonempty.
(** The elements in the output, from left to right, are those of the array in row-major order. *)
Theorem c48_leaves_partial : forall T D (fmt : T -> D) mem v xs,
  valid_view (Z.of_nat (length mem)) v -> fits (v_dims v) -> contents mem v xs ->
  exists t, v_debug (fun x => Ok (fmt x)) mem v = Ok t /\ leaves t = map fmt xs.
Proof.
  intros T D fmt mem v xs HV HF HX. rewrite c48_debug_partial by auto.
  assert (HX' : Forall2 (fun idx d => (let* x := v_get mem v idx in Ok (fmt x)) = Ok d) (indices (v_dims v)) (map fmt xs)).
  { clear - HX. unfold contents in HX. induction HX as [|idx x l xs H HX IH]; cbn [map]; constructor; auto. now rewrite H. }
  destruct (nested_total HX') as [t E]. exists t. split; auto. exact (nested_leaves HX' E).
Qed.
Print Assumptions c48_leaves_partial.
(** The output does not depend on the layout. *)
Theorem c48_layout_partial : forall T D (fmt : T -> outcome D) am bm a b,
  valid_view (Z.of_nat (length am)) a -> valid_view (Z.of_nat (length bm)) b -> fits (v_dims a) ->
  v_dims a = v_dims b -> (forall idx, in_bounds (v_dims a) idx -> v_get am a idx = v_get bm b idx) ->
  v_debug fmt am a = v_debug fmt bm b.
Proof.
  intros T D fmt am bm a b HA HB HF HD HG. rewrite !c48_debug_partial by (auto; now rewrite <- HD).
  rewrite <- HD. apply nested_ext. intros idx Hi. now rewrite HG.
Qed.
Print Assumptions c48_layout_partial.

Definition show (x : Z) : outcome Z := Ok x.
Example c48_example :
  v_debug show ex_mem ex_rev = Ok (DList
    [DList [DList [DItem 120; DItem 122]; DList [DItem 116; DItem 118]; DList [DItem 112; DItem 114]];
     DList [DList [DItem 108; DItem 110]; DList [DItem 104; DItem 106]; DList [DItem 100; DItem 102]]]) /\
  v_debug show [1; 2; 3; 4] (whole ty2 [2; 2]) = Ok (DList [DList [DItem 1; DItem 2]; DList [DItem 3; DItem 4]]) /\
  v_debug show [7] (whole (STuple []) []) = Ok (DItem 7) /\
  v_debug show [] (whole ty2 [2; 0]) = Ok (DList [DList []; DList []]) /\
  v_debug show [] (whole ty2 [0; 3]) = Ok (DList []).
Proof. vm_all. Qed.

Theorem c48_refuted : exists v, valid_view 0 v /\ v_debug show [] v = Panic.
Proof. exists ex_big. split; [exact ex_big_valid|]. vm_compute. reflexivity. Qed.
Print Assumptions c48_refuted.

(** ** C41 *)

(** [a op b] for lazy operands: it panics unless the dimensions are compatible, and then its items
    are, index by index in row-major order, the item of [a] combined with the item of [b], [a]'s
    being the first argument.  The item of [b] is computed before that of [a]. *)
Theorem c41_expr_partial : forall A B R F (op : A -> B -> F -> outcome (R * F)) f0 (a : tree A) (b : tree B) ea eb,
  t_leaves a -> t_leaves b -> t_build a = Ok ea -> t_build b = Ok eb ->
  (compatible a b /\ exists e, op_expr op f0 ea eb = Ok e /\ e_dims e = longer (t_dims b) (t_dims a) /\
     (t_fine (TZip b a) ->
      e_collect e =
        let* (rs, _) := items (op_action op (length (t_dims a)) (length (t_dims b)) (t_act a) (t_act b))
                          (indices (longer (t_dims b) (t_dims a))) ((t_init b, t_init a), f0) in Ok rs)) \/
  (~ compatible a b /\ op_expr op f0 ea eb = Panic).
Proof. exact @op_expr_ok. Qed.
Print Assumptions c41_expr_partial.

(** Operands with a value at every index. *)
Theorem c41_values_partial : forall A B R (op : A -> B -> R) (a : tree A) (b : tree B) ga gb ea eb,
  t_leaves a -> t_leaves b -> t_build a = Ok ea -> t_build b = Ok eb -> compatible a b ->
  denotes a ga -> denotes b gb -> t_fine (TZip b a) ->
  exists e, op_expr (pure_op op) tt ea eb = Ok e /\ e_dims e = longer (t_dims b) (t_dims a) /\
    e_collect e = Ok (map (fun idx => op (ga (lastn (length (t_dims a)) idx)) (gb (lastn (length (t_dims b)) idx)))
                        (indices (e_dims e))).
Proof. exact @op_expr_values. Qed.
Print Assumptions c41_values_partial.

(** [&a op &b] for arrays with the same dimensions and at least one element: element by element. *)
Theorem c41_arrays : forall T U R (op : T -> U -> R) am bm a b,
  valid_view (Z.of_nat (length am)) a -> valid_view (Z.of_nat (length bm)) b ->
  v_dims a = v_dims b -> positive (v_dims a) ->
  exists e rs, op_expr (pure_op op) tt (e_copied (read am) (e_view (Z.of_nat (length am)) true a))
                 (e_copied (read bm) (e_view (Z.of_nat (length bm)) true b)) = Ok e /\
    e_dims e = v_dims a /\ e_collect e = Ok rs /\
    Forall2 (fun idx r => exists x y, v_get am a idx = Ok x /\ v_get bm b idx = Ok y /\ r = op x y) (indices (v_dims a)) rs.
Proof.
  intros T U R op am bm a b HA HB HD HP.
  destruct (@op_expr_ok _ _ _ _ (pure_op op) tt (ref_operand am a) (ref_operand bm b) _ _ HA HB eq_refl eq_refl)
    as [[_ (e & E & D & C)]|[H _]].
  2:{ exfalso. apply H. split; [|split; left; reflexivity]. cbn [ref_operand t_dims]. rewrite HD. reflexivity. }
  assert (ED : longer (t_dims (ref_operand bm b)) (t_dims (ref_operand am a)) = v_dims a).
  { cbn [ref_operand t_dims]. rewrite HD. unfold longer. now rewrite Nat.ltb_irrefl. }
  rewrite ED in *. exists e.
  match type of C with _ -> _ = (let* _ := items ?act ?l ?s in _) =>
    destruct (@items_rel _ _ act (fun idx r => exists x y, v_get am a idx = Ok x /\ v_get bm b idx = Ok y /\ r = op x y) l s)
      as (rs & s' & EI & FI) end.
  { intros idx [[sb sa] u] Hi. apply in_indices in Hi. pose proof (in_bounds_length Hi) as HLi.
    assert (HBd : in_bounds (v_dims b) idx) by now rewrite <- HD.
    assert (E1 : lastn (length (v_dims a)) idx = idx) by (rewrite <- HLi; apply lastn_all).
    destruct (proj1 (checked_get HA) idx Hi) as [x GX]. destruct (proj1 (checked_get HB) idx HBd) as [y GY].
    exists (op x y). unfold op_action. cbn [fst snd ref_operand t_dims t_act]. rewrite <- HD, E1.
    pose proof GX as GX'. pose proof GY as GY'. rewrite v_get_in in GX', GY' by assumption.
    unfold fun_action, pure_action. cbn [bind]. rewrite GY'. cbn [bind]. rewrite GX'. cbn [bind].
    unfold pure_op. cbn [bind]. eexists. split; [reflexivity|]. exists x, y. auto. }
  exists rs. split; [exact E|]. split; [exact D|]. split; [|exact FI].
  rewrite C, EI; [reflexivity|]. apply nonempty_fine; [|reflexivity]. cbn [t_dims]. rewrite ED. exact HP.
Qed.
Print Assumptions c41_arrays.

(** An owned tensor on the left: [t op e] takes the elements of [t] as first arguments. *)
Theorem c41_tensor_partial : forall T Y C (op : T -> Y -> T) (t : tensor T) (a : tree Y) g e (w : world T C),
  tensor_ok t -> t_leaves a -> t_build a = Ok e -> operand_fits (tn_dims t) a -> denotes a g ->
  t_fine (with_target (zlen (tn_mem t)) (whole (tn_ty t) (tn_dims t)) a) ->
  exists rs, zlen rs = prodZ (tn_dims t) /\
    op_tensor (pure_call op) t e w =
      Done (mkTensor (tn_ty t) (tn_dims t) rs (tn_cap t))
           (mkWorld (w_clo w) (w_made w ++ rs) (w_used w ++ tn_mem t) (w_dropped w)) /\
    (forall idx, in_bounds (tn_dims t) idx ->
       exists x, elem_at (tn_dims t) (tn_mem t) idx = Some x /\
         elem_at (tn_dims t) rs idx = Some (op x (g (lastn (length (t_dims a)) idx)))).
Proof. intros. eapply tensor_combine; eauto. Qed.
Print Assumptions c41_tensor_partial.
(** On the right: [e op t] takes them as second arguments. *)
Theorem c41_tensor_right_partial : forall T Y C (op : Y -> T -> T) (t : tensor T) (a : tree Y) g e (w : world T C),
  tensor_ok t -> t_leaves a -> t_build a = Ok e -> operand_fits (tn_dims t) a -> denotes a g ->
  t_fine (with_target (zlen (tn_mem t)) (whole (tn_ty t) (tn_dims t)) a) ->
  exists rs, zlen rs = prodZ (tn_dims t) /\
    op_expr_tensor (pure_call op) e t w =
      Done (mkTensor (tn_ty t) (tn_dims t) rs (tn_cap t))
           (mkWorld (w_clo w) (w_made w ++ rs) (w_used w ++ tn_mem t) (w_dropped w)) /\
    (forall idx, in_bounds (tn_dims t) idx ->
       exists x, elem_at (tn_dims t) (tn_mem t) idx = Some x /\
         elem_at (tn_dims t) rs idx = Some (op (g (lastn (length (t_dims a)) idx)) x)).
Proof. intros. eapply tensor_combine with (h := fun x y => op y x); eauto. Qed.
Print Assumptions c41_tensor_right_partial.
(** Constant-shape arrays. *)
Theorem c41_array_partial : forall T Y C (op : T -> Y -> T) ds (l : list T) (a : tree Y) g e (w : world T C),
  let dims := map dim_default ds in
  fits dims -> typed (STuple ds) dims -> nonneg dims -> zlen l = prodZ dims ->
  t_leaves a -> t_build a = Ok e -> operand_fits dims a -> denotes a g ->
  t_fine (TZip (TInto (STuple ds) dims l) a) ->
  exists rs, zlen rs = prodZ dims /\
    op_array (pure_call op) ds l e w = Done rs (mkWorld (w_clo w) (w_made w ++ rs) (w_used w ++ l) (w_dropped w)) /\
    (forall idx, in_bounds dims idx ->
       exists x, elem_at dims l idx = Some x /\ elem_at dims rs idx = Some (op x (g (lastn (length (t_dims a)) idx)))).
Proof. intros. eapply array_combine; eauto. Qed.
Print Assumptions c41_array_partial.
Theorem c41_array_right_partial : forall T Y C (op : Y -> T -> T) ds (l : list T) (a : tree Y) g e (w : world T C),
  let dims := map dim_default ds in
  fits dims -> typed (STuple ds) dims -> nonneg dims -> zlen l = prodZ dims ->
  t_leaves a -> t_build a = Ok e -> operand_fits dims a -> denotes a g ->
  t_fine (TZip (TInto (STuple ds) dims l) a) ->
  exists rs, zlen rs = prodZ dims /\
    op_expr_array (pure_call op) e ds l w = Done rs (mkWorld (w_clo w) (w_made w ++ rs) (w_used w ++ l) (w_dropped w)) /\
    (forall idx, in_bounds dims idx ->
       exists x, elem_at dims l idx = Some x /\ elem_at dims rs idx = Some (op (g (lastn (length (t_dims a)) idx)) x)).
Proof. intros. eapply array_combine with (h := fun x y => op y x); eauto. Qed.
Print Assumptions c41_array_right_partial.

(** The operation may panic: it is called at the indices in row-major order; at a panic the results so
    far and the elements not yet given to it are dropped. *)
Theorem c41_tensor_calls_partial : forall T Y C (opl : T -> Y -> C -> call T C) (opr : Y -> T -> C -> call T C)
    (t : tensor T) (a : tree Y) g e (w : world T C),
  tensor_ok t -> t_leaves a -> t_build a = Ok e -> operand_fits (tn_dims t) a -> denotes a g ->
  t_fine (with_target (zlen (tn_mem t)) (whole (tn_ty t) (tn_dims t)) a) ->
  let ys := map (fun idx => g (lastn (length (t_dims a)) idx)) (indices (tn_dims t)) in
  let expected (calls : list (C -> call T C)) :=
    let '(rs, c, b) := gives calls (w_clo w) in
    if b then Done (mkTensor (tn_ty t) (tn_dims t) rs (tn_cap t))
                   (mkWorld c (w_made w ++ rs) (w_used w ++ tn_mem t) (w_dropped w))
    else Unwound (mkWorld c (w_made w ++ rs) (w_used w ++ firstn (S (length rs)) (tn_mem t))
                    (w_dropped w ++ rs ++ skipn (S (length rs)) (tn_mem t))) in
  op_tensor opl t e w = expected (map (fun p => opl (fst p) (snd p)) (combine (tn_mem t) ys)) /\
  op_expr_tensor opr e t w = expected (map (fun p => opr (snd p) (fst p)) (combine (tn_mem t) ys)).
Proof. intros. split; eapply tensor_calls; eauto. Qed.
Print Assumptions c41_tensor_calls_partial.
Theorem c41_array_calls_partial : forall T Y C (opl : T -> Y -> C -> call T C) (opr : Y -> T -> C -> call T C)
    ds (l : list T) (a : tree Y) g e (w : world T C),
  let dims := map dim_default ds in
  fits dims -> typed (STuple ds) dims -> nonneg dims -> zlen l = prodZ dims ->
  t_leaves a -> t_build a = Ok e -> operand_fits dims a -> denotes a g ->
  t_fine (TZip (TInto (STuple ds) dims l) a) ->
  let ys := map (fun idx => g (lastn (length (t_dims a)) idx)) (indices dims) in
  let expected (calls : list (C -> call T C)) :=
    let '(rs, c, b) := gives calls (w_clo w) in
    if b then Done rs (mkWorld c (w_made w ++ rs) (w_used w ++ l) (w_dropped w))
    else Unwound (mkWorld c (w_made w ++ rs) (w_used w ++ firstn (S (length rs)) l)
                    (w_dropped w ++ skipn (S (length rs)) l ++ rs)) in
  op_array opl ds l e w = expected (map (fun p => opl (fst p) (snd p)) (combine l ys)) /\
  op_expr_array opr e ds l w = expected (map (fun p => opr (snd p) (fst p)) (combine l ys)).
Proof. intros. split; eapply array_calls; eauto. Qed.
Print Assumptions c41_array_calls_partial.
(** An operand of another shape, or of higher rank, is refused; the owned operand is dropped. *)
Theorem c41_owned_mismatch : forall T Y C (opl : T -> Y -> C -> call T C) (opr : Y -> T -> C -> call T C)
    (a : tree Y) e (w : world T C), t_leaves a -> t_build a = Ok e ->
  (forall t, tensor_ok t -> ~ operand_fits (tn_dims t) a ->
     op_tensor opl t e w = Unwound (w_drop (tn_mem t) w) /\ op_expr_tensor opr e t w = Unwound (w_drop (tn_mem t) w)) /\
  (forall ds l, let dims := map dim_default ds in
     typed (STuple ds) dims -> nonneg dims -> zlen l = prodZ dims -> ~ operand_fits dims a ->
     op_array opl ds l e w = Unwound (w_drop l w) /\ op_expr_array opr e ds l w = Unwound (w_drop l w)).
Proof.
  intros T Y C opl opr a e w LA EA. split.
  - intros t Ht HO. split; eapply owned_refused; eauto.
  - intros ds l dims HT HN HL HO. split; eapply array_refused; eauto.
Qed.
Print Assumptions c41_owned_mismatch.

(** Subtraction that panics at a negative result, with the owned operand on either side; an operand of
    higher rank. *)
Definition sub_cl (x y c : Z) : call Z Z := if x <? y then Throws c else Gives (x - y) (c + 1).
Example c41_calls_example :
  let e := e_copied (read [5; 15]) (e_view 2 true (whole ty1 [2])) in
  op_tensor sub_cl (mkTensor ty2 [2; 2] [10; 20; 30; 0] 4) e w0 =
    Unwound (mkWorld 3 [5; 5; 25] [10; 20; 30; 0] [5; 5; 25]) /\
  op_tensor sub_cl (mkTensor ty2 [2; 2] [10; 2; 30; 40] 4) e w0 =
    Unwound (mkWorld 1 [5] [10; 2] [5; 30; 40]) /\
  op_expr_tensor sub_cl e (mkTensor ty2 [2; 2] [1; 2; 30; 40] 4) w0 =
    Unwound (mkWorld 2 [4; 13] [1; 2; 30] [4; 13; 40]) /\
  op_array sub_cl [DConst 2; DConst 2] [10; 2; 30; 40] e w0 = Unwound (mkWorld 1 [5] [10; 2] [30; 40; 5]) /\
  op_expr_array sub_cl e [DConst 2; DConst 2] [1; 2; 30; 40] w0 = Unwound (mkWorld 2 [4; 13] [1; 2; 30] [40; 4; 13]) /\
  op_tensor sub_cl (mkTensor ty1 [2] [1; 2] 2) (e_copied (read [1; 2; 3; 4]) (e_view 4 true (whole ty2 [2; 2]))) w0 =
    Unwound (mkWorld 0 [] [] [1; 2]) /\
  op_array sub_cl [DConst 2] [1; 2] (e_copied (read [1; 2; 3; 4]) (e_view 4 true (whole ty2 [2; 2]))) w0 =
    Unwound (mkWorld 0 [] [] [1; 2]).
Proof. cbv zeta. vm_all. Qed.

(** [t op e] and [&t op e] have the same elements. *)
Theorem c41_agree_partial : forall T Y C (op : T -> Y -> T) (t : tensor T) (a : tree Y) g e (w : world T C),
  tensor_ok t -> t_leaves a -> t_build a = Ok e -> operand_fits (tn_dims t) a -> denotes a g ->
  let v := whole (tn_ty t) (tn_dims t) in
  t_fine (with_target (zlen (tn_mem t)) v a) -> t_fine (TZip a (ref_operand (tn_mem t) v)) ->
  exists rs e',
    op_tensor (pure_call op) t e w =
      Done (mkTensor (tn_ty t) (tn_dims t) rs (tn_cap t)) (mkWorld (w_clo w) (w_made w ++ rs) (w_used w ++ tn_mem t) (w_dropped w)) /\
    op_expr (pure_op op) tt (e_copied (read (tn_mem t)) (e_view (zlen (tn_mem t)) true v)) e = Ok e' /\
    e_dims e' = tn_dims t /\ e_collect e' = Ok rs.
Proof. exact @owned_ref_agree. Qed.
Print Assumptions c41_agree_partial.

(** All of the guards [t_fine] above hold if there are elements and the operand is not made of
    [lanes_expr]. *)
Theorem c41_nonempty : forall A (t : tree A), positive (t_dims t) -> t_need t = 0%nat -> t_fine t.
Proof. intros A t HP HN. apply (nonempty_fine HP HN). Qed.
Print Assumptions c41_nonempty.

(** [v op= e]: every element becomes [x op y], other cells keep their values. *)
Theorem c41_assign_partial : forall T Y (op : T -> Y -> T) v (t : tree Y) g e mem,
  valid_view (Z.of_nat (length mem)) v -> t_leaves t -> t_build t = Ok e ->
  operand_fits (v_dims v) t -> t_fine (with_target (Z.of_nat (length mem)) v t) -> denotes t g ->
  exists mem', v_op_assign (fun x y (s : unit) => Ok (op x y, s)) v e mem tt = Ok (mem', tt) /\
    length mem' = length mem /\
    (forall idx, in_bounds (v_dims v) idx ->
       exists x, v_get mem v idx = Ok x /\ v_get mem' v idx = Ok (op x (g (lastn (length (t_dims t)) idx)))) /\
    (forall k, (forall idx, in_bounds (v_dims v) idx -> v_addr v idx <> Z.of_nat k) -> nth_error mem' k = nth_error mem k).
Proof. exact @op_assign_values. Qed.
Print Assumptions c41_assign_partial.
(** With an operator that has a state and can panic. *)
Theorem c41_assign_calls_partial : forall T Y C (op : T -> Y -> C -> outcome (T * C)) v (t : tree Y) e mem c,
  let n := Z.of_nat (length mem) in
  valid_view n v -> t_leaves t -> t_build t = Ok e ->
  operand_fits (v_dims v) t -> t_fine (with_target n v t) ->
  match items (assign_action op mem v (length (t_dims t)) (t_act t)) (indices (v_dims v)) (t_init t, c) with
  | Ok (xs, s) => exists mem', v_op_assign op v e mem c = Ok (mem', snd s) /\
                    stored (v_dims v) (v_addr v) xs mem mem'
  | Panic => v_op_assign op v e mem c = Panic
  | UB => v_op_assign op v e mem c = UB
  | NoFuel => v_op_assign op v e mem c = NoFuel
  end.
Proof. exact @op_assign_ok. Qed.
Print Assumptions c41_assign_calls_partial.
Theorem c41_assign_mismatch : forall T Y C (op : T -> Y -> C -> outcome (T * C)) v (t : tree Y) e mem c,
  valid_view (Z.of_nat (length mem)) v -> t_leaves t -> t_build t = Ok e ->
  ~ operand_fits (v_dims v) t -> v_op_assign op v e mem c = Panic.
Proof. exact @op_assign_panic. Qed.
Print Assumptions c41_assign_mismatch.

(** Unary operators. *)
Theorem c41_unary_partial : forall A R (op : A -> R) (a : tree A) ga ea,
  t_leaves a -> t_build a = Ok ea -> denotes a ga -> t_fine a ->
  let e := neg_expr (fun x (s : unit) => Ok (op x, s)) tt ea in
  e_dims e = t_dims a /\ e_collect e = Ok (map (fun idx => op (ga idx)) (indices (t_dims a))).
Proof. exact @neg_expr_values. Qed.
Print Assumptions c41_unary_partial.
Theorem c41_unary_tensor : forall T C (op : T -> T) (t : tensor T) (w : world T C), tensor_ok t ->
  neg_tensor (fun x c => Gives (op x) c) t w =
    Done (mkTensor (tn_ty t) (tn_dims t) (map op (tn_mem t)) (tn_cap t))
         (mkWorld (w_clo w) (w_made w ++ map op (tn_mem t)) (w_used w ++ tn_mem t) (w_dropped w)).
Proof.
  intros T C op t w Ht. unfold neg_tensor. rewrite map_done by exact Ht.
  rewrite (gives_pure (h := op)) by auto. cbv beta zeta iota. rewrite map_length, firstn_all. reflexivity.
Qed.
Print Assumptions c41_unary_tensor.
Theorem c41_unary_array : forall T C (op : T -> T) ds (l : list T) (w : world T C),
  fits (map dim_default ds) -> typed (STuple ds) (map dim_default ds) -> zlen l = prodZ (map dim_default ds) ->
  neg_array (fun x c => Gives (op x) c) ds l w =
    Done (map op l) (mkWorld (w_clo w) (w_made w ++ map op l) (w_used w ++ l) (w_dropped w)).
Proof.
  intros T C op ds l w HF HT HL. unfold neg_array. rewrite ar_map_eq by assumption.
  rewrite (gives_pure (h := op)) by auto. reflexivity.
Qed.
Print Assumptions c41_unary_array.

(** Subtraction, which is not commutative: a transposed view minus a dense one, a 2x2 view minus a
    broadcast row, an owned tensor on either side, [-=] and [-]. *)
Definition zop (op : Z -> Z -> Z) (x y : Z) (s : unit) : outcome (Z * unit) := Ok (op x y, s).
Definition zref (mem : list Z) (v : view) : expression Z := e_copied (read mem) (e_view (Z.of_nat (length mem)) true v).
Definition collected {R} (o : outcome (expression R)) : outcome (list Z * list R) :=
  let* e := o in let* l := e_collect e in Ok (e_dims e, l).
Example c41_example :
  collected (op_expr (zop Z.sub) tt (zref [10; 20; 30; 40] ex_2x2) (zref [1; 2; 3; 4] (whole ty2 [2; 2]))) =
    Ok ([2; 2], [9; 28; 17; 36]) /\
  collected (op_expr (zop Z.sub) tt (zref [10; 20; 30; 40] ex_2x2) (zref [1; 2] (whole ty1 [2]))) =
    Ok ([2; 2], [9; 28; 19; 38]) /\
  collected (op_expr (zop Z.sub) tt (zref [1; 2] (whole ty1 [2])) (zref [10; 20; 30; 40] ex_2x2)) =
    Ok ([2; 2], [-9; -28; -19; -38]) /\
  op_expr (zop Z.sub) tt (zref [1; 2; 3] (whole ty1 [3])) (zref [10; 20; 30; 40] ex_2x2) = Panic /\
  op_tensor (pure_call Z.sub) (mkTensor ty2 [2; 2] [10; 20; 30; 40] 4) (zref [1; 2; 3; 4] ex_2x2) w0 =
    Done (mkTensor ty2 [2; 2] [9; 17; 28; 36] 4) (mkWorld 0 [9; 17; 28; 36] [10; 20; 30; 40] []) /\
  op_expr_tensor (pure_call Z.sub) (zref [1; 2; 3; 4] ex_2x2) (mkTensor ty2 [2; 2] [10; 20; 30; 40] 4) w0 =
    Done (mkTensor ty2 [2; 2] [-9; -17; -28; -36] 4) (mkWorld 0 [-9; -17; -28; -36] [10; 20; 30; 40] []) /\
  v_op_assign (zop Z.sub) ex_2x2 (zref [1; 2] (whole ty1 [2])) [10; 20; 30; 40] tt = Ok ([9; 19; 28; 38], tt) /\
  v_op_assign (zop Z.sub) (whole ty1 [2]) (zref [1; 2; 3; 4] ex_2x2) [10; 20] tt = Panic /\
  neg_tensor (fun x c => Gives (- x) c) t13 w0 = Done (mkTensor ty2 [1; 3] [-7; -8; -9] 3) (mkWorld 0 [-7; -8; -9] [7; 8; 9] []).
Proof. vm_all. Qed.
Example c41_example_hyps :
  let a := ref_operand [10; 20; 30; 40] ex_2x2 in let b := ref_operand [1; 2] (whole ty1 [2]) in
  t_leaves a /\ t_leaves b /\ compatible a b /\ t_fine (TZip b a) /\ operand_fits [2; 2] b.
Proof.
  cbv zeta. split; [exact ex_2x2_valid|]. split; [apply whole_valid; (wf_tac || (simpl; lia))|].
  split; [split; [reflexivity|split; left; reflexivity]|].
  split; [apply nonempty_fine; [wf_tac|reflexivity]|]. split; [reflexivity|]. split; [simpl; lia|now left].
Qed.

(** False for empty operands: an empty owned tensor minus the transposed [3;0] array reads outside
    the storage. *)
Theorem c41_refuted : exists (t : tensor Z) v, tensor_ok t /\ valid_view 0 v /\ v_dims v = tn_dims t /\
  e_collect (zref [] v) = UB /\
  op_tensor (pure_call Z.sub) t (zref [] v) w0 = Fault.
Proof.
  exists t03, ex_0x3. split; [exact t03_ok|]. split; [exact ex_0x3_valid|]. split; [reflexivity|]. vm_all.
Qed.
Print Assumptions c41_refuted.

(** ** C50 *)

Theorem c50_eq : forall a b, dr_eq a b = true <-> dr_dims a = dr_dims b.
Proof. intros a b. apply slice_eqb_iff. Qed.
Print Assumptions c50_eq.
(** The order is the lexicographic one of the dimensions. *)
Theorem c50_cmp : forall a b,
  (dr_cmp a b = Eq <-> dr_dims a = dr_dims b) /\
  (dr_cmp a b = Lt <-> exists p,
     (exists y t, dr_dims a = p /\ dr_dims b = p ++ y :: t) \/
     (exists x y s t, dr_dims a = p ++ x :: s /\ dr_dims b = p ++ y :: t /\ x < y)) /\
  dr_cmp b a = CompOpp (dr_cmp a b).
Proof. intros a b. split; [apply slice_cmp_eq|]. split; [apply slice_cmp_lt|apply slice_cmp_opp]. Qed.
Print Assumptions c50_cmp.
Theorem c50_hash : forall a b, dr_hash a = dr_hash b <-> dr_dims a = dr_dims b.
Proof.
  intros a b. unfold dr_hash. split; intros H; [now injection H|now rewrite H].
Qed.
Print Assumptions c50_hash.
Theorem c50_clone : forall a b,
  dr_dims (dr_clone a) = dr_dims a /\ dr_dims (dr_clone_from a b) = dr_dims b.
Proof. intros a b. split; [apply dr_clone_dims|apply dr_clone_from_dims]. Qed.
Print Assumptions c50_clone.
Theorem c50_from : forall l, dr_dims (dr_from_dims l) = l /\ dr_dims (dr_from_box l) = l.
Proof. intros l. split; [apply dr_from_dims_dims|reflexivity]. Qed.
Print Assumptions c50_from.

(** The boxed and the inline form of the one-dimensional shape [5]. *)
Example c50_example :
  dr_from_box [5] = DRDyn [5] /\ dr_from_dims [5] = DROne 5 /\
  dr_eq (DRDyn [5]) (DROne 5) = true /\ dr_cmp (DRDyn [5]) (DROne 5) = Eq /\ dr_hash (DRDyn [5]) = dr_hash (DROne 5) /\
  dr_clone (DRDyn [5]) = DROne 5 /\ dr_clone_from (DRDyn [4]) (DRDyn [5]) = DRDyn [5] /\
  dr_clone_from (DRDyn [4; 1]) (DROne 5) = DROne 5 /\
  dr_clone (DRDyn [2; 3]) = DRDyn [2; 3] /\ dr_clone_from (DRDyn [1; 2]) (DRDyn [5; 6; 7]) = DRDyn [5; 6; 7] /\
  dr_cmp (DRDyn [2; 9]) (DROne 3) = Lt /\ dr_cmp (DRDyn []) (DROne 0) = Lt.
Proof. vm_all. Qed.
