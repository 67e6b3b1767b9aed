(** Exact conditions: for which arguments the operations that are only partly right are right. *)
From Verif Require Import Base Spec SpecFacts Shape Mapping Index View Wf MappingFacts MapOps ReshapeFacts ViewFacts.
From Verif Require Import Expr ExprSpec ExprFacts IterFacts SourceFacts ExprTree ExprMore PropsView PropsExpr.
From Verif Require Import Tensor TraceFacts TensorSpec TensorFacts ResizeFacts TensorOps OwnFacts ZipFacts OwnMore PropsTensor.
From Verif Require Import Ops OpsFacts PropsOps Consume ConsumeSpec ConsumeFacts PropsConsume ExactFacts LaneFacts.
Unset Strict Implicit.

(** ** C21: the lanes of an array *)

(** Collecting the lanes gives one per index of the other dimensions [r], in order, each showing the
    elements at that index, exactly when the rest is dense, has at most one dimension, is empty in
    its last one, or its outer dimensions are non-zero and either the lanes are empty or all outer
    dimensions are 1. *)
Theorem c21_exact : forall n rep v a i e,
  valid_view n v -> is_axis a (length (v_dims v)) i -> e_lanes rep v a = Ok e ->
  let r := remove_at i (v_dims v) in
  ((exists ws, e_collect e = Ok ws /\ length ws = length (indices r) /\
      forall idx, in_bounds r idx ->
        exists w, nth_error ws (Z.to_nat (flat r idx)) = Some w /\
          v_dims w = [nth i (v_dims v) 0] /\ shows v w (fun j => insert_at i (nth 0 j 0) idx)) <->
   ax_split a (v_ty v) (v_layout v) = Dense \/ (length r <= 1)%nat \/ last r 1 = 0 \/
   positive (removelast r) /\ (nth i (v_dims v) 0 = 0 \/ Forall (eq 1) (removelast r))).
Proof. intros n rep v a i e. exact (@lanes_exact n rep v a i e). Qed.
Print Assumptions c21_exact.

(** When it fails for an array with elements, two of the lanes are the same non-empty view, so those of
    [lanes_mut] alias. *)
Theorem c21_alias : forall n rep v a i e,
  valid_view n v -> is_axis a (length (v_dims v)) i -> e_lanes rep v a = Ok e ->
  ax_split a (v_ty v) (v_layout v) = Strided -> positive (v_dims v) ->
  ~ Forall (eq 1) (removelast (remove_at i (v_dims v))) ->
  exists ws k1 k2 w, e_collect e = Ok ws /\ k1 <> k2 /\
    nth_error ws k1 = Some w /\ nth_error ws k2 = Some w /\ in_bounds (v_dims w) [0].
Proof. intros n rep v a i e. exact (@lanes_alias n rep v a i e). Qed.
Print Assumptions c21_alias.

(** The rows of a [1;2;2] array come out right although the rest is strided, those of a [2;2;2] array
    do not. *)
Definition ex_122 : view := whole ty3 [1; 2; 2].
Example c21_exact_example : valid_view 4 ex_122 /\ is_axis AxRows 3 2 /\
  ax_split AxRows (v_ty ex_122) (v_layout ex_122) = Strided /\
  Forall (eq 1) (removelast (remove_at 2 (v_dims ex_122))) /\
  ~ Forall (eq 1) (removelast (remove_at 2 (v_dims ex_222))) /\
  (exists e ws, e_lanes true ex_122 AxRows = Ok e /\ e_collect e = Ok ws /\
     map (fun w => map (v_addr w) (indices (v_dims w))) ws = [[0; 1]; [2; 3]]) /\
  (exists e ws, e_lanes true ex_222 AxRows = Ok e /\ e_collect e = Ok ws /\
     map (fun w => map (v_addr w) (indices (v_dims w))) ws = [[0; 1]; [2; 3]; [0; 1]; [2; 3]]).
Proof.
  split; [apply whole_valid; wf_tac|]. split; [split; simpl; lia|]. split; [reflexivity|].
  split; [repeat constructor|]. split; [intros H; inversion H; lia|].
  split; eexists _, _; (split; [vm_compute; reflexivity|]); vm_all.
Qed.

(** ** C27, C28: the items of an expression *)

(** Collecting any tree of expressions without lanes gives the items of its indices exactly under the
    guard [t_fine]. *)
Theorem c27_exact : forall A (t : tree A) e,
  t_leaves t -> t_build t = Ok e -> t_need t = 0%nat ->
  (e_collect e = (let* (xs, _) := items (t_act t) (indices (t_dims t)) (t_init t) in Ok xs) <-> t_fine t).
Proof. intros A t e HL HB HN. apply tree_collect_iff; auto. rewrite HN. lia. Qed.
Print Assumptions c27_exact.

(** [from_fn] with static rank: exactly when no zero comes before a nonzero last dimension. *)
Theorem c28_exact : forall A F ty dims (f : list Z -> F -> outcome (A * F)) f0 e,
  nonneg dims -> typed ty dims -> (ty = SDynRank -> dims = []) -> e_from_fn ty dims f f0 = Ok e ->
  (e_collect e = (let* (xs, _) := traverse f (indices dims) f0 in Ok xs) <->
   positive (removelast dims) \/ last dims 1 = 0).
Proof. exact @from_fn_iff. Qed.
Print Assumptions c28_exact.

(** With dynamic rank it works for rank 0 only: every other shape panics, also the empty ones. *)
Theorem c28_dynrank : forall A F dims (f : list Z -> F -> outcome (A * F)) f0 e,
  (forall i s, proper (f i s)) -> e_from_fn SDynRank dims f f0 = Ok e ->
  (dims <> [] -> e_collect e = Panic) /\
  (dims = [] -> e_collect e = (let* (x, _) := f [] f0 in Ok [x])).
Proof.
  intros A F dims f f0 e HF E. split; [intros HD; now apply (@from_fn_dyn A F dims f f0 e)|].
  intros ->. destruct (@from_fn_collect A F SDynRank [] f f0 e) as [_ H]; auto; try (left; constructor); try constructor; try exact I.
  rewrite H. cbn. destruct (f [] f0) as [[x s]| | |]; reflexivity.
Qed.
Print Assumptions c28_dynrank.

Example c28_exact_example :
  (exists e, e_from_fn ty2 [3; 0] (fun i (n : Z) => Ok ((i, n), n + 1)) 0 = Ok e /\ e_collect e = Ok []) /\
  (exists e, e_from_fn SDynRank [] (fun i (n : Z) => Ok ((i, n), n + 1)) 7 = Ok e /\ e_collect e = Ok [([], 7)]) /\
  ~ (positive (removelast [0; 3]) \/ last [0; 3] 1 = 0).
Proof.
  split; [eexists; split; vm_compute; reflexivity|]. split; [eexists; split; vm_compute; reflexivity|].
  intros [H|H]; [inversion H; lia|discriminate].
Qed.

(** ** C29: evaluating into tensors and arrays *)

(** If the items themselves come out without a panic, a tensor or an array is made exactly under the
    guard.  Otherwise the buffer is overrun, unless computing the first item, which does not exist,
    panics. *)
Theorem c29_exact : forall T C (t : tree T) e al (w : world T C) xs s,
  t_leaves t -> t_build t = Ok e -> t_safe t -> t_need t = 0%nat -> (forall n, al_ok al n = true) ->
  produce (t_act t) (indices (t_dims t)) (t_init t) = (xs, Ok s) ->
  ((exists r w', tn_from_expr al e w = Done r w') <-> t_fine t) /\
  (~ t_fine t -> tn_from_expr al e w = Fault \/ e_get e 0 (e_init e) = Panic /\ tn_from_expr al e w = Unwound w).
Proof.
  intros T C t e al w xs s HL HB HS HN HA HP.
  assert (HN' : (t_need t <= length (t_dims t) - t_outer t)%nat) by (rewrite HN; lia). split; [split|].
  - intros (r & w' & E). destruct (fine_dec HN') as [H|H]; auto. contradiction (eval_unfine HL HB HN' H E).
  - intros HF. pose proof (eval_tree HL HB HF HS w HA HP) as (cap & _ & _ & _ & E). eauto.
  - intros HF. rewrite (eval_unfine_how al w HL HB HN' HF). destruct (e_get e 0 (e_init e)); auto.
Qed.
Print Assumptions c29_exact.
Theorem c29_array_exact : forall T C (t : tree T) e ds (w : world T C) xs s,
  t_leaves t -> t_build t = Ok e -> t_safe t -> t_need t = 0%nat -> consts ds -> typed (STuple ds) (t_dims t) ->
  produce (t_act t) (indices (t_dims t)) (t_init t) = (xs, Ok s) ->
  ((exists r w', ar_from_expr ds e w = Done r w') <-> t_fine t) /\
  (~ t_fine t -> ar_from_expr ds e w = Fault \/ e_get e 0 (e_init e) = Panic /\ ar_from_expr ds e w = Unwound w).
Proof.
  intros T C t e ds w xs s HL HB HS HN HC HT HP.
  assert (HN' : (t_need t <= length (t_dims t) - t_outer t)%nat) by (rewrite HN; lia). split; [split|].
  - intros (r & w' & E). destruct (fine_dec HN') as [H|H]; auto. contradiction (array_unfine HL HB HN' HC HT H E).
  - intros HF. pose proof (array_tree HL HB HF HS w HC HT HP) as (_ & E). eauto.
  - intros HF. rewrite (array_unfine_how w HL HB HN' HF HC HT). destruct (e_get e 0 (e_init e)); auto.
Qed.
Print Assumptions c29_array_exact.

(** ** C30: the closures of [fill_with] and [assign] *)

(** A closure that counts its calls has been called once for every element exactly under the guard. *)
Theorem c30_fill_exact : forall T (f : Z -> outcome (T * Z)) v mem,
  (forall k, exists x, f k = Ok (x, k + 1)) -> valid_view (Z.of_nat (length mem)) v ->
  ((exists mem', v_fill_with f v mem 0 = Ok (mem', prodZ (v_dims v))) <-> view_fine v).
Proof. exact @fill_count. Qed.
Print Assumptions c30_fill_exact.
Theorem c30_assign_exact : forall T Y (cl : Y -> Z -> outcome (T * Z)) v (t : tree Y) e mem ys s,
  let n := Z.of_nat (length mem) in
  (forall y k, exists x, cl y k = Ok (x, k + 1)) ->
  valid_view n v -> t_leaves t -> t_build t = Ok e -> t_need t = 0%nat ->
  trailing_eq (v_dims v) (t_dims t) -> (length (t_dims t) <= length (v_dims v))%nat ->
  (t_rep t = true \/ length (t_dims t) = length (v_dims v)) ->
  items (bcast (length (t_dims t)) (t_act t)) (indices (v_dims v)) (t_init t) = Ok (ys, s) ->
  ((exists mem', v_assign cl v e mem 0 = Ok (mem', prodZ (v_dims v))) <-> t_fine (with_target n v t)).
Proof. exact @assign_count. Qed.
Print Assumptions c30_assign_exact.

(** ** C39: hashes *)

(** If every element feeds something to the hasher, the hash of a view is that of its dimensions and
    elements exactly under the guard. *)
Theorem c39_exact : forall T H (hash : T -> list H) mem v xs,
  (forall x, hash x <> []) -> valid_view (Z.of_nat (length mem)) v -> contents mem v xs ->
  (v_hash hash mem v = Ok (map HDim (v_dims v) ++ map HElem (flat_map hash xs)) <-> view_fine v).
Proof. exact @hash_iff. Qed.
Print Assumptions c39_exact.

(** ** C54: copies of views *)

(** [to_tensor] and [to_array] of a valid view are without undefined behaviour exactly under the guard. *)
Theorem c54_exact : forall T C W (mem : list T) (clone : T -> C -> outcome (T * C)) c0 v,
  valid_view (zlen mem) v -> (forall x c, exists y c', clone x c = Ok (y, c')) ->
  (forall al (w : world T W), (forall n, al_ok al n = true) ->
     (view_fine v <-> exists r w', v_to_tensor al mem clone c0 v w = Done r w') /\
     (~ view_fine v <-> v_to_tensor al mem clone c0 v w = Fault)) /\
  (forall ds (w : world T W), consts ds -> typed (STuple ds) (v_dims v) ->
     (view_fine v <-> exists r w', v_to_array ds mem clone c0 v w = Done r w') /\
     (~ view_fine v <-> v_to_array ds mem clone c0 v w = Fault)).
Proof.
  intros T C W mem clone c0 v HV HC. destruct (view_fine_dec v) as [HF|HF].
  - assert (HP : forall x c, proper (clone x c)) by (intros x c; destruct (HC x c) as (y & c' & ->); exact I).
    destruct (@copy_view T C W mem clone c0 v HV HF HP) as (src & _ & H1 & H2).
    assert (HK : exists ys c', clones clone src c0 = (ys, Ok c')).
    { clear -HC. revert c0. induction src as [|x src IH]; intros c; cbn [clones]; [eauto|].
      destruct (HC x c) as (y & c' & ->). destruct (IH c') as (ys & c2 & ->). eauto. }
    destruct HK as (ys & c' & EK). rewrite EK in H1, H2. split.
    + intros al w HA. destruct (H1 al w HA) as (cap & _ & _ & E). rewrite E. split; split; eauto; intros H; (contradiction || discriminate).
    + intros ds w HD HT. destruct (H2 ds w HD HT) as [_ E]. rewrite E. split; split; eauto; intros H; (contradiction || discriminate).
  - destruct (@copy_unfine T C W mem clone c0 v HV HF HC) as [H1 H2]. split.
    + intros al w _. rewrite H1. split; split; auto; try contradiction. intros (? & ? & ?). discriminate.
    + intros ds w HD HT. rewrite (H2 ds w HD HT). split; split; auto; try contradiction. intros (? & ? & ?). discriminate.
Qed.
Print Assumptions c54_exact.

(** Both sides occur. *)
Example c54_exact_example :
  valid_view 4 ex_2x2 /\ view_fine ex_2x2 /\ valid_view 6 ex_none /\ ~ view_fine ex_none /\
  v_to_tensor al0 [1; 2; 3; 4; 5; 6] twice 0 ex_none w0 = Fault /\
  v_fill_with (fun k => Ok (k * 10, k + 1)) ex_2x2 [1; 2; 3; 4] 0 = Ok ([0; 20; 10; 30], 4) /\
  v_fill_with (fun k => Ok (k * 10, k + 1)) ex_none [1; 2; 3; 4; 5; 6] 0 <> Ok ([1; 2; 3; 4; 5; 6], 0).
Proof.
  split; [exact ex_2x2_valid|]. split; [right; left; wf_tac|]. split; [exact ex_none_valid|]. split.
  - intros [H|[H|H]]; [discriminate|inversion H; lia|discriminate].
  - split; [vm_compute; reflexivity|]. split; [vm_compute; reflexivity|]. vm_compute. discriminate.
Qed.

(** ** C38, C40, C48: equality, [contains] and debug output *)

(** [rowable dims]: there are no rows, or the product of the other dimensions does not overflow. *)
Definition rowable (dims : list Z) : Prop := hd 0 dims = 0 \/ fits (tl dims).

(** [==] of arrays of the same shape compares the elements pairwise up to the first difference exactly
    when both are dense or the rows can be made; otherwise it panics. *)
Theorem c38_exact : forall T U (eq : T -> U -> outcome bool) am bm a b xs ys,
  Z.of_nat (length am) <= usize_max -> Z.of_nat (length bm) <= usize_max ->
  valid_view (Z.of_nat (length am)) a -> valid_view (Z.of_nat (length bm)) b ->
  contents am a xs -> contents bm b ys -> v_dims a = v_dims b ->
  ((v_layout a = Dense /\ v_layout b = Dense) \/ rowable (v_dims a) -> v_eq eq am bm a b = list_eq eq xs ys) /\
  (~ ((v_layout a = Dense /\ v_layout b = Dense) \/ rowable (v_dims a)) -> v_eq eq am bm a b = Panic).
Proof. exact @eq_exact. Qed.
Print Assumptions c38_exact.
(** [contains]. *)
Theorem c40_exact : forall T (eq : T -> T -> outcome bool) mem value v xs,
  Z.of_nat (length mem) <= usize_max -> valid_view (Z.of_nat (length mem)) v -> contents mem v xs ->
  (v_layout v = Dense \/ rowable (v_dims v) -> v_contains eq mem v value = list_any (fun x => eq x value) xs) /\
  (~ (v_layout v = Dense \/ rowable (v_dims v)) -> v_contains eq mem v value = Panic).
Proof. exact @contains_exact. Qed.
Print Assumptions c40_exact.
(** [Debug]; dense arrays are printed by rows, too. *)
Theorem c48_exact : forall T D (fmt : T -> outcome D) mem v, valid_view (Z.of_nat (length mem)) v ->
  (rowable (v_dims v) -> v_debug fmt mem v = nested (fun idx => let* x := v_get mem v idx in fmt x) (v_dims v)) /\
  (~ rowable (v_dims v) -> v_debug fmt mem v = Panic).
Proof. exact @debug_exact. Qed.
Print Assumptions c48_exact.

(** A view whose dimensions overflow from the left but that can be compared, because it has no rows; a
    dense array that can be compared but not printed; a view for which neither works. *)
Definition ex_norows : view := mkView 0 (StridedM ty4 [0; big; big; 2] [1; 0; 2; 2 * big]).
Definition ex_dense_big : view := whole ty4 [2; big; big; 0].
Example c38_exact_example :
  (valid_view 0 ex_norows /\ rowable (v_dims ex_norows) /\ v_eq zeq [] [] ex_norows ex_norows = Ok true /\
   v_debug (fun x : Z => Ok x) [] ex_norows = Ok (DList [])) /\
  (valid_view 0 ex_dense_big /\ ~ rowable (v_dims ex_dense_big) /\ v_eq zeq [] [] ex_dense_big ex_dense_big = Ok true /\
   v_contains zeq [] ex_dense_big 1 = Ok false /\ v_debug (fun x : Z => Ok x) [] ex_dense_big = Panic) /\
  (valid_view 0 ex_big /\ ~ rowable (v_dims ex_big) /\ v_layout ex_big = Strided).
Proof.
  assert (HB : ~ rowable [2; big; big; 0]).
  { intros [H|H]; [discriminate|]. apply checked_len_fits in H. vm_compute in H. discriminate. }
  assert (HP : 0 <= big) by (unfold big; lia). split; [|split].
  - split; [apply empty_valid; [wf_tac|reflexivity]|]. split; [left; reflexivity|]. split; vm_compute; reflexivity.
  - split; [apply empty_valid; [wf_tac|reflexivity]|]. split; [exact HB|]. split; [vm_compute; reflexivity|]. split; vm_compute; reflexivity.
  - split; [exact ex_big_valid|]. split; [exact HB|]. reflexivity.
Qed.

(** ** C49, C55: a resize to dimensions that the shape type does not allow *)

(** The closure gives all new elements, the allocator all memory, and the stored dimensions are
    refused.  The tensor can be used afterwards exactly when the default shape is empty or the number
    of elements stays the same; otherwise the process is aborted. *)
Theorem c49_exact : forall T C al new (f : C -> call T C) t (w : world T C) vs c,
  tensor_ok t -> nonneg new -> ~ typed (tn_ty t) new -> length new = length (tn_dims t) -> fits new ->
  (forall n, al_ok al n = true) -> gives (repeat f (fresh (tn_dims t) new)) (w_clo w) = (vs, c, true) ->
  ((exists t' w', tn_resize_with al new f (t, w) = Unwound (t', w') /\ tensor_ok t') <->
   prodZ (sh_default (tn_ty t)) = 0 \/ prodZ new = prodZ (tn_dims t)) /\
  (~ (prodZ (sh_default (tn_ty t)) = 0 \/ prodZ new = prodZ (tn_dims t)) -> tn_resize_with al new f (t, w) = Aborted).
Proof.
  intros T C al new f t w vs c Ht Hn HT HL HF HA HG.
  destruct (resize_unfit_eq Ht Hn HT HL HF HA HG) as (xs & cap & w' & HX & HC & E & _). rewrite E. clear E.
  destruct (Z.eqb_spec (prodZ new) (prodZ (tn_dims t))) as [E1|E1].
  - split; [|tauto]. split; [tauto|]. intros _. eexists _, _. split; [reflexivity|].
    constructor; cbn [tn_dims tn_ty tn_mem tn_cap]; try apply Ht; unfold zlen in *; lia.
  - destruct (Z.eqb_spec (prodZ (sh_default (tn_ty t))) 0) as [E2|E2].
    + split; [|tauto]. split; [tauto|]. intros _. eexists _, _. split; [reflexivity|].
      constructor; cbn [tn_dims tn_ty tn_mem tn_cap]; try apply Ht.
      * apply (default_nonneg (to_typed Ht) (to_nonneg Ht)).
      * apply default_typed.
      * cbn. lia.
      * cbn. pose proof (prodZ_nonneg Hn). lia.
    + split; [|auto]. split; [intros (? & ? & ? & _); discriminate|tauto].
Qed.
Print Assumptions c49_exact.
(** With the [nightly] guard: the tensor is consistent under the same condition; otherwise it claims
    elements that it does not have, and dropping it is undefined behaviour. *)
Theorem c55_exact : forall T C al new (f : C -> call T C) t (w : world T C) vs c,
  tensor_ok t -> nonneg new -> ~ typed (tn_ty t) new -> length new = length (tn_dims t) -> fits new ->
  (forall n, al_ok al n = true) -> gives (repeat f (fresh (tn_dims t) new)) (w_clo w) = (vs, c, true) ->
  exists t' w', tn_resize_with_nightly al new f (t, w) = Unwound (t', w') /\
    (tensor_ok t' <-> prodZ (sh_default (tn_ty t)) = 0 \/ prodZ new = prodZ (tn_dims t)) /\
    (~ (prodZ (sh_default (tn_ty t)) = 0 \/ prodZ new = prodZ (tn_dims t)) -> tn_drop t' w' = Fault).
Proof.
  intros T C al new f t w vs c Ht Hn HT HL HF HA HG.
  destruct (resize_unfit_eq Ht Hn HT HL HF HA HG) as (xs & cap & w' & HX & HC & _ & E). rewrite E. clear E.
  destruct (Z.eqb_spec (prodZ new) (prodZ (tn_dims t))) as [E1|E1]; eexists _, _; (split; [reflexivity|]).
  - split; [|tauto]. split; [tauto|]. intros _.
    constructor; cbn [tn_dims tn_ty tn_mem tn_cap]; try apply Ht; unfold zlen in *; lia.
  - split; [split|].
    + intros H. left. pose proof (to_len H) as L. cbn [tn_mem tn_dims] in L. now rewrite <- L.
    + intros [H|H]; [|contradiction]. constructor; cbn [tn_dims tn_ty tn_mem tn_cap]; try apply Ht.
      * apply (default_nonneg (to_typed Ht) (to_nonneg Ht)).
      * apply default_typed.
      * cbn. lia.
      * cbn. pose proof (prodZ_nonneg Hn). lia.
    + intros H. unfold tn_drop, to_vec_raw, tn_len. cbn [tn_mem tn_dims]. rewrite sh_len_prod.
      change (zlen (@nil T)) with 0. destruct (Z.eqb_spec 0 (prodZ (sh_default (tn_ty t)))); [|reflexivity].
      exfalso. apply H. left. auto.
Qed.
Print Assumptions c55_exact.

(** 2x2 constants: 4x1 leaves the tensor usable, 2x3 does not. *)
Example c49_exact_example : let t := mkTensor (STuple [DConst 2; DConst 2]) [2; 2] [1; 2; 3; 4] 4 in
  tensor_ok t /\ ~ typed (tn_ty t) [4; 1] /\ ~ typed (tn_ty t) [2; 3] /\
  (exists w', tn_resize_with al0 [4; 1] count (t, w0) = Unwound (mkTensor (STuple [DConst 2; DConst 2]) [2; 2] [1; 3; 100; 101] 4, w')) /\
  tn_resize_with al0 [2; 3] count (t, w0) = Aborted.
Proof.
  cbv zeta. split; [constructor; simpl; (reflexivity || lia || wf_tac)|].
  split; [intros H; inversion H; subst; discriminate|]. split; [intros H; inversion H as [|? ? ? ? _ H1]; inversion H1; discriminate|].
  split; [eexists; vm_compute; reflexivity|vm_compute; reflexivity].
Qed.
