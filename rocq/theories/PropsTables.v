(** C65: the layout type of every view operation's result, and what the sweep of wrong programs found left
    open: when [from_fn] panics, offsets of empty arrays in release builds, dropping a consumed array. *)
From Verif Require Import Base Spec SpecFacts Shape Mapping Index View Wf MappingFacts MapOps ReshapeFacts IndexFacts ViewFacts ViewMore TablesFacts.
From Verif Require Import Expr ExprSpec ExprFacts IterFacts SourceFacts ExprTree ExprMore PropsView PropsExpr.
From Verif Require Import Tensor TraceFacts TensorSpec TensorFacts ResizeFacts TensorOps OwnFacts PropsTensor Consume ConsumeFacts PropsConsume.
From Verif Require Import Machine MachineSpec MachineFacts PropsMachine.
Unset Strict Implicit.

(** ** C65 *)

(** The dimension that is kept when one lane is taken, and the rest of the array when one dimension is fixed or
    resized, have the layouts of the tables in axis.rs. *)
Theorem c65_lane : forall m a i m',
  wf_map m -> is_axis a (m_rank m) i -> ax_get a m = Ok m' ->
  m_layout m' = keep_table (m_ty m) (m_rank m) a i (m_layout m).
Proof.
  intros m a i m' Hw HA H. destruct (ax_get_ok Hw HA) as (m'' & E & _ & _ & _ & EL & _). rewrite E in H. injection H as <-.
  rewrite EL. exact (keep_is (m_layout m) (wf_typed Hw) HA).
Qed.
Print Assumptions c65_lane.
Theorem c65_axis_at : forall v a i k v',
  wf_map (v_map v) -> is_axis a (length (v_dims v)) i -> v_axis_at v a k = Ok v' ->
  v_layout v' = split_table (v_ty v) a i (v_layout v).
Proof.
  intros v a i k v' Hw HA H. unfold v_layout, v_ty. rewrite <- (split_is (m_layout (v_map v)) (wf_typed Hw) HA).
  unfold v_axis_at in H. unfold ax_remove_map in H. destruct (ax_index a _); try discriminate H. cbn [bind] in H.
  destruct (m_dim _ _); try discriminate H. cbn [bind] in H. destruct (assert _); try discriminate H. cbn [bind] in H.
  destruct (m_remove_dim _ _ _ _) eqn:E; try discriminate H. cbn [bind] in H. lay. injection H as <-.
  exact (remove_layout E).
Qed.
Print Assumptions c65_axis_at.
Theorem c65_split_axis_at : forall v a i k v1 v2,
  wf_map (v_map v) -> is_axis a (length (v_dims v)) i -> v_split_axis_at v a k = Ok (v1, v2) ->
  v_layout v1 = split_table (v_ty v) a i (v_layout v) /\ v_layout v2 = split_table (v_ty v) a i (v_layout v).
Proof.
  intros v a i k v1 v2 Hw HA H. unfold v_layout, v_ty. rewrite <- (split_is (m_layout (v_map v)) (wf_typed Hw) HA).
  unfold v_split_axis_at in H. unfold ax_resize_map in H. destruct (ax_index a _); try discriminate H. cbn [bind] in H.
  destruct (m_dim _ _); try discriminate H. cbn [bind] in H. destruct (assert _); try discriminate H. cbn [bind] in H.
  destruct (m_resize_dim _ _ _ _ k) eqn:E; try discriminate H. cbn [bind] in H.
  destruct (m_resize_dim _ _ _ _ (_ - _)) eqn:E2; try discriminate H. cbn [bind] in H. lay. injection H as <- <-.
  split; [exact (resize_layout E)|exact (resize_layout E2)].
Qed.
Print Assumptions c65_split_axis_at.

(** Where the tables give up the layout they have to: in an array of dimensions 2 the lanes along any
    dimension but the last one are not contiguous, nor is the rest when any dimension but the first one is fixed. *)
Theorem c65_needed : forall n rank m,
  (n < rank)%nat -> m = DenseM SDynRank (repeat 2 rank) ->
  ((n + 1 < rank)%nat -> exists m', ax_get (AxDyn n) m = Ok m' /\ is_contiguous m' = false) /\
  ((0 < n)%nat -> exists m', ax_remove_map (AxDyn n) m = Ok m' /\ is_contiguous m' = false).
Proof.
  intros n rank m Hn ->. set (m := DenseM _ _).
  assert (Hw : wf_map m).
  { split; [|exact I|exact I|apply row_major_length]. apply Forall_forall. intros x Hx. apply repeat_spec in Hx. lia. }
  assert (HA : is_axis (AxDyn n) (m_rank m) n) by (split; [|reflexivity]; unfold m_rank, m; cbn [m_dims]; rewrite repeat_length; lia).
  assert (HP : forall k, 0 < prodZ (repeat 2 k)).
  { induction k as [|k IH]; [reflexivity|]. cbn [repeat]. rewrite prodZ_cons. lia. }
  split; intros Hk.
  - destruct (ax_get_ok Hw HA) as (m' & E & Ed & Es & _ & _ & Hw'). exists m'. split; [exact E|].
    apply not_true_is_false. rewrite (is_contiguous_iff Hw'). rewrite Es, Ed. cbn [row_major m_strides m_dims m].
    rewrite nth_row_major by (rewrite repeat_length; lia).
    replace (skipn (S n) (repeat 2 rank)) with (2 :: repeat 2 (rank - n - 2)).
    + rewrite prodZ_cons. intros H. apply (f_equal (fun l => hd 0 l)) in H. cbn [hd] in H. change (prodZ []) with 1 in H. lia.
    + replace rank with (S n + S (rank - n - 2))%nat at 2 by lia. rewrite repeat_app, skipn_app, repeat_length.
      rewrite skipn_all2 by (rewrite repeat_length; lia). now rewrite Nat.sub_diag.
  - destruct (ax_remove_map_ok Hw HA) as (m' & E & Ed & Es & _ & _ & Hw'). exists m'. split; [exact E|].
    apply not_true_is_false. rewrite (is_contiguous_iff Hw'). rewrite Es, Ed. cbn [m_strides m_dims m].
    intros H. apply (f_equal (fun l => hd 0 l)) in H. destruct n as [|n]; [lia|]. destruct rank as [|[|rank]]; try lia.
    assert (EC : forall (x : Z) l, remove_at (S n) (x :: l) = x :: remove_at n l) by reflexivity.
    assert (EL : remove_at n (repeat 2 (S rank)) = repeat 2 rank).
    { unfold remove_at. replace (S rank) with (n + S (rank - n))%nat by lia.
      rewrite repeat_app, firstn_app, skipn_app, !repeat_length. rewrite firstn_all2 by (rewrite repeat_length; lia).
      rewrite skipn_all2 by (rewrite repeat_length; lia). rewrite Nat.sub_diag. replace (S n - n)%nat with 1%nat by lia.
      cbn [firstn skipn repeat app]. rewrite app_nil_r, <- repeat_app. f_equal. lia. }
    change (repeat 2 (S (S rank))) with (2 :: repeat 2 (S rank)) in H. cbn [row_major] in H. rewrite !EC, EL in H.
    cbn [row_major hd repeat] in H. rewrite prodZ_cons in H. specialize (HP rank). lia.
Qed.
Print Assumptions c65_needed.

(** [view(..)] gives a dense array exactly for an array that is one and indices that fix leading dimensions, select
    a range of the next one and everything of the others. *)
Theorem c65_view : forall v xs v', v_view v xs = Ok v' ->
  (v_layout v' = Dense <-> v_layout v = Dense /\ block xs).
Proof.
  intros v xs v' H. unfold v_view in H. destruct (view_index _ _ _) as [[o m]| | |] eqn:E; try discriminate H.
  cbn [bind] in H. injection H as <-. unfold v_layout. cbn [v_map]. rewrite (view_layout E). apply block_dense.
Qed.
Print Assumptions c65_view.
(** The other operations. *)
Theorem c65_others : forall v v',
  (forall ty d, v_reshape v ty d = Ok v' -> v_layout v' = v_layout v) /\
  (v_flatten v = Ok v' -> v_layout v' = v_layout v) /\
  (forall l ty, v_remap v l ty = Ok v' -> v_layout v' = l) /\
  (typed (v_ty v) (v_dims v) -> v_reorder v = Ok v' ->
   v_layout v' = if static_rank (v_ty v) && (length (v_dims v) <=? 1)%nat then v_layout v else Strided) /\
  (forall k, v_row v k = Ok v' -> v_layout v' = v_layout v) /\
  (forall k, v_col v k = Ok v' -> v_layout v' = Strided) /\
  (forall k, v_diag v k = Ok v' -> v_layout v' = Strided) /\
  (forall k, v_into_diag v k = Ok v' -> v_layout v' = Strided).
Proof.
  intros v v'.
  assert (HR : forall ty d w, v_reshape v ty d = Ok w -> v_layout w = v_layout v).
  { intros ty d w H. unfold v_reshape in H. destruct (m_reshape _ _ _) eqn:E; try discriminate H. injection H as <-.
    exact (reshape_layout E). }
  assert (HD : forall w k, v_into_diag w k = Ok v' -> v_layout v' = Strided).
  { intros w k H. unfold v_into_diag in H. do 5 (match type of H with bind ?o _ = _ => destruct o; cbn [bind] in H; try discriminate H end).
    destruct (if k >=? 0 then _ else _) as [[off len]| | |]; try discriminate H. cbn [bind] in H.
    unfold strided_new in H. destruct (assert _); try discriminate H. cbn [bind] in H. now injection H as <-. }
  split; [intros ty d; apply (HR ty d)|]. split; [apply (HR (STuple [DDyn]))|].
  split. { intros l ty H. unfold v_remap in H. destruct (m_remap _ _ _) eqn:E; try discriminate H. injection H as <-. exact (remap_layout E). }
  split.
  { intros HT H. unfold v_reorder in H. destruct (m_reorder _ _) eqn:E; try discriminate H. injection H as <-.
    unfold v_layout at 1. cbn [v_map]. rewrite (reorder_layout E). destruct (v_ty v) as [|ds]; [reflexivity|].
    pose proof (Forall2_len HT) as HL. cbn [static_rank andb]. rewrite <- HL. destruct ds as [|d [|d' ds]]; reflexivity. }
  split.
  { intros k H. unfold v_row in H. destruct (sh_from_dims _ _) as [sh| | |]; try discriminate H. cbn [bind] in H.
    destruct (v_reshape _ _ _) as [w| | |] eqn:E; try discriminate H. cbn [bind] in H. rewrite <- (@HR _ _ _ E).
    unfold v_view in H. destruct (view_index _ _ _) as [[o m]| | |] eqn:E2; try discriminate H. injection H as <-.
    exact (view_layout E2). }
  split.
  { intros k H. unfold v_col in H. destruct (sh_from_dims _ _) as [sh| | |]; try discriminate H. cbn [bind] in H.
    destruct (v_reshape _ _ _) as [w| | |] eqn:E; try discriminate H. cbn [bind] in H.
    unfold v_view in H. destruct (view_index _ _ _) as [[o m]| | |] eqn:E2; try discriminate H. injection H as <-.
    exact (view_layout E2). }
  split; [|intros k; apply HD].
  intros k H. unfold v_diag in H. destruct (sh_from_dims _ _) as [sh| | |]; try discriminate H. cbn [bind] in H.
  destruct (v_reshape _ _ _) as [w| | |] eqn:E; try discriminate H. cbn [bind] in H. exact (@HD _ _ H).
Qed.
Print Assumptions c65_others.

(** Every cell of the tables for ranks up to 3 and run-time rank; [block] and its opposite. *)
Example c65_tables :
  let dense := fun ty => (map (fun a => ax_keep a ty Dense) [AxConst 0; AxConst 1; AxConst 2; AxDyn 0],
                          map (fun a => ax_split a ty Dense) [AxConst 0; AxConst 1; AxConst 2; AxDyn 0]) in
  dense (STuple [DDyn; DDyn; DDyn]) = ([Strided; Strided; Dense; Strided], [Dense; Strided; Strided; Strided]) /\
  dense SDynRank = ([Strided; Strided; Strided; Strided], [Dense; Strided; Strided; Strided]) /\
  ax_keep AxRows SDynRank Dense = Dense /\ ax_split AxRows SDynRank Dense = Strided /\
  ax_keep AxRows (STuple [DDyn; DConst 3]) Dense = Dense /\ ax_split AxCols (STuple [DDyn; DConst 3]) Dense = Dense /\
  ax_split AxRows (STuple [DDyn; DConst 3]) Dense = Strided /\ ax_keep AxCols (STuple [DDyn; DConst 3]) Dense = Strided.
Proof. cbv zeta. vm_all. Qed.
Example c65_view_example :
  block [IxUsize 1; IxRange (Included 0) (Excluded 1); IxFull] /\ ~ block [IxRange (Included 0) (Excluded 1); IxUsize 0] /\
  (exists v, v_view ex_whole [IxUsize 1; IxRange (Included 0) (Excluded 1); IxFull] = Ok v /\ v_layout v = Dense) /\
  (exists v, v_view ex_whole [IxFull; IxUsize 1; IxFull] = Ok v /\ v_layout v = Strided).
Proof.
  split; [exists [IxUsize 1], [IxRange (Included 0) (Excluded 1); IxFull]; split; [reflexivity|]; split; [now repeat constructor|];
          right; exists (IxRange (Included 0) (Excluded 1)), 1%nat; now split|].
  split; [|split; eexists; (split; [vm_compute; reflexivity|reflexivity])].
  intros ([|f fx] & rest & E & HF & HR).
  - cbn [app] in E. subst rest. destruct HR as [HR|(x & n & HR & _)]; [discriminate|]. injection HR as _ HR. now destruct n.
  - injection E as <- _. inversion HF as [|? ? Hf]; subst. contradiction.
Qed.

(** ** C28: [from_fn] *)

(** It panics exactly if the number of elements overflows. *)
Theorem c28_panics : forall A F ty dims (f : list Z -> F -> outcome (A * F)) f0,
  nonneg dims ->
  (fits dims -> exists e, e_from_fn ty dims f f0 = Ok e /\ e_dims e = dims) /\
  (~ fits dims -> e_from_fn ty dims f f0 = Panic).
Proof.
  intros A F ty dims f f0 HN. unfold e_from_fn. destruct (checked_len_cases dims) as [HF|HE].
  - rewrite checked_len_fits by auto. split; [|intros H; contradiction]. intros _. eexists. split; reflexivity.
  - rewrite HE. split; [|auto]. intros H. rewrite checked_len_fits in HE by auto. discriminate.
Qed.
Print Assumptions c28_panics.
Example c28_panics_example :
  e_from_fn (A := Z) (F := unit) ty2 [2 ^ 40; 2 ^ 40] (fun _ s => Ok (0, s)) tt = Panic /\
  e_from_fn (A := Z) (F := unit) SDynRank [2 ^ 40; 2 ^ 40; 0] (fun _ s => Ok (0, s)) tt = Panic /\
  exists e, e_from_fn (A := Z) (F := unit) SDynRank [2 ^ 40; 0; 2 ^ 40] (fun _ s => Ok (0, s)) tt = Ok e.
Proof. split; [vm_compute; reflexivity|]. split; [vm_compute; reflexivity|]. eexists. vm_compute. reflexivity. Qed.

(** ** C62: release builds *)

(** The remainders of [linear_offset] panic exactly for strided arrays with a dimension 0, which have no elements. *)
Theorem c62_linear_release : forall m k,
  (x_linear_offset false m k = Panic <-> m_layout m = Strided /\ In 0 (m_dims m)) /\
  x_linear_offset false m k <> UB.
Proof.
  intros m k. destruct m as [ty dims|ty dims ss]; cbn [x_linear_offset m_layout m_dims bind].
  - split; [split; [discriminate|intros [H _]; discriminate]|discriminate].
  - assert (H : forall n d o, (n <= length dims)%nat ->
      (In 0 (firstn n dims) -> x_linear_loop false n dims ss d o = Panic) /\
      (~ In 0 (firstn n dims) -> exists r, x_linear_loop false n dims ss d o = Ok r)).
    { induction n as [|n IH]; intros d o Hn; cbn [x_linear_loop firstn]; [split; [intros []|eauto]|].
      change (match dims with [] => [] | x :: l => x :: firstn n l end) with (firstn (S n) dims).
      assert (EF : firstn (S n) dims = firstn n dims ++ [nth n dims 0]).
      { rewrite <- (firstn_skipn n (firstn (S n) dims)). rewrite (one_part (l := dims) (i := n) 0) by lia.
        now rewrite firstn_firstn, Nat.min_l by lia. }
      rewrite EF. destruct (Z.eqb_spec (nth n dims 0) 0) as [E|E]; cbn [negb assert bind].
      - split; [reflexivity|]. intros H. exfalso. apply H. rewrite E. apply in_or_app. right. now left.
      - assert (EI : forall z, exists y, i_res false z = Ok y) by (intros z; unfold i_res; destruct (i_fits z); eauto).
        destruct (EI (nth n ss 0 * as_isize (d mod nth n dims 0))) as [p ->]. cbn [bind].
        destruct (EI (o + p)) as [q ->]. cbn [bind]. destruct (IH (d / nth n dims 0) q ltac:(lia)) as [H1 H2].
        split; intros H; [apply H1|apply H2]; rewrite in_app_iff in *; cbn [In] in *; tauto. }
    destruct (H (length dims) k 0 (le_n _)) as [H1 H2]. rewrite firstn_all in *.
    destruct (in_dec Z.eq_dec 0 dims) as [HI|HI].
    + rewrite (H1 HI). split; [tauto|discriminate].
    + destruct (H2 HI) as [r ->]. split; [split; [discriminate|tauto]|discriminate].
Qed.
Print Assumptions c62_linear_release.
Example c62_linear_release_example :
  x_linear_offset false (StridedM ty2 [0; 3] [5; 1]) 0 = Panic /\ x_linear_offset false (StridedM ty2 [2; 3] [5; 1]) 4 = Ok 6 /\
  x_linear_offset false (DenseM ty2 [0; 3]) 7 = Ok 7.
Proof. vm_all. Qed.

(** ** C53: dropping a consumed array *)

(** It drops the elements not yet taken; it is undefined exactly if the index is past the end. *)
Theorem c53_drop : forall T C (e : into T) (w : world T C),
  tensor_ok (in_buf e) -> 0 <= in_index e ->
  (in_index e <= prodZ (tn_dims (in_buf e)) ->
   in_drop e w = Done tt (w_drop (skipn (Z.to_nat (in_index e)) (tn_mem (in_buf e))) w)) /\
  (prodZ (tn_dims (in_buf e)) < in_index e -> in_drop e w = Fault).
Proof.
  intros T C e w Ht HI. split; intros H; [apply in_drop_eq; auto|]. unfold in_drop, tn_len. rewrite sh_len_prod.
  destruct (Z.leb_spec (in_index e) (prodZ (tn_dims (in_buf e)))); [lia|]. now rewrite andb_false_r.
Qed.
Print Assumptions c53_drop.
Example c53_drop_example :
  in_drop (mkInto t23 4) w0 = Done tt (mkWorld 0 [] [] [5; 6]) /\ in_drop (mkInto t23 7) w0 = Fault.
Proof. vm_all. Qed.
