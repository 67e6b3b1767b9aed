(** Facts about the index semantics of view operations (Select.v). *)
From Verif Require Import Base Spec Shape Mapping Index View Wf Select.
From Verif Require Import Machine MachineSpec.
From Verif Require Import SpecFacts MappingFacts MapOps ReshapeFacts IndexFacts ViewFacts ViewMore MachineSteps.
Unset Strict Implicit.

(** ** Axes and permutations *)

Lemma axis_dim_is a rank i : is_axis a rank i -> axis_dim a rank = i.
Proof. intros [Hi H]. destruct a; cbn [axis_dim]; lia. Qed.

Lemma place_lt x l : In x l -> (place x l < length l)%nat.
Proof.
  induction l as [|y l IH]; [destruct 1|]. cbn [place length]. destruct (Z.eqb_spec y x) as [->|N]; [lia|].
  intros [E|H]; [congruence|]. specialize (IH H). lia.
Qed.

Lemma place_nth x l : In x l -> nth (place x l) l 0 = x.
Proof.
  induction l as [|y l IH]; [destruct 1|]. cbn [place]. destruct (Z.eqb_spec y x) as [->|N]; [reflexivity|].
  intros [E|H]; [congruence|]. exact (IH H).
Qed.

Lemma put_back_length perm idx : length (put_back perm idx) = length perm.
Proof. unfold put_back. now rewrite map_length, seq_length. Qed.

Lemma pick_put_back n perm idx : perm_of n perm -> length idx = n -> pick perm (put_back perm idx) = idx.
Proof.
  intros HP HL. pose proof (perm_of_length HP) as HLp. apply list_ext0; [rewrite pick_length; lia|].
  intros i Hi. rewrite pick_length in Hi. rewrite nth_pick by auto.
  destruct (@perm_of_nth_bound n perm i HP ltac:(lia)) as [B B0]. unfold put_back.
  rewrite nth_indep with (d' := (fun k => nth (place (Z.of_nat k) perm) idx 0) 0%nat) by (rewrite map_length, seq_length; lia).
  rewrite (map_nth (fun k => nth (place (Z.of_nat k) perm) idx 0)), seq_nth by lia. cbn [plus].
  assert (I : In (nth i perm 0) perm) by (apply nth_In; lia).
  rewrite Z2Nat.id by auto. pose proof (place_nth I) as E. pose proof (place_lt I) as L.
  assert (EQ : place (nth i perm 0) perm = i); [|now rewrite EQ].
  apply (perm_of_nth_inj HP); lia.
Qed.

Lemma put_back_unpick n perm idx : perm_of n perm -> length idx = n -> put_back perm idx = unpick perm idx.
Proof.
  intros HP HL. pose proof (perm_of_length HP) as HLp. eapply pick_inj; eauto.
  - now rewrite put_back_length.
  - now rewrite unpick_length.
  - rewrite (pick_put_back HP HL), (pick_unpick HP HL). reflexivity.
Qed.

(** ** Requests *)

Lemma resolved_no len req : ~ In usize_max req -> resolved len req = req.
Proof.
  intros H. unfold resolved. transitivity (map (fun r : Z => r) req); [|apply map_id]. apply map_ext_in. intros r I.
  destruct (Z.eqb_spec r usize_max) as [->|]; [contradiction|reflexivity].
Qed.

Lemma resolved_one len a b : ~ In usize_max a -> ~ In usize_max b ->
  resolved len (a ++ usize_max :: b) = a ++ len / prodZ (a ++ b) :: b.
Proof.
  intros Ha Hb. unfold resolved. rewrite known_one by auto. rewrite map_app. cbn [map]. rewrite Z.eqb_refl. f_equal; [|f_equal].
  - transitivity (map (fun r : Z => r) a); [|apply map_id]. apply map_ext_in. intros r I.
    destruct (Z.eqb_spec r usize_max) as [->|]; [contradiction|reflexivity].
  - transitivity (map (fun r : Z => r) b); [|apply map_id]. apply map_ext_in. intros r I.
    destruct (Z.eqb_spec r usize_max) as [->|]; [contradiction|reflexivity].
Qed.

Lemma reshape_resolved old ty req dims :
  sh_reshape old ty req = Ok dims ->
  dims = resolved (prodZ old) req /\ fits (known req) /\ resolves (prodZ old) req dims.
Proof.
  intros H. unfold sh_reshape in H.
  destruct (request_cases req) as [[Hno Hc]|(a & b & -> & Ha & [[Hb Hc]|[Hb Hc]])].
  - rewrite infer_loop_no in H by auto. cbn [bind] in H. apply bind_ok in H as (d & ES & H). apply sh_store_ok_inv in ES as ->.
    destruct (sh_checked_len req) as [nl|] eqn:C; [|discriminate]. apply checked_len_inv in C as [-> F].
    apply bind_ok in H as (u & A & H). apply assert_ok, Z.eqb_eq in A. rewrite sh_len_prod in A. injection H as <-.
    rewrite resolved_no, known_no by auto. split; [reflexivity|]. split; [exact F|]. left. auto.
  - rewrite infer_loop_one in H by auto. cbn [bind] in H. apply bind_ok in H as (d & ES & H). apply sh_store_ok_inv in ES as ->.
    destruct (sh_checked_len (a ++ 1 :: b)) as [nl|] eqn:C; [|discriminate]. apply checked_len_inv in C as [-> F].
    assert (HP1 : prodZ (a ++ 1 :: b) = prodZ (a ++ b)) by (rewrite !prodZ_app, prodZ_cons; lia). rewrite HP1, sh_len_prod in H.
    apply bind_ok in H as (u & A & H). apply assert_ok in A. apply negb_true_iff, Z.eqb_neq in A.
    apply bind_ok in H as (u' & B & H). apply assert_ok in B. apply Z.eqb_eq in B.
    apply sh_store_ok_inv in H as ->. cbn [plus]. rewrite upd_app_mid. rewrite resolved_one by auto. split; [reflexivity|].
    rewrite known_one by auto. split; [now apply fits_insert1|]. right. split; [exact Hc|]. split.
    { apply Forall2_app; [apply Forall2_refl_no|]. constructor; [now left|apply Forall2_refl_no]. }
    rewrite known_one by auto. split; [exact A|]. rewrite prodZ_app, prodZ_cons. rewrite prodZ_app in *.
    pose proof (Z.div_mod (prodZ old) (prodZ a * prodZ b) A). lia.
  - rewrite infer_loop_many in H by auto. discriminate.
Qed.

Lemma reshape_to_itself dims ty nd : sh_reshape dims ty dims = Ok nd -> nd = dims.
Proof.
  intros H. apply reshape_resolved in H as (-> & _ & R).
  destruct (request_cases dims) as [[Hno Hc]|(a & b & E & Ha & [[Hb Hc]|[Hb Hc]])].
  - now apply resolved_no.
  - subst dims. rewrite resolved_one in * by auto. f_equal. f_equal.
    destruct R as [(C & _)|(_ & _ & N & _)]; [lia|]. rewrite known_one in N by auto.
    rewrite prodZ_app, prodZ_cons. rewrite prodZ_app in *. replace (prodZ a * (usize_max * prodZ b)) with (usize_max * (prodZ a * prodZ b)) by lia.
    now rewrite Z.div_mul.
  - destruct R as [(C & _)|(C & _)]; lia.
Qed.

Lemma flat1 n i : flat [n] [i] = i.
Proof. cbn [flat]. cbn. lia. Qed.

(** ** One operation *)

Lemma given_arg v o : op_given (v_dims v) o <-> op_arg v o.
Proof. destruct o; cbn [op_given op_arg]; tauto. Qed.

Lemma shows_ext v v' f g : shows v v' f -> (forall idx, in_bounds (v_dims v') idx -> g idx = f idx) -> shows v v' g.
Proof. intros H E idx B. rewrite E by auto. auto. Qed.

Lemma mat_step v v' (g : view -> outcome view) :
  wf_map (v_map v) -> Forall (fun d => d <= usize_max) (v_dims v) ->
  (let* shape := sh_from_dims (mat_ty (v_ty v)) (v_dims v) in
   let* r := v_reshape v (mat_ty (v_ty v)) shape in g r) = Ok v' ->
  exists r d0 d1, v_dims v = [d0; d1] /\ v_dims r = [d0; d1] /\ wf_map (v_map r) /\ shows v r (fun idx => idx) /\ g r = Ok v'.
Proof.
  intros Hw HS Hg. pose proof (wf_nonneg Hw) as HN. fold (v_dims v) in HN. rewrite sh_from_dims_spec in Hg.
  destruct (accepts (mat_ty (v_ty v)) (v_dims v)) eqn:A; [|discriminate]. cbn [bind] in Hg.
  apply bind_ok in Hg as (r & E & Hg). exists r. apply accepts_typed in A.
  assert (HL2 : length (v_dims v) = 2%nat) by (apply Forall2_len in A; auto).
  destruct (@v_reshape_sound v (mat_ty (v_ty v)) (v_dims v) r Hw HN ltac:(simpl; lia) HL2 E) as (E1 & _ & _ & Hw' & EP & HSh).
  apply reshape_to_itself in E1.
  destruct (v_dims v) as [|d0 [|d1 [|d2 ds]]] eqn:ED; try discriminate HL2. exists d0, d1. do 3 (split; [auto|]). split; [|exact Hg].
  eapply shows_ext; [exact HSh|]. intros idx B. cbn beta. rewrite E1 in B |- *. rewrite unflat_flat; auto.
Qed.

Theorem step_index v o v' :
  wf_map (v_map v) -> Forall (fun d => d <= usize_max) (v_dims v) -> op_given (v_dims v) o -> v_step v o = Ok v' ->
  op_fits (v_dims v) o /\ v_dims v' = op_dims (v_dims v) o /\ wf_map (v_map v') /\ shows v v' (op_index (v_dims v) o).
Proof.
  intros Hw HS HA H. pose proof (wf_nonneg Hw) as HN. fold (v_dims v) in HN.
  destruct o as [a k|a k|a k|xs|p perm| |ty req| |l ty|k|k|k]; unfold op_index; cbn [v_step op_given op_fits op_dims] in *.
  - (* axis_at *)
    destruct (ax_index_spec a (length (v_dims v))) as [(i & _ & HX)|[_ NX]].
    2:{ rewrite v_axis_at_panic in H; auto; [discriminate|apply HA|]. intros i C. exfalso. eapply NX; eauto. }
    destruct (Z.lt_ge_cases k (nth i (v_dims v) 0)) as [Hk|Hk].
    2:{ rewrite v_axis_at_panic in H; auto; [discriminate|apply HA|]. intros j C. now rewrite (is_axis_unique C HX). }
    destruct (@v_axis_at_ok v a i k Hw HX) as (v2 & E & Hd & _ & _ & Hw' & HSh); [unfold usize in HA; lia|].
    rewrite H in E. injection E as <-. rewrite (axis_dim_is HX). split; [eauto|]. split; [exact Hd|split; [exact Hw'|exact HSh]].
  - (* split, first *)
    apply bind_ok in H as ([x y] & H & E). injection E as ->.
    destruct (ax_index_spec a (length (v_dims v))) as [(i & _ & HX)|[_ NX]].
    2:{ rewrite v_split_panic in H; auto; [discriminate|apply HA|]. intros i C. exfalso. eapply NX; eauto. }
    destruct (Z.le_gt_cases k (nth i (v_dims v) 0)) as [Hk|Hk].
    2:{ rewrite v_split_panic in H; auto; [discriminate|apply HA|]. intros j C. now rewrite (is_axis_unique C HX). }
    destruct (@split_ok v a i k Hw HX) as (v1 & v2 & E & Hd1 & Hd2 & Hw1 & Hw2 & HS1 & HS2); [unfold usize in HA; lia|].
    rewrite H in E. injection E as <- <-. rewrite (axis_dim_is HX). split; [eauto|]. split; [exact Hd1|split; [exact Hw1|exact HS1]].
  - (* split, second *)
    apply bind_ok in H as ([x y] & H & E). injection E as ->.
    destruct (ax_index_spec a (length (v_dims v))) as [(i & _ & HX)|[_ NX]].
    2:{ rewrite v_split_panic in H; auto; [discriminate|apply HA|]. intros i C. exfalso. eapply NX; eauto. }
    destruct (Z.le_gt_cases k (nth i (v_dims v) 0)) as [Hk|Hk].
    2:{ rewrite v_split_panic in H; auto; [discriminate|apply HA|]. intros j C. now rewrite (is_axis_unique C HX). }
    destruct (@split_ok v a i k Hw HX) as (v1 & v2 & E & Hd1 & Hd2 & Hw1 & Hw2 & HS1 & HS2); [unfold usize in HA; lia|].
    rewrite H in E. injection E as <- <-. rewrite (axis_dim_is HX). split; [eauto|]. split; [exact Hd2|split; [exact Hw2|exact HS2]].
  - (* view *)
    destruct HA as [HA HL]. destruct (ix_ok_dec (v_dims v) xs) as [HO|HO].
    2:{ rewrite v_view_panic in H by auto. discriminate. }
    destruct (view_ok Hw HA HS HL HO) as (v2 & E & Hd & Hw' & HSh). rewrite H in E. injection E as <-. auto.
  - (* permute *)
    destruct HA as [HU HM]. assert (HF : Forall (fun q => 0 <= q) perm) by (eapply Forall_impl; [|exact HU]; intros q [Hq _]; exact Hq).
    destruct (v_permute_inv Hw HF HM H) as [HPm Hr]. destruct (v_permute_ok Hw Hr HM HPm) as (v2 & E & Hd & _ & _ & Hw' & HSh).
    rewrite H in E. injection E as <-. do 3 (split; [auto|]). eapply shows_ext; [exact HSh|]. intros idx B.
    apply in_bounds_length in B. rewrite Hd, pick_length, (perm_of_length HPm) in B. apply (put_back_unpick HPm). lia.
  - (* reorder *)
    destruct (reorder_ok Hw) as (v2 & E & Hd & Hw' & HSh). rewrite H in E. injection E as <-. auto.
  - (* reshape *)
    destruct HA as [HU [HW HR]]. assert (HNr : nonneg req) by (eapply Forall_impl; [|exact HU]; intros q [Hq _]; exact Hq).
    destruct (@v_reshape_sound v ty req v' Hw HNr HW ltac:(destruct (sh_rank ty); auto) H) as (E & ET & _ & Hw' & EP & HSh).
    pose proof (reshape_resolved E) as (ED & F & R). rewrite <- ED.
    split; [|split; [reflexivity|split; [exact Hw'|exact HSh]]]. split; [exact F|]. split; [exact R|]. rewrite <- ET. exact (wf_typed Hw').
  - (* flatten *)
    unfold v_flatten, m_len in H. rewrite sh_len_prod in H. fold (v_dims v) in H. pose proof (prodZ_nonneg HN) as PN.
    destruct (@v_reshape_sound v (STuple [DDyn]) [prodZ (v_dims v)] v' Hw ltac:(constructor; [exact PN|constructor]) ltac:(simpl; lia) eq_refl H)
      as (E & _ & _ & Hw' & EP & HSh).
    pose proof (sh_reshape_len E) as L1. destruct (v_dims v') as [|n [|? ?]] eqn:EV; try discriminate L1.
    assert (n = prodZ (v_dims v)) as -> by (rewrite <- EP; cbn; lia).
    split; [exact I|]. split; [reflexivity|]. split; [exact Hw'|]. exact HSh.
  - (* remap *)
    destruct (accepts ty (v_dims v)) eqn:A.
    2:{ apply accepts_false_typed in A. rewrite v_remap_untyped in H by auto. discriminate. }
    apply accepts_typed in A. split; [exact A|]. destruct l.
    + destruct (v_remap_dense Hw A HA) as [HC HNC].
      destruct (list_eq_dec Z.eq_dec (m_strides (v_map v)) (row_major (v_dims v))) as [EC|NC].
      2:{ rewrite HNC in H by auto. discriminate. }
      destruct (HC EC) as (v2 & E & Hd & _ & _ & Hw' & HSh). rewrite H in E. injection E as <-. auto.
    + destruct (v_remap_strided Hw A HA) as (v2 & E & Hd & _ & _ & Hw' & HSh). rewrite H in E. injection E as <-. auto.
  - (* col *)
    destruct (@mat_step v v' (fun r => v_view r [IxFull; IxUsize k]) Hw HS H) as (r & d0 & d1 & ED & ER & Hwr & Sr & E).
    assert (HA2 : Forall ix_arg [IxFull; IxUsize k]) by (repeat constructor; apply HA).
    rewrite ED in HS, HN |- *. destruct (ix_ok_dec [d0; d1] [IxFull; IxUsize k]) as [HO|HO].
    2:{ rewrite v_view_panic in E; rewrite ?ER; auto. discriminate. }
    destruct (@view_ok r [IxFull; IxUsize k] Hwr HA2 ltac:(now rewrite ER) ltac:(now rewrite ER) ltac:(now rewrite ER)) as (v2 & E2 & Hd & Hw' & HSh).
    rewrite E in E2. injection E2 as <-. rewrite ER in Hd, HSh. cbn [sub_dims sub_index ix_kept] in Hd, HSh.
    inversion HN as [|? ? N0 _]; subst. assert (EL : Z.of_nat (length (ix_positions d0 IxFull)) = d0).
    { cbn [ix_positions]. unfold positions. rewrite map_length, zrange_length. lia. } rewrite EL in Hd.
    split. { inversion HO as [|? ? ? ? _ HO1]; subst. inversion HO1; subst. eauto. }
    split; [exact Hd|]. split; [exact Hw'|]. eapply shows_ext; [exact (shows_trans Sr HSh)|]. intros idx B. rewrite Hd in B.
    inversion B as [|? i ? rest Hi B1]; subst. inversion B1; subst. cbn beta iota. cbn [hd nth ix_positions]. f_equal.
    unfold positions. symmetry. rewrite nth_indep with (d' := Z.add 0 0) by (rewrite map_length, zrange_length; lia).
    rewrite map_nth. rewrite zrange_nth by lia. lia.
  - (* row *)
    destruct (@mat_step v v' (fun r => v_view r [IxUsize k; IxFull]) Hw HS H) as (r & d0 & d1 & ED & ER & Hwr & Sr & E).
    assert (HA2 : Forall ix_arg [IxUsize k; IxFull]) by (repeat constructor; apply HA).
    rewrite ED in HS, HN |- *. destruct (ix_ok_dec [d0; d1] [IxUsize k; IxFull]) as [HO|HO].
    2:{ rewrite v_view_panic in E; rewrite ?ER; auto. discriminate. }
    destruct (@view_ok r [IxUsize k; IxFull] Hwr HA2 ltac:(now rewrite ER) ltac:(now rewrite ER) ltac:(now rewrite ER)) as (v2 & E2 & Hd & Hw' & HSh).
    rewrite E in E2. injection E2 as <-. rewrite ER in Hd, HSh. cbn [sub_dims sub_index ix_kept] in Hd, HSh.
    inversion HN as [|? ? _ N1]; subst. inversion N1 as [|? ? N0 _]; subst. assert (EL : Z.of_nat (length (ix_positions d1 IxFull)) = d1).
    { cbn [ix_positions]. unfold positions. rewrite map_length, zrange_length. lia. } rewrite EL in Hd.
    split. { inversion HO as [|? ? ? ? HO1 _]; subst. eauto. }
    split; [exact Hd|]. split; [exact Hw'|]. eapply shows_ext; [exact (shows_trans Sr HSh)|]. intros idx B. rewrite Hd in B.
    inversion B as [|? i ? rest Hi B1]; subst. inversion B1; subst. cbn beta iota. cbn [hd nth ix_positions]. f_equal. f_equal.
    unfold positions. symmetry. rewrite nth_indep with (d' := Z.add 0 0) by (rewrite map_length, zrange_length; lia).
    rewrite map_nth. rewrite zrange_nth by lia. lia.
  - (* diag *)
    destruct (@mat_step v v' (fun r => v_into_diag r k) Hw HS H) as (r & d0 & d1 & ED & ER & Hwr & Sr & E).
    rewrite ED in *. destruct (@into_diag_spec r d0 d1 k Hwr ER) as [HO HNo].
    destruct (Z_le_dec (- d0) k) as [H0|H0]; [destruct (Z_le_dec k d1) as [H1|H1]|].
    2,3: rewrite HNo in E by lia; discriminate.
    destruct (HO (conj H0 H1)) as (v2 & E2 & Hd & Hw' & HSh). rewrite E in E2. injection E2 as <-.
    split; [eauto|]. split; [exact Hd|]. split; [exact Hw'|]. exact (shows_trans Sr HSh).
Qed.

(** ** Chains *)

Theorem run_index n os : forall v v',
  0 <= n <= usize_max -> valid_view n v -> Forall (fun d => d <= usize_max) (v_dims v) ->
  chain_given (v_dims v) os -> v_run v os = Ok v' ->
  chain_fits (v_dims v) os /\ v_dims v' = chain_dims (v_dims v) os /\ valid_view n v' /\
  Forall (fun d => d <= usize_max) (v_dims v') /\ shows v v' (chain_index (v_dims v) os).
Proof.
  induction os as [|o os IH]; intros v v' Hn HV HS HG H; cbn [v_run chain_given chain_fits chain_dims] in *.
  - injection H as <-. do 4 (split; [auto|]). intros idx B. cbn [chain_index]. auto.
  - destruct HG as [HO HG]. apply bind_ok in H as (v1 & E & H).
    destruct (step_index (vv_wf HV) HS HO E) as (HF & ED & _ & SH).
    destruct (step_valid Hn HV HS (proj1 (given_arg v o) HO) E) as (V1 & S1 & _).
    rewrite <- ED in HG |- *. destruct (IH v1 v' Hn V1 S1 (HG HF) H) as (F & D & V & SM & SH'). do 4 (split; [auto|]).
    intros idx B. cbn [chain_index]. rewrite <- ED. exact (shows_trans SH SH' B).
Qed.

Lemma given_args n os : forall v,
  0 <= n <= usize_max -> valid_view n v -> Forall (fun d => d <= usize_max) (v_dims v) ->
  chain_given (v_dims v) os -> run_args v os.
Proof.
  induction os as [|o os IH]; intros v Hn HV HS HG; [exact I|]. cbn [run_args chain_given] in *. destruct HG as [HO HG].
  split; [now apply given_arg|]. intros v' E. destruct (step_index (vv_wf HV) HS HO E) as (HF & ED & _).
  destruct (step_valid Hn HV HS (proj1 (given_arg v o) HO) E) as (V1 & S1 & _). apply IH; auto. rewrite ED. auto.
Qed.

(** ** Panics *)

Lemma step_fits n v o :
  0 <= n <= usize_max -> valid_view n v -> Forall (fun d => d < usize_max) (v_dims v) -> (length (v_dims v) < 64)%nat ->
  op_given (v_dims v) o -> any_layout o = true -> op_fits (v_dims v) o -> exists v', v_step v o = Ok v'.
Proof.
  intros Hn HV HS HR HA HO HF. pose proof (vv_wf HV) as Hw. pose proof (wf_nonneg Hw) as HN. fold (v_dims v) in HN.
  assert (HP : 0 <= prodZ (v_dims v) <= usize_max).
  { split; [now apply prodZ_nonneg|]. pose proof (@valid_len n v). lia. }
  assert (HS' : Forall (fun d => d <= usize_max) (v_dims v)) by (eapply Forall_impl; [|exact HS]; intros; cbv beta in *; lia).
  assert (M2 : forall d0 d1, v_dims v = [d0; d1] -> d0 < usize_max /\ d1 < usize_max /\ d0 * d1 <= usize_max).
  { intros d0 d1 E. rewrite E in HS, HP. inversion HS as [|? ? S0 S1]; subst. inversion S1; subst. cbn [prodZ fold_right] in HP. rewrite Z.mul_1_r in HP. split; [auto|split; [auto|apply HP]]. }
  destruct o as [a k|a k|a k|xs|p perm| |ty req| |l ty|k|k|k]; cbn [v_step op_given op_fits any_layout] in *; try discriminate HO.
  - destruct HF as (i & HX & Hk). destruct (@v_axis_at_ok v a i k Hw HX) as (v2 & E & _); [unfold usize in HA; lia|]. eauto.
  - destruct HF as (i & HX & Hk). destruct (@split_ok v a i k Hw HX) as (v1 & v2 & E & _); [unfold usize in HA; lia|]. rewrite E. eexists. reflexivity.
  - destruct HF as (i & HX & Hk). destruct (@split_ok v a i k Hw HX) as (v1 & v2 & E & _); [unfold usize in HA; lia|]. rewrite E. eexists. reflexivity.
  - destruct HA as [HA HL]. destruct (view_ok Hw HA HS' HL HF) as (v2 & E & _). eauto.
  - destruct HA as [HU HM]. destruct (v_permute_ok Hw HR HM HF) as (v2 & E & _). eauto.
  - destruct (reorder_ok Hw) as (v2 & E & _). eauto.
  - destruct l; [discriminate HO|]. destruct (v_remap_strided Hw HF HA) as (v2 & E & _). eauto.
  - destruct HF as (d0 & d1 & E & Hk). destruct (M2 d0 d1 E) as (A & B & C). destruct (@v_col_ok v d0 d1 k Hw E A B C) as (v2 & E2 & _); [unfold usize in HA; lia|]. eauto.
  - destruct HF as (d0 & d1 & E & Hk). destruct (M2 d0 d1 E) as (A & B & C). destruct (@v_row_ok v d0 d1 k Hw E A B C) as (v2 & E2 & _); [unfold usize in HA; lia|]. eauto.
  - destruct HF as (d0 & d1 & E & Hk). destruct (M2 d0 d1 E) as (A & B & C). destruct (@diag_spec v d0 d1 k Hw E A B C) as [X _].
    destruct (X Hk) as (v2 & E2 & _). eauto.
Qed.

Lemma Forall_lt_nth b (l : list Z) i : 0 < b -> Forall (fun d => d < b) l -> nth i l 0 < b.
Proof. intros Hb H. revert i. induction H; intros [|i]; cbn [nth]; auto. Qed.

Lemma Forall_upd {A} (P : A -> Prop) l i x : Forall P l -> P x -> Forall P (upd l i x).
Proof. intros H Hx. revert i. induction H; intros [|i]; simpl; constructor; auto. Qed.

(** These operations make no dimension larger and the rank no larger. *)
Lemma op_dims_small dims o : nonneg dims -> Forall (fun d => d < usize_max) dims ->
  op_given dims o -> op_fits dims o -> any_layout o = true ->
  Forall (fun d => d < usize_max) (op_dims dims o) /\ (length (op_dims dims o) <= length dims)%nat.
Proof.
  intros HN HS HA HF HO. assert (U : 0 < usize_max) by (unfold usize_max; lia).
  destruct o as [a k|a k|a k|xs|p perm| |ty req| |l ty|k|k|k]; cbn [op_given op_fits op_dims any_layout] in *; try discriminate HO.
  - destruct HF as (i & HX & Hk). rewrite (axis_dim_is HX). destruct HX as [HX _]. split.
    + apply Forall_app. split; [now apply Forall_firstn'|now apply Forall_skipn'].
    + rewrite remove_at_length by auto. lia.
  - destruct HF as (i & HX & Hk). rewrite (axis_dim_is HX), upd_length. split; [|lia]. apply Forall_upd; auto.
    pose proof (@Forall_lt_nth usize_max dims i U HS). lia.
  - destruct HF as (i & HX & Hk). rewrite (axis_dim_is HX), upd_length. split; [|lia]. apply Forall_upd; auto.
    pose proof (@Forall_lt_nth usize_max dims i U HS). unfold usize in HA. lia.
  - destruct HA as [HA _]. revert HN HA HS. induction HF as [|d x dims xs Hok HF IH]; intros HN HA HM; [split; [constructor|apply le_n]|].
    inversion HN; subst. inversion HA; subst. inversion HM; subst. destruct IH as [I1 I2]; auto. cbn [sub_dims length].
    destruct (ix_kept x) eqn:K; [|split; [auto|lia]]. split; [|cbn [length]; lia]. constructor; auto.
    rewrite ix_positions_length by auto. pose proof (@ix_count_le d x). lia.
  - split; [|rewrite pick_length, (perm_of_length HF); lia]. apply Forall_forall. intros x Hx. apply in_map_iff in Hx as (q & <- & _).
    now apply Forall_lt_nth.
  - split; [now apply Forall_rev|]. rewrite rev_length. lia.
  - auto.
  - destruct HF as (d0 & d1 & -> & Hk). inversion HS as [|? ? S0 S1]; subst. split; [repeat constructor; auto|cbn; lia].
  - destruct HF as (d0 & d1 & -> & Hk). inversion HS as [|? ? S0 S1]; subst. inversion S1; subst. split; [repeat constructor; auto|cbn; lia].
  - destruct HF as (d0 & d1 & -> & Hk). inversion HS as [|? ? S0 S1]; subst. inversion S1; subst. split; [|cbn; lia]. constructor; [|constructor].
    cbn [nth]. destruct (Z.geb_spec k 0); lia.
Qed.

Theorem run_panics n os : forall v,
  0 <= n <= usize_max -> valid_view n v -> Forall (fun d => d < usize_max) (v_dims v) -> (length (v_dims v) < 64)%nat ->
  chain_given (v_dims v) os -> forallb any_layout os = true ->
  (v_run v os = Panic /\ ~ chain_fits (v_dims v) os) \/ ((exists v', v_run v os = Ok v') /\ chain_fits (v_dims v) os).
Proof.
  induction os as [|o os IH]; intros v Hn HV HS HR HG HO; cbn [v_run chain_given chain_fits forallb] in *; [right; split; eauto|].
  apply andb_true_iff in HO as [HO1 HO]. destruct HG as [HA HG]. pose proof (wf_nonneg (vv_wf HV)) as HN. fold (v_dims v) in HN.
  assert (HS' : Forall (fun d => d <= usize_max) (v_dims v)) by (eapply Forall_impl; [|exact HS]; intros; cbv beta in *; lia).
  pose proof (fine_step v o) as F. destruct (v_step v o) as [v1| | |] eqn:E; try destruct F; cbn [bind].
  - destruct (step_index (vv_wf HV) HS' HA E) as (HF & ED & _ & _).
    destruct (step_valid Hn HV HS' (proj1 (given_arg v o) HA) E) as (V1 & _ & _).
    destruct (op_dims_small HN HS HA HF HO1) as [D1 D2]. rewrite <- ED in *.
    destruct (IH v1 Hn V1 D1 ltac:(lia) (HG HF) HO) as [[P N]|[P N]]; [left|right]; split; tauto.
  - left. split; [reflexivity|]. intros [HF _]. destruct (step_fits Hn HV HS HR HA HO1 HF) as (v' & E'). congruence.
Qed.

(** ** Machine integers *)

Theorem x_run_index dbg n os : forall v v',
  0 <= n <= isize_max -> machine_view n v -> run_machine dbg v os -> x_run dbg v os = Ok v' ->
  chain_fits (v_dims v) os /\ v_dims v' = chain_dims (v_dims v) os /\ machine_view n v' /\ shows v v' (chain_index (v_dims v) os).
Proof.
  induction os as [|o os IH]; intros v v' Hn HM HR H; cbn [x_run run_machine chain_fits chain_dims] in *.
  - injection H as <-. do 3 (split; [auto|]). intros idx B. cbn [chain_index]. auto.
  - destruct HR as [HO HR]. apply bind_ok in H as (v1 & E & H).
    destruct (@x_step_safe dbg n v o Hn HM HO) as [P|(w & Ew & M1 & u & z & VU & SU & EU & SZ)]; [congruence|].
    rewrite E in Ew. injection Ew as <-.
    assert (HA : op_given (v_dims u) o) by (rewrite (sv_dims SU); apply given_arg, HO).
    destruct (@step_index u o z (vv_wf VU) ltac:(rewrite (sv_dims SU); exact (mv_dims HM)) HA EU) as (HF & ED & _ & SH).
    rewrite (sv_dims SU) in HF, ED, SH. rewrite <- (sv_dims SZ) in ED.
    destruct (IH v1 v' Hn M1 (HR v1 E) H) as (F & D & M & SH'). rewrite <- ED. do 3 (split; [auto|]).
    assert (SV : shows v v1 (op_index (v_dims v) o)).
    { intros idx B. destruct (SH idx) as [B1 A1]; [now rewrite <- (sv_dims SZ)|]. rewrite (sv_dims SU) in B1. split; [exact B1|].
      rewrite (sv_addr SZ) by exact B. rewrite A1. apply SU. now rewrite (sv_dims SU). }
    intros idx B. cbn [chain_index]. rewrite <- ED. exact (shows_trans SV SH' B).
Qed.

(** ** Laws *)

Lemma chain_dims_app dims a b : chain_dims dims (a ++ b) = chain_dims (chain_dims dims a) b.
Proof. revert dims. induction a as [|o a IH]; intros dims; [reflexivity|]. cbn [app chain_dims]. apply IH. Qed.

Lemma chain_index_app dims a b idx : chain_index dims (a ++ b) idx = chain_index dims a (chain_index (chain_dims dims a) b idx).
Proof. revert dims. induction a as [|o a IH]; intros dims; [reflexivity|]. cbn [app chain_dims chain_index]. now rewrite IH. Qed.

Lemma chain_fits_app dims a b : chain_fits dims (a ++ b) <-> chain_fits dims a /\ chain_fits (chain_dims dims a) b.
Proof. revert dims. induction a as [|o a IH]; intros dims; cbn [app chain_dims chain_fits]; [tauto|]. rewrite IH. tauto. Qed.

Lemma full_positions d : 0 <= d -> Z.of_nat (length (ix_positions d IxFull)) = d.
Proof. intros H. cbn [ix_positions]. unfold positions. rewrite map_length, zrange_length. lia. Qed.

Lemma positions_nth lo hi k : 0 <= k < hi - lo -> nth (Z.to_nat k) (positions lo hi) 0 = lo + k.
Proof.
  intros H. unfold positions. rewrite nth_indep with (d' := lo + 0) by (rewrite map_length, zrange_length; lia).
  rewrite (map_nth (Z.add lo)), zrange_nth by lia. lia.
Qed.

Lemma full_dims dims : nonneg dims -> sub_dims dims (repeat IxFull (length dims)) = dims.
Proof.
  induction 1 as [|d dims Hd _ IH]; [reflexivity|]. cbn [length repeat sub_dims ix_kept]. rewrite IH. f_equal. now apply full_positions.
Qed.

Lemma full_index dims idx : in_bounds dims idx -> sub_index dims (repeat IxFull (length dims)) idx = idx.
Proof.
  induction 1 as [|d i dims idx Hi _ IH]; [reflexivity|]. cbn [length repeat sub_index ix_kept]. rewrite IH. f_equal.
  cbn [ix_positions]. rewrite positions_nth by lia. lia.
Qed.

(** A selection [x] of dimension [i], everything else in full. *)
Definition only (n i : nat) (x : dim_index) : list dim_index := repeat IxFull i ++ x :: repeat IxFull (n - i - 1).

Lemma only_kept_dims dims i x : nonneg dims -> (i < length dims)%nat -> ix_kept x = true ->
  sub_dims dims (only (length dims) i x) = upd dims i (Z.of_nat (length (ix_positions (nth i dims 0) x))).
Proof.
  unfold only. intros HN. revert i. induction HN as [|d dims Hd HN IH]; intros i Hi K; cbn [length] in Hi; [lia|]. destruct i as [|i].
  - cbn [repeat app sub_dims nth upd length Nat.sub]. rewrite K, Nat.sub_0_r, full_dims by auto. reflexivity.
  - cbn [repeat app sub_dims nth upd length Nat.sub ix_kept]. rewrite IH by (auto; lia). f_equal. now apply full_positions.
Qed.

Lemma only_kept_index dims i x idx : (i < length dims)%nat -> ix_kept x = true ->
  in_bounds (upd dims i (Z.of_nat (length (ix_positions (nth i dims 0) x)))) idx ->
  sub_index dims (only (length dims) i x) idx = upd idx i (nth (Z.to_nat (nth i idx 0)) (ix_positions (nth i dims 0) x) 0).
Proof.
  unfold only. revert i idx. induction dims as [|d dims IH]; intros i idx Hi K B; cbn [length] in Hi; [lia|].
  destruct i as [|i]; cbn [upd nth] in B; inversion B as [|? j ? rest Hj B']; subst.
  - cbn [repeat app sub_index nth upd length Nat.sub]. rewrite K, Nat.sub_0_r, full_index by auto. reflexivity.
  - cbn [repeat app sub_index nth upd length Nat.sub ix_kept]. rewrite IH by (auto; lia). f_equal. cbn [ix_positions]. rewrite positions_nth by lia. lia.
Qed.

Lemma only_at_dims dims i k : nonneg dims -> (i < length dims)%nat ->
  sub_dims dims (only (length dims) i (IxUsize k)) = remove_at i dims.
Proof.
  unfold only, remove_at. intros HN. revert i. induction HN as [|d dims Hd HN IH]; intros i Hi; cbn [length] in Hi; [lia|]. destruct i as [|i].
  - cbn [repeat app sub_dims length Nat.sub ix_kept firstn skipn]. rewrite Nat.sub_0_r. now apply full_dims.
  - cbn [repeat app sub_dims length Nat.sub ix_kept firstn skipn]. rewrite IH by lia. cbn [skipn]. f_equal. now apply full_positions.
Qed.

Lemma only_at_index dims i k idx : (i < length dims)%nat -> in_bounds (remove_at i dims) idx ->
  sub_index dims (only (length dims) i (IxUsize k)) idx = insert_at i k idx.
Proof.
  unfold only, remove_at, insert_at. revert i idx. induction dims as [|d dims IH]; intros i idx Hi B; cbn [length] in Hi; [lia|]. destruct i as [|i].
  - cbn [repeat app sub_index length Nat.sub ix_kept firstn skipn] in *. rewrite Nat.sub_0_r. rewrite full_index by auto. reflexivity.
  - cbn [firstn skipn app] in B. inversion B as [|? j ? rest Hj B']; subst.
    cbn [repeat app sub_index length Nat.sub ix_kept firstn skipn ix_positions]. rewrite IH by (auto; lia). f_equal. rewrite positions_nth by lia. lia.
Qed.

Lemma sub_dims_app d1 x1 d2 x2 : length d1 = length x1 -> sub_dims (d1 ++ d2) (x1 ++ x2) = sub_dims d1 x1 ++ sub_dims d2 x2.
Proof.
  revert x1. induction d1 as [|d d1 IH]; intros [|x x1] H; try discriminate H; [reflexivity|]. injection H as H.
  cbn [app sub_dims]. destruct (ix_kept x); cbn [app]; now rewrite IH.
Qed.

Lemma sub_index_app d1 x1 d2 x2 i1 i2 : length d1 = length x1 -> length i1 = length (sub_dims d1 x1) ->
  sub_index (d1 ++ d2) (x1 ++ x2) (i1 ++ i2) = sub_index d1 x1 i1 ++ sub_index d2 x2 i2.
Proof.
  revert x1 i1. induction d1 as [|d d1 IH]; intros [|x x1] i1 H L; try discriminate H.
  - cbn [sub_dims length] in L. destruct i1; [reflexivity|discriminate L].
  - injection H as H. cbn [sub_dims] in L. cbn [app sub_index]. destruct (ix_kept x).
    + destruct i1 as [|i i1]; [discriminate L|]. cbn [app length] in *. rewrite IH by (auto; lia). reflexivity.
    + rewrite IH by auto. reflexivity.
Qed.

Lemma sub_dims_rev dims xs : length xs = length dims -> sub_dims (rev dims) (rev xs) = rev (sub_dims dims xs).
Proof.
  revert xs. induction dims as [|d dims IH]; intros [|x xs] H; try discriminate H; [reflexivity|]. injection H as H.
  cbn [rev]. rewrite sub_dims_app by (rewrite !rev_length; lia). rewrite IH by auto. cbn [sub_dims].
  destruct (ix_kept x); cbn [rev]; [reflexivity|]. now rewrite app_nil_r.
Qed.

Lemma sub_index_rev dims xs idx : length xs = length dims -> length idx = length (sub_dims dims xs) ->
  sub_index (rev dims) (rev xs) (rev idx) = rev (sub_index dims xs idx).
Proof.
  revert xs idx. induction dims as [|d dims IH]; intros [|x xs] idx H L; try discriminate H; [reflexivity|]. injection H as H.
  cbn [sub_dims] in L. cbn [rev sub_index]. destruct (ix_kept x) eqn:K.
  - destruct idx as [|i idx]; [discriminate L|]. injection L as L. cbn [rev].
    rewrite sub_index_app; [|rewrite !rev_length; lia|rewrite sub_dims_rev, !rev_length by auto; lia].
    rewrite IH by auto. cbn [sub_index]. rewrite K. reflexivity.
  - rewrite <- (app_nil_r (rev idx)).
    rewrite sub_index_app; [|rewrite !rev_length; lia|rewrite sub_dims_rev, !rev_length by auto; lia].
    rewrite IH by auto. cbn [sub_index]. rewrite K. reflexivity.
Qed.

Lemma pick_pick p q l : Forall (fun x => 0 <= x /\ (Z.to_nat x < length p)%nat) q -> pick q (pick p l) = pick (pick q p) l.
Proof.
  intros H. unfold pick at 1 3 4. rewrite map_map. apply map_ext_in. intros x I. rewrite Forall_forall in H. destruct (H x I) as [_ L].
  now rewrite nth_pick.
Qed.

Lemma pick_perm_of n p q : perm_of n p -> perm_of n q -> perm_of n (pick q p).
Proof.
  intros HP HQ. unfold perm_of in *. unfold pick. eapply Permutation_trans; [apply Permutation_map; exact HQ|].
  rewrite map_map. pose proof (Permutation_length HP) as L. rewrite map_length, seq_length in L.
  eapply Permutation_trans; [|exact HP]. replace (map (fun x => nth (Z.to_nat (Z.of_nat x)) p 0) (seq 0 n)) with p; [reflexivity|].
  apply list_ext0; [rewrite map_length, seq_length; auto|]. intros i Hi.
  rewrite nth_indep with (d' := (fun x => nth (Z.to_nat (Z.of_nat x)) p 0) 0%nat) (n := i) (l := map _ _) by (rewrite map_length, seq_length; lia).
  rewrite (map_nth (fun x => nth (Z.to_nat (Z.of_nat x)) p 0)), seq_nth by lia. cbn [plus]. now rewrite Nat2Z.id.
Qed.

Lemma perm_of_range n p : perm_of n p -> Forall (fun x => 0 <= x /\ (Z.to_nat x < n)%nat) p.
Proof.
  intros H. apply Forall_forall. intros x I. apply (Permutation_in _ H) in I. apply in_map_iff in I as (k & <- & I). apply in_seq in I. lia.
Qed.

Lemma permute_twice dims a b c p q : perm_of (length dims) p -> perm_of (length dims) q ->
  same_selection dims [OpPermute a p; OpPermute b q] [OpPermute c (pick q p)].
Proof.
  intros HP HQ. pose proof (perm_of_length HP) as LP. pose proof (perm_of_length HQ) as LQ.
  pose proof (pick_perm_of HP HQ) as HPQ.
  assert (R : Forall (fun x => 0 <= x /\ (Z.to_nat x < length p)%nat) q) by (rewrite LP; apply perm_of_range; exact HQ).
  split; cbn [chain_dims op_dims chain_index op_index]; [now apply pick_pick|]. intros idx B.
  apply in_bounds_length in B. rewrite !pick_length in B.
  eapply (@pick_inj (length dims) (pick q p)); [exact HPQ|rewrite put_back_length; lia|rewrite put_back_length, pick_length; lia|].
  rewrite (pick_put_back HPQ) by lia. rewrite <- pick_pick by exact R.
  rewrite (pick_put_back HP) by (rewrite put_back_length; lia). apply (pick_put_back HQ). lia.
Qed.

Lemma reshape_twice dims t1 t2 r1 r2 : nonneg dims -> op_fits dims (OpReshape t1 r1) -> op_fits dims (OpReshape t2 r2) ->
  Forall usize r1 -> same_selection dims [OpReshape t1 r1; OpReshape t2 r2] [OpReshape t2 r2].
Proof.
  intros HN (_ & R1 & _) (_ & R2 & _) U1.
  assert (P1 : prodZ (resolved (prodZ dims) r1) = prodZ dims) by (destruct R1 as [(_ & _ & E)|(_ & _ & _ & E)]; exact E).
  assert (P2 : prodZ (resolved (prodZ dims) r2) = prodZ dims) by (destruct R2 as [(_ & _ & E)|(_ & _ & _ & E)]; exact E).
  assert (N1 : nonneg (resolved (prodZ dims) r1)).
  { apply Forall_forall. intros x I. unfold resolved in I. apply in_map_iff in I as (r & <- & I). unfold usize in U1. rewrite Forall_forall in U1.
    destruct (r =? usize_max); [|apply (U1 r I)]. assert (0 <= prodZ (known r1)).
    { apply prodZ_nonneg. apply Forall_forall. intros y J. apply filter_In in J as [J _]. apply (U1 y J). }
    pose proof (prodZ_nonneg HN). destruct (Z.eq_dec (prodZ (known r1)) 0) as [->|]; [now rewrite Zdiv_0_r|]. apply Z.div_pos; lia. }
  split; cbn [chain_dims op_dims chain_index op_index]; rewrite P1; [reflexivity|]. intros idx B.
  pose proof (flat_bounds B) as F. rewrite P2 in F. rewrite flat_unflat by (auto; lia). reflexivity.
Qed.

Lemma rev_range d : 0 <= d -> Z.of_nat (length (ix_positions d (IxStep Unbounded Unbounded (-1)))) = d.
Proof.
  intros H. cbn [ix_positions range_lo range_hi]. change (-1 >? 0) with false. cbn iota.
  rewrite (filter_ext _ (fun _ => true)).
  2:{ intros a. change (- -1) with 1. rewrite Z.mod_1_r. reflexivity. }
  assert (FT : forall l : list Z, filter (fun _ => true) l = l) by (induction l; cbn; congruence).
  rewrite FT, rev_length. unfold positions. rewrite map_length, zrange_length. lia.
Qed.

Lemma rev_nth_position d k : 0 <= k < d -> nth (Z.to_nat k) (ix_positions d (IxStep Unbounded Unbounded (-1))) 0 = d - 1 - k.
Proof.
  intros H. cbn [ix_positions range_lo range_hi]. change (-1 >? 0) with false. cbn iota.
  rewrite (filter_ext _ (fun _ => true)).
  2:{ intros a. change (- -1) with 1. rewrite Z.mod_1_r. reflexivity. }
  assert (FT : forall l : list Z, filter (fun _ => true) l = l) by (induction l; cbn; congruence).
  assert (L : length (positions 0 d) = Z.to_nat d) by (unfold positions; rewrite map_length, zrange_length; f_equal; lia).
  rewrite FT, rev_nth by lia. rewrite L. replace (Z.to_nat d - S (Z.to_nat k))%nat with (Z.to_nat (d - 1 - k)) by lia.
  rewrite positions_nth by lia. lia.
Qed.

Lemma upd_upd {A} (l : list A) i x y : upd (upd l i x) i y = upd l i y.
Proof. revert i. induction l as [|a l IH]; intros [|i]; cbn [upd]; auto. now rewrite IH. Qed.

Lemma reverse_twice dims i : nonneg dims -> (i < length dims)%nat ->
  let o := OpView (only (length dims) i (IxStep Unbounded Unbounded (-1))) in same_selection dims [o; o] [].
Proof.
  intros HN Hi o. set (d := nth i dims 0). assert (Hd : 0 <= d) by (unfold d, nonneg in *; rewrite Forall_forall in HN; apply HN, nth_In, Hi).
  assert (E1 : op_dims dims o = dims).
  { unfold o. cbn [op_dims]. rewrite only_kept_dims by auto. fold d. rewrite rev_range by auto. unfold d. now apply upd_same. }
  split; cbn [chain_dims chain_index]; rewrite !E1; [reflexivity|]. intros idx B. pose proof (in_bounds_nth B Hi) as Bi. fold d in Bi.
  pose proof (in_bounds_length B) as L.
  assert (G : forall idx, in_bounds dims idx -> op_index dims o idx = upd idx i (d - 1 - nth i idx 0)).
  { intros j Bj. unfold o. cbn [op_index]. rewrite only_kept_index; auto.
    - fold d. rewrite rev_nth_position; [reflexivity|]. apply (in_bounds_nth Bj Hi).
    - fold d. rewrite rev_range by auto. unfold d. now rewrite upd_same. }
  rewrite (G idx B). rewrite G.
  - rewrite upd_upd, upd_nth_same by lia. replace (d - 1 - (d - 1 - nth i idx 0)) with (nth i idx 0) by lia. apply upd_same. lia.
  - rewrite <- (@upd_same Z dims i 0) by auto. apply in_bounds_upd; auto. fold d. lia.
Qed.
