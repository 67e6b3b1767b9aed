(** Programs over views of arrays whose elements have no size. *)
From Verif Require Import Base Spec SpecFacts Shape Mapping Index View Wf MappingFacts MapOps ReshapeFacts IndexFacts ViewFacts ViewMore.
From Verif Require Import Machine MachineSpec MachineFacts MachineViews MachineReshape MachineRun MachineWrap MachineRelease MachineSteps Zst ZstFacts.
Unset Strict Implicit.

(** The machine operation gives the mapping of the exact one, with wrapped strides. *)
Definition maps (x y : outcome view) : Prop := omap v_map x = omap (fun w => wrapm (v_map w)) y.
Lemma maps_ok x y v' : maps x y -> x = Ok v' -> exists w, y = Ok w /\ v_map v' = wrapm (v_map w).
Proof. unfold maps. intros H ->. destruct y as [w| | |]; try discriminate. cbn in H. injection H as H. eauto. Qed.
Lemma maps_back x y w : maps x y -> y = Ok w -> exists v', x = Ok v' /\ v_map v' = wrapm (v_map w).
Proof. unfold maps. intros H ->. destruct x as [v| | |]; try discriminate. cbn in H. injection H as H. eauto. Qed.
Lemma maps_wrap x y : x = omap wrapv y -> maps x y.
Proof. intros ->. unfold maps. destruct y; reflexivity. Qed.

Lemma z_isempty dims : exists b, x_is_empty false dims = Ok b.
Proof. unfold x_is_empty. rewrite x_len_wrap. cbn [bind]. eauto. Qed.

(** ** Numbers of elements *)

Lemma prod_upd dims : forall i k, nonneg dims -> 0 <= k <= nth i dims 0 -> 0 <= prodZ (upd dims i k) <= prodZ dims.
Proof.
  induction dims as [|d dims IH]; intros i k HN HK; [destruct i; cbn; lia|]. inversion HN as [|? ? H1 H2]; subst.
  pose proof (prodZ_nonneg H2). destruct i as [|i]; cbn [nth upd] in *; rewrite !prodZ_cons; [nia|]. specialize (IH i k H2 HK). nia.
Qed.
Lemma prod_remove dims : forall i, nonneg dims -> (i < length dims)%nat -> prodZ dims = nth i dims 0 * prodZ (remove_at i dims).
Proof.
  induction dims as [|d dims IH]; intros i HN HI; cbn [length] in *; [lia|]. inversion HN as [|? ? H1 H2]; subst.
  destruct i as [|i]; [reflexivity|]. change (remove_at (S i) (d :: dims)) with (d :: remove_at i dims). cbn [nth]. rewrite !prodZ_cons.
  rewrite (IH i H2) by lia. ring.
Qed.
Lemma forall_remove (P : Z -> Prop) dims : forall i, Forall P dims -> Forall P (remove_at i dims).
Proof.
  induction dims as [|d dims IH]; intros [|i] H; inversion H; subst; try (cbn; constructor; fail); [assumption|].
  change (remove_at (S i) (d :: dims)) with (d :: remove_at i dims). constructor; auto.
Qed.
Lemma perm_prod perm dims : perm_of (length dims) perm -> prodZ (pick perm dims) = prodZ dims.
Proof.
  intros HP. unfold perm_of in HP. rewrite <- (pick_identity dims) at 2. unfold pick. pose proof (Permutation_map (fun p => nth (Z.to_nat p) dims 0) HP) as HM.
  unfold prodZ. induction HM; cbn [fold_right]; lia.
Qed.
Lemma perm_forall (P : Z -> Prop) perm dims : perm_of (length dims) perm -> Forall P dims -> Forall P (pick perm dims).
Proof.
  intros HP HF. unfold perm_of in HP. pose proof (Permutation_map (fun p => nth (Z.to_nat p) dims 0) HP) as HM.
  apply (Permutation_Forall (Permutation_sym HM)). change (Forall P (pick (map Z.of_nat (seq 0 (length dims))) dims)). now rewrite pick_identity.
Qed.
Lemma sub_prod dims xs : nonneg dims -> Forall ix_arg xs -> Forall2 ix_ok dims xs -> 0 <= prodZ (sub_dims dims xs) <= prodZ dims.
Proof.
  intros HN HA HO. revert HN HA. induction HO as [|d x dims xs Hd HO IH]; intros HN HA; [cbn; lia|].
  inversion HN; subst. inversion HA; subst. cbn [sub_dims]. rewrite prodZ_cons. specialize (IH ltac:(auto) ltac:(auto)).
  destruct (ix_kept x) eqn:EK.
  - rewrite prodZ_cons. assert (L : 0 <= Z.of_nat (length (ix_positions d x)) <= d).
    { split; [lia|]. rewrite ix_positions_length by auto. pose proof (@ix_count_le d x ltac:(auto) ltac:(auto) Hd EK). lia. }
    nia.
  - destruct x as [i| | |]; try discriminate. cbn [ix_ok ix_arg] in *. unfold usize in *. nia.
Qed.

(** ** Single operations *)

Section Step.
Variable v : view.
Hypothesis HV : zst_view v.
Let HW : wf_map (v_map v). Proof. apply HV. Qed.
Let HN : nonneg (v_dims v). Proof. apply (wf_nonneg HW). Qed.
Let HD : Forall (fun d => d <= usize_max) (v_dims v). Proof. apply HV. Qed.
Let HB : 0 <= prodZ (v_dims v) <= usize_max. Proof. split; [now apply prodZ_nonneg|apply HV]. Qed.

Lemma z_wrap : wrapm (v_map v) = v_map v.
Proof. apply wrapm_id, HV. Qed.
Lemma z_wrapv : wrapv v = v.
Proof. unfold wrapv. rewrite z_wrap. now destruct v. Qed.

Lemma z_axis_at a k : maps (x_axis_at false v a k) (v_axis_at v a k).
Proof.
  unfold maps, x_axis_at, v_axis_at. destruct (ax_index a (m_rank (v_map v))) as [i| | |]; try reflexivity. cbn [bind].
  destruct (m_dim (v_map v) i); try reflexivity. cbn [bind]. destruct (assert _); try reflexivity. cbn [bind].
  rewrite <- z_wrap at 1. rewrite x_ax_remove_wrap. destruct (ax_remove_map a (v_map v)) as [m'| | |]; try reflexivity. cbn [bind omap].
  rewrite <- z_wrap at 1. rewrite x_stride_wrap. destruct (m_stride (v_map v) i); try reflexivity. cbn [bind omap]. rewrite i_res_false. cbn [bind].
  destruct (z_isempty (m_dims (wrapm m'))) as (b & ->). reflexivity.
Qed.
Lemma z_split a k : maps (let* (x, _) := x_split_axis_at false v a k in Ok x) (let* (x, _) := v_split_axis_at v a k in Ok x) /\
  maps (let* (_, y) := x_split_axis_at false v a k in Ok y) (let* (_, y) := v_split_axis_at v a k in Ok y).
Proof.
  unfold maps, x_split_axis_at, v_split_axis_at. destruct (ax_index a (m_rank (v_map v))) as [i| | |]; try (split; reflexivity). cbn [bind].
  destruct (m_dim (v_map v) i) as [size| | |]; try (split; reflexivity). cbn [bind]. destruct (assert _); try (split; reflexivity). cbn [bind].
  rewrite <- z_wrap, !x_ax_resize_wrap, x_stride_wrap. rewrite ?z_wrap.
  destruct (ax_resize_map a (v_map v) k) as [m1| | |]; try (split; reflexivity). cbn [bind omap].
  destruct (ax_resize_map a (v_map v) (size - k)) as [m2| | |]; try (split; reflexivity). cbn [bind omap].
  destruct (m_stride (v_map v) i); try (split; reflexivity). cbn [bind omap]. rewrite i_res_false. cbn [bind].
  destruct (z_isempty (m_dims (wrapm m2))) as (b & ->). split; reflexivity.
Qed.

Lemma z_view_op xs : Forall ix_arg xs -> length xs = length (v_dims v) -> maps (x_view false v xs) (v_view v xs).
Proof.
  intros HA HL. unfold maps. destruct (ix_ok_dec (v_dims v) xs) as [OK|NO].
  - destruct (v_view_ok HW HA HD HL OK) as (w & E & _). rewrite E. cbn [omap bind]. unfold v_view in E. apply bind_ok in E as ([off m'] & E & F).
    injection F as <-. unfold x_view. rewrite <- z_wrap. rewrite (x_view_index_wrap E). cbn [bind].
    destruct (z_isempty (m_dims (wrapm m'))) as (b & ->). reflexivity.
  - rewrite v_view_panic by auto. unfold x_view. rewrite x_view_index_panic; auto; unfold m_rank.
    + unfold v_dims in HL. lia.
    + unfold v_dims in *. rewrite HL, Nat.sub_diag. exact NO.
Qed.
Lemma z_permute p perm : (length (v_dims v) < 64)%nat -> Forall usize perm -> perm_matches p perm ->
  maps (x_v_permute false v p perm) (v_permute v p perm).
Proof. intros HR HP HM. apply maps_wrap. rewrite <- z_wrapv at 1. now apply x_v_permute_wrap. Qed.
Lemma z_reorder : maps (x_v_reorder false v) (v_reorder v).
Proof. apply maps_wrap. rewrite <- z_wrapv at 1. apply x_v_reorder_wrap. Qed.
Lemma z_remap l ty v' : ty_wf ty -> x_v_remap false v l ty = Ok v' ->
  wf_map (v_map v') /\ v_dims v' = v_dims v /\ v_ty v' = ty /\ (v_layout v' = Strided -> Forall is_isize (m_strides (v_map v'))).
Proof.
  intros HT H. destruct l.
  - unfold x_v_remap in H. apply bind_ok in H as (m' & E & H). injection H as <-. cbn [x_remap] in E. apply bind_ok in E as (b & _ & E).
    apply bind_ok in E as (u & _ & E). apply bind_ok in E as (d & ED & E). injection E as <-.
    pose proof (@sh_from_dims_spec ty (m_dims (v_map v))) as S. rewrite S in ED. destruct (accepts ty (m_dims (v_map v))) eqn:EA; [|discriminate].
    injection ED as <-. unfold v_dims, v_ty, v_layout. cbn [v_map m_dims m_ty m_layout]. split; [|repeat split; auto; discriminate].
    constructor; cbn [m_ty m_dims m_strides]; auto.
    + now apply accepts_typed.
    + apply row_major_length.
  - assert (M : maps (x_v_remap false v Strided ty) (v_remap v Strided ty)).
    { apply maps_wrap. rewrite <- z_wrapv at 1. unfold x_v_remap, v_remap. cbn [wrapv v_map v_ptr].
      rewrite x_remap_strided_wrap. destruct (m_remap _ _ _); reflexivity. }
    destruct (maps_ok M H) as (w & E & F). unfold v_dims, v_ty, v_layout. rewrite F.
    assert (TY : typed ty (v_dims v)).
    { unfold v_remap in E. rewrite m_remap_strided in E by apply (wf_strides HW). apply accepts_typed. unfold v_dims.
      destruct (accepts ty (m_dims (v_map v))); [reflexivity|discriminate]. }
    destruct (v_remap_strided HW TY HT) as (w' & E' & D & T & L & W' & _). rewrite E in E'. injection E' as <-.
    rewrite wrapm_dims, wrapm_ty, wrapm_layout. split; [now apply wrapm_wf|]. split; [exact D|]. split; [exact T|]. intros EL.
    rewrite wrap_strides by exact EL. apply Forall_forall. intros x Hx. apply in_map_iff in Hx as (y & <- & _). apply as_isize_range.
Qed.

(** Reshaping: the new shape is the one asked for, whatever the strides. *)
Lemma z_reshape ty req v' : Forall usize req -> ty_of_len ty (length req) -> x_v_reshape false v ty req = Ok v' ->
  wf_map (v_map v') /\ sh_reshape (v_dims v) ty req = Ok (v_dims v') /\ v_ty v' = ty /\ (v_layout v' = Strided -> Forall is_isize (m_strides (v_map v'))).
Proof.
  intros HR [HT HL] H. assert (NR : nonneg req) by (eapply Forall_impl; [|exact HR]; intros a [? _]; assumption).
  assert (HK : match sh_rank ty with Some k => length req = k | None => True end) by (destruct (sh_rank ty); auto; lia).
  unfold x_v_reshape in H. apply bind_ok in H as (m' & E & H). injection H as <-. unfold v_dims, v_ty, v_layout. cbn [v_map].
  pose proof HV as ZV. unfold v_dims in *. destruct (v_map v) as [t d|t d st] eqn:EM; cbn [x_reshape m_dims] in *.
  - apply bind_ok in E as (nd & E & F). injection F as <-. rewrite x_sh_reshape_wrap in E by exact HB.
    destruct (@sh_reshape_sound _ ty _ _ HN NR HK E) as (L & N & T & _). cbn [m_dims m_ty m_layout m_strides]. split; [|repeat split; auto; discriminate].
    constructor; cbn [m_ty m_dims m_strides]; auto. apply row_major_length.
  - apply bind_ok in E as (nd & E & F). rewrite x_sh_reshape_wrap in E by exact HB.
    destruct (@sh_reshape_sound _ ty _ _ HN NR HK E) as (L & N & T & _).
    apply bind_ok in F as (ns & ED & F). pose proof (@dims_new_ok_inv _ _ _ ED) as ->.
    pose proof (zv_strides HV) as ZS. unfold v_layout in ZS. rewrite EM in ZS. specialize (ZS eq_refl). cbn [m_strides] in ZS.
    pose proof (wf_strides HW) as WL. cbn [m_strides m_dims] in WL.
    destruct (@loop_total d st nd (length d) ZS ltac:(lia)
      {| rs_old_len := 1; rs_new_len := 1; rs_old_stride := 1; rs_new_stride := 1; rs_valid := true; rs_j := length nd; rs_strides := repeat 0 (length nd) |})
      as (r & X & R).
    { constructor; cbn [rs_j rs_new_len rs_new_stride rs_strides]; [reflexivity| |lia|apply small_isize; unfold isize_max; lia| |apply repeat_length].
      - rewrite firstn_all, Z.mul_1_l. reflexivity.
      - apply Forall_forall. intros x Hx. apply repeat_spec in Hx. subst x. apply small_isize. unfold isize_max. lia. }
    rewrite X in F. cbn [bind] in F. destruct (rest_total R) as (ns & Y & N1 & N2). rewrite Y in F. cbn [bind] in F.
    apply bind_ok in F as (u & _ & F). injection F as <-. cbn [m_dims m_ty m_layout m_strides].
    split; [constructor; cbn; auto|]. auto.
Qed.

Lemma z_into_diag k d0 d1 : is_isize k -> v_dims v = [d0; d1] -> maps (x_into_diag false v k) (v_into_diag v k).
Proof.
  intros HK ED. unfold maps, x_into_diag, v_into_diag.
  assert (R : m_rank (v_map v) = 2%nat) by (unfold m_rank; fold (v_dims v); now rewrite ED). rewrite R. cbn [Nat.eqb assert bind].
  rewrite !m_dim_ok by lia. cbn [bind]. fold (v_dims v). rewrite ED in *. cbn [nth].
  assert (XS : forall i, (i < 2)%nat -> x_stride false (v_map v) i = Ok (as_isize (nth i (m_strides (v_map v)) 0))).
  { intros i Hi. rewrite <- z_wrap at 1. rewrite x_stride_wrap, m_stride_ok by (try lia; apply (wf_strides HW)). reflexivity. }
  rewrite !XS by lia. rewrite !m_stride_ok by (try lia; apply (wf_strides HW)). cbn [bind].
  set (s0 := nth 0 (m_strides (v_map v)) 0). set (s1 := nth 1 (m_strides (v_map v)) 0).
  inversion HN as [|? ? N0 N1]; subst. inversion N1; subst. inversion HD as [|? ? D0 D1]; subst. inversion D1; subst.
  unfold is_isize, isize_min, isize_max in HK. destruct (Z.geb_spec k 0) as [G|G].
  - rewrite as_usize_fit by (unfold is_usize, usize_max; lia). destruct (Z.leb_spec k d1) as [A|A]; [|reflexivity]. cbn [assert bind].
    rewrite i_res_false. cbn [bind]. rewrite u_res_false. cbn [bind]. rewrite as_usize_fit by (unfold is_usize; lia).
    rewrite i_res_false, wrap_add. reflexivity.
  - rewrite i_res_false. cbn [bind].
    assert (AU : as_usize (as_isize (- k)) = - k).
    { destruct (as_isize_cg (- k)) as [q E]. unfold as_usize. rewrite E, Z.mod_add by lia. apply Z.mod_small. lia. }
    rewrite AU. destruct (Z.leb_spec (- k) d0) as [A|A]; [|reflexivity]. cbn [assert bind].
    rewrite i_res_false. cbn [bind]. rewrite u_res_false. cbn [bind]. rewrite as_usize_fit by (unfold is_usize; lia).
    rewrite i_res_false, wrap_add. reflexivity.
Qed.
End Step.

Lemma infer_keeps req : forall i0 o inf ds, infer_loop i0 o req = Ok (inf, ds) ->
  (forall i, (i < length req)%nat -> nth i req 0 <> usize_max -> nth i ds 0 = nth i req 0) /\
  (forall k, inf = Some k -> o = Some k \/ (i0 <= k)%nat /\ nth (k - i0) req 0 = usize_max).
Proof.
  induction req as [|r req IH]; intros i0 o inf ds H; cbn [infer_loop] in H.
  - injection H as <- <-. split; [intros i Hi; cbn in Hi; lia|auto].
  - destruct (Z.eqb_spec r usize_max) as [E|E].
    + apply bind_ok in H as (u & _ & H). apply bind_ok in H as ([inf' ds'] & E' & H). injection H as <- <-.
      destruct (IH _ _ _ _ E') as [H1 H2]. split.
      * intros [|i] Hi N; cbn [nth] in *; [contradiction|]. apply H1; [cbn in Hi; lia|exact N].
      * intros k Hk. destruct (H2 k Hk) as [Q|[Q1 Q2]].
        -- injection Q as <-. right. split; [lia|]. now rewrite Nat.sub_diag.
        -- right. split; [lia|]. replace (k - i0)%nat with (S (k - S i0)) by lia. exact Q2.
    + apply bind_ok in H as ([inf' ds'] & E' & H). injection H as <- <-. destruct (IH _ _ _ _ E') as [H1 H2]. split.
      * intros [|i] Hi N; cbn [nth] in *; [reflexivity|]. apply H1; [cbn in Hi; lia|exact N].
      * intros k Hk. destruct (H2 k Hk) as [Q|[Q1 Q2]]; [now left|]. right. split; [lia|].
        replace (k - i0)%nat with (S (k - S i0)) by lia. exact Q2.
Qed.
Lemma reshape_keeps old ty req d : sh_reshape old ty req = Ok d ->
  forall i, (i < length req)%nat -> nth i req 0 <> usize_max -> nth i d 0 = nth i req 0.
Proof.
  intros H i Hi N. unfold sh_reshape in H. apply bind_ok in H as ([inf ds] & EI & H). destruct (infer_keeps EI) as [K1 K2].
  apply bind_ok in H as (d1 & ES & H). apply sh_store_ok_inv in ES as ->. destruct (sh_checked_len ds); [|discriminate].
  destruct inf as [k|].
  - apply bind_ok in H as (u & _ & H). apply bind_ok in H as (u2 & _ & H). apply sh_store_ok_inv in H as ->.
    destruct (K2 k eq_refl) as [Q|[_ Q]]; [discriminate|]. rewrite Nat.sub_0_r in Q. rewrite upd_nth_other by congruence. now apply K1.
  - apply bind_ok in H as (u & _ & H). injection H as <-. now apply K1.
Qed.
Lemma mat_same d0 d1 ty nd : 0 <= d0 <= usize_max -> 0 <= d1 <= usize_max -> d0 * d1 <= usize_max -> sh_reshape [d0; d1] ty [d0; d1] = Ok nd -> nd = [d0; d1].
Proof.
  intros H0 H1 HP H. unfold sh_reshape in H. cbn [infer_loop] in H.
  destruct (Z.eqb_spec d0 usize_max) as [E0|E0]; destruct (Z.eqb_spec d1 usize_max) as [E1|E1]; cbn [bind infer_loop assert Nat.eqb] in H; try discriminate.
  - apply bind_ok in H as (x & ES & H). apply sh_store_ok_inv in ES as ->.
    destruct (sh_checked_len [1; d1]) as [nl|] eqn:C; [|discriminate]. apply checked_len_inv in C as [-> _]. rewrite !prodZ_cons in H. change (prodZ []) with 1 in H.
    apply bind_ok in H as (u & A & H). apply assert_ok, negb_true_iff, Z.eqb_neq in A. apply bind_ok in H as (u2 & _ & H). apply sh_store_ok_inv in H as ->.
    rewrite sh_len_prod, !prodZ_cons. change (prodZ []) with 1. cbn [upd]. assert (d1 = 1) by (unfold usize_max in *; nia). subst d1.
    f_equal. rewrite !Z.mul_1_r, Z.div_1_r. reflexivity.
  - apply bind_ok in H as (x & ES & H). apply sh_store_ok_inv in ES as ->.
    destruct (sh_checked_len [d0; 1]) as [nl|] eqn:C; [|discriminate]. apply checked_len_inv in C as [-> _]. rewrite !prodZ_cons in H. change (prodZ []) with 1 in H.
    apply bind_ok in H as (u & A & H). apply assert_ok, negb_true_iff, Z.eqb_neq in A. apply bind_ok in H as (u2 & _ & H). apply sh_store_ok_inv in H as ->.
    rewrite sh_len_prod, !prodZ_cons. change (prodZ []) with 1. cbn [upd]. assert (d0 = 1) by (unfold usize_max in *; nia). subst d0.
    f_equal. f_equal. rewrite !Z.mul_1_r, !Z.mul_1_l, Z.div_1_r. reflexivity.
  - apply bind_ok in H as (x & ES & H). apply sh_store_ok_inv in ES as ->. destruct (sh_checked_len [d0; d1]); [|discriminate].
    apply bind_ok in H as (u & _ & H). injection H as <-. reflexivity.
Qed.

(** ** Every operation *)

Lemma z_from w v' : v_map v' = wrapm (v_map w) -> wf_map (v_map w) -> Forall (fun d => d <= usize_max) (v_dims w) -> prodZ (v_dims w) <= usize_max ->
  zst_view v' /\ v_dims v' = v_dims w.
Proof.
  intros E HW HD HP. assert (D : v_dims v' = v_dims w) by (unfold v_dims; now rewrite E, wrapm_dims). split; [|exact D].
  constructor; [rewrite E; now apply wrapm_wf|now rewrite D|now rewrite D|]. unfold v_layout. rewrite E, wrapm_layout. intros L.
  rewrite wrap_strides by exact L. apply Forall_forall. intros x Hx. apply in_map_iff in Hx as (y & <- & _). apply as_isize_range.
Qed.

Lemma z_matrix v v' (k : view -> outcome view) : zst_view v ->
  (let* shape := sh_from_dims (mat_ty (v_ty v)) (v_dims v) in let* r := x_v_reshape false v (mat_ty (v_ty v)) shape in k r) = Ok v' ->
  exists r d0 d1, v_dims v = [d0; d1] /\ zst_view r /\ v_dims r = [d0; d1] /\ k r = Ok v'.
Proof.
  intros HV H. pose proof (zv_wf HV) as HW. pose proof (wf_nonneg HW) as HN. fold (v_dims v) in HN. pose proof (zv_dims HV) as HD.
  rewrite sh_from_dims_spec in H. destruct (accepts (mat_ty (v_ty v)) (v_dims v)) eqn:EA; [|discriminate]. cbn [bind] in H.
  assert (L2 : length (v_dims v) = 2%nat).
  { destruct (Nat.eq_dec (length (v_dims v)) 2) as [L|L]; [exact L|]. apply accepts_typed in EA. pose proof (@MapOps.typed_length (mat_ty (v_ty v)) _ 2%nat EA eq_refl). lia. }
  apply bind_ok in H as (r & E & H).
  assert (US : Forall usize (v_dims v)).
  { apply Forall_forall. intros x Hx. split; [exact (proj1 (Forall_forall _ _) HN x Hx)|exact (proj1 (Forall_forall _ _) HD x Hx)]. }
  destruct (@z_reshape v HV (mat_ty (v_ty v)) (v_dims v) r US) as (W & R & T & S); [split; [cbn; lia|exact L2]|exact E|].
  destruct (v_dims v) as [|d0 [|d1 [|]]] eqn:EV; cbn [length] in L2; try lia.
  assert (U0 : 0 <= d0 <= usize_max) by (inversion US; assumption).
  assert (U1 : 0 <= d1 <= usize_max) by (inversion US as [|? ? ? X]; inversion X; assumption).
  pose proof (zv_len HV) as HP. rewrite EV, !prodZ_cons in HP. change (prodZ []) with 1 in HP.
  assert (RD : v_dims r = [d0; d1]) by (apply (@mat_same d0 d1 (mat_ty (v_ty v))); auto; lia).
  exists r, d0, d1. split; [reflexivity|]. split; [|auto]. constructor; auto; rewrite RD; [rewrite <- EV; exact (zv_dims HV)|].
  rewrite !prodZ_cons. change (prodZ []) with 1. lia.
Qed.

Lemma z_step_false v o v' : zst_view v -> op_machine v o -> x_step false v o = Ok v' ->
  zst_view v' /\ shape_after (v_dims v) o (v_dims v') /\ prodZ (v_dims v') <= prodZ (v_dims v).
Proof.
  intros HV [HA HM] H. pose proof (zv_wf HV) as HW. pose proof (wf_nonneg HW) as HN. fold (v_dims v) in HN.
  pose proof (zv_dims HV) as HD. pose proof (zv_len HV) as HP. pose proof (prodZ_nonneg HN) as HP0.
  destruct o as [a k|a k|a k|xs|p perm| |ty req| |l ty|k|k|k]; cbn [x_step op_arg shape_after] in *.
  - destruct (maps_ok (z_axis_at HV a k) H) as (w & E & F).
    destruct (ax_index_spec a (length (v_dims v))) as [(i & EI & IA)|[EI NA]].
    2:{ unfold v_axis_at in E. change (m_rank (v_map v)) with (length (v_dims v)) in E. rewrite EI in E. discriminate. }
    destruct (Z_lt_dec k (nth i (v_dims v) 0)) as [LK|GK].
    2:{ rewrite v_axis_at_panic in E; [discriminate|exact HW|apply HA|]. intros j HJ. rewrite (is_axis_unique HJ IA). lia. }
    destruct (@v_axis_at_ok v a i k HW IA (conj (proj1 HA) LK)) as (w' & E' & D & _ & _ & W & _). rewrite E in E'. injection E' as <-.
    pose proof (@prod_remove (v_dims v) i HN (proj1 IA)) as PR. assert (0 <= prodZ (remove_at i (v_dims v))) by (apply prodZ_nonneg, forall_remove, HN).
    destruct HA as [HA _].
    destruct (@z_from w v' F W) as [Z1 Z2]; [rewrite D; now apply forall_remove|rewrite D; nia|]. rewrite Z2, D. split; [exact Z1|]. split; [eauto 10|nia].
  - destruct (maps_ok (proj1 (z_split HV a k)) H) as (w & E & F). apply bind_ok in E as ([w1 w2] & E & G). injection G as ->.
    destruct (ax_index_spec a (length (v_dims v))) as [(i & EI & IA)|[EI NA]].
    2:{ unfold v_split_axis_at in E. change (m_rank (v_map v)) with (length (v_dims v)) in E. rewrite EI in E. discriminate. }
    destruct (Z_le_dec k (nth i (v_dims v) 0)) as [LK|GK].
    2:{ rewrite v_split_panic in E; [discriminate|exact HW|apply HA|]. intros j HJ. rewrite (is_axis_unique HJ IA). lia. }
    destruct (@v_split_ok v a i k HW IA (conj (proj1 HA) LK)) as (y1 & y2 & E' & D & _ & _ & _ & _ & _ & W & _). rewrite E in E'. injection E' as <- <-.
    pose proof (@prod_upd (v_dims v) i k HN (conj (proj1 HA) LK)) as PR.
    destruct (@z_from w v' F W) as [Z1 Z2]; [rewrite D; apply Forall_upd; auto; apply HA|rewrite D; lia|]. rewrite Z2, D. split; [exact Z1|]. split; [eauto 10|lia].
  - destruct (maps_ok (proj2 (z_split HV a k)) H) as (w & E & F). apply bind_ok in E as ([w1 w2] & E & G). injection G as ->.
    destruct (ax_index_spec a (length (v_dims v))) as [(i & EI & IA)|[EI NA]].
    2:{ unfold v_split_axis_at in E. change (m_rank (v_map v)) with (length (v_dims v)) in E. rewrite EI in E. discriminate. }
    destruct (Z_le_dec k (nth i (v_dims v) 0)) as [LK|GK].
    2:{ rewrite v_split_panic in E; [discriminate|exact HW|apply HA|]. intros j HJ. rewrite (is_axis_unique HJ IA). lia. }
    destruct (@v_split_ok v a i k HW IA (conj (proj1 HA) LK)) as (y1 & y2 & E' & _ & D & _ & _ & _ & _ & _ & W & _). rewrite E in E'. injection E' as <- <-.
    destruct HA as [HA _].
    pose proof (@prod_upd (v_dims v) i (nth i (v_dims v) 0 - k) HN ltac:(lia)) as PR.
    assert (ND : nth i (v_dims v) 0 <= usize_max) by (apply (Forall_nth (fun d => d <= usize_max)); [exact HD|apply IA]).
    destruct (@z_from w v' F W) as [Z1 Z2]; [rewrite D; apply Forall_upd; auto; lia|rewrite D; lia|]. rewrite Z2, D. split; [exact Z1|]. split; [eauto 10|lia].
  - destruct HA as [HA HL]. destruct (maps_ok (z_view_op HV HA HL) H) as (w & E & F).
    destruct (ix_ok_dec (v_dims v) xs) as [OK|NO]; [|rewrite v_view_panic in E by auto; discriminate].
    destruct (v_view_ok HW HA HD HL OK) as (w' & E' & D & _ & _ & W & _). rewrite E in E'. injection E' as <-.
    pose proof (sub_prod HN HA OK). destruct (@z_from w v' F W) as [Z1 Z2]; [rewrite D; now apply sub_dims_le|rewrite D; lia|]. rewrite Z2, D. split; [exact Z1|]. auto with zarith.
  - destruct HA as [HA HPM]. destruct (maps_ok (z_permute HV HM HA HPM) H) as (w & E & F).
    assert (HF : Forall (fun q => 0 <= q) perm) by (eapply Forall_impl; [|exact HA]; intros x [? _]; assumption).
    destruct (v_permute_inv HW HF HPM E) as [PO _].
    destruct (v_permute_ok HW HM HPM PO) as (w' & E' & D & _ & _ & W & _). rewrite E in E'. injection E' as <-.
    destruct (@z_from w v' F W) as [Z1 Z2]; [rewrite D; now apply perm_forall|rewrite D, perm_prod by exact PO; lia|]. rewrite Z2, D. split; [exact Z1|].
    split; [auto|]. rewrite perm_prod by exact PO. lia.
  - destruct (maps_ok (z_reorder HV) H) as (w & E & F). destruct (v_reorder_ok HW) as (w' & E' & D & _ & _ & W & _). rewrite E in E'. injection E' as <-.
    destruct (@z_from w v' F W) as [Z1 Z2]; [rewrite D; now apply Forall_rev|rewrite D, prodZ_rev; lia|]. rewrite Z2, D, prodZ_rev. split; [exact Z1|]. split; [reflexivity|lia].
  - destruct HA as [HA HT]. destruct (z_reshape HV HA HT H) as (W & R & T & S).
    assert (NR : nonneg req) by (eapply Forall_impl; [|exact HA]; intros x [? _]; assumption).
    destruct (@sh_reshape_sound _ ty _ _ HN NR (proj2 HT) R) as (L & N & TT & P).
    pose proof (@sh_reshape_dims_le _ ty _ _ (conj HP0 HP) HA R) as DL.
    split; [constructor; auto; lia|]. split; [|lia]. split; [exact TT|]. split; [exact L|]. split; [exact P|]. apply (reshape_keeps R).
  - unfold x_flatten in H. rewrite z_len in H by exact HV. cbn [bind] in H.
    assert (HA' : Forall usize [prodZ (v_dims v)]) by (repeat constructor; lia).
    destruct (@z_reshape v HV (STuple [DDyn]) [prodZ (v_dims v)] v' HA') as (W & R & T & S); [split; [cbn; lia|reflexivity]|exact H|].
    assert (NR : nonneg [prodZ (v_dims v)]) by (repeat constructor; lia).
    destruct (@sh_reshape_sound _ (STuple [DDyn]) _ _ HN NR eq_refl R) as (L & N & TT & P).
    pose proof (@sh_reshape_dims_le _ (STuple [DDyn]) _ _ (conj HP0 HP) HA' R) as DL.
    split; [constructor; auto; lia|]. split; [|lia]. destruct (v_dims v') as [|x [|]]; cbn [length] in L; try lia. rewrite prodZ_cons in P. change (prodZ []) with 1 in P. f_equal. lia.
  - destruct (z_remap HV HA H) as (W & D & T & S). split; [constructor; auto; now rewrite D|]. rewrite D. split; [reflexivity|lia].
  - destruct (z_matrix HV H) as (r & d0 & d1 & ED & ZR & RD & E).
    assert (AX : Forall ix_arg [IxFull; IxUsize k]) by (repeat constructor; apply HA).
    destruct (maps_ok (z_view_op ZR AX ltac:(now rewrite RD)) E) as (w & E' & F).
    destruct (ix_ok_dec (v_dims r) [IxFull; IxUsize k]) as [OK|NO].
    2:{ rewrite v_view_panic in E' by (auto; try apply ZR; now rewrite RD). discriminate. }
    destruct (@v_view_ok r _ (zv_wf ZR) AX (zv_dims ZR) ltac:(now rewrite RD) OK) as (w' & E2 & D & _ & _ & W & _). rewrite E' in E2. injection E2 as <-.
    rewrite RD in OK. inversion OK as [|? ? ? ? O1 O2]; subst. inversion O2 as [|? ? ? ? O3 O4]; subst. cbn [ix_ok] in O3.
    rewrite ED in *. inversion HN as [|? ? N0 N1]; subst. inversion N1 as [|? ? N2 N3]; subst. inversion HD as [|? ? D0 D1]; subst.
    assert (DW : v_dims w = [d0]).
    { rewrite D, RD. cbn [sub_dims ix_kept]. rewrite ix_positions_length by (cbn; auto). reflexivity. }
    rewrite !prodZ_cons in HP. change (prodZ []) with 1 in HP. destruct HA as [HA _].
    destruct (@z_from w v' F W) as [Z1 Z2]; [rewrite DW; auto|rewrite DW, prodZ_cons; change (prodZ []) with 1; nia|].
    rewrite Z2, DW. split; [exact Z1|]. split; [eauto 10|]. rewrite !prodZ_cons. change (prodZ []) with 1. nia.
  - destruct (z_matrix HV H) as (r & d0 & d1 & ED & ZR & RD & E).
    assert (AX : Forall ix_arg [IxUsize k; IxFull]) by (repeat constructor; apply HA).
    destruct (maps_ok (z_view_op ZR AX ltac:(now rewrite RD)) E) as (w & E' & F).
    destruct (ix_ok_dec (v_dims r) [IxUsize k; IxFull]) as [OK|NO].
    2:{ rewrite v_view_panic in E' by (auto; try apply ZR; now rewrite RD). discriminate. }
    destruct (@v_view_ok r _ (zv_wf ZR) AX (zv_dims ZR) ltac:(now rewrite RD) OK) as (w' & E2 & D & _ & _ & W & _). rewrite E' in E2. injection E2 as <-.
    rewrite RD in OK. inversion OK as [|? ? ? ? O1 O2]; subst. cbn [ix_ok] in O1.
    rewrite ED in *. inversion HN as [|? ? N0 N1]; subst. inversion N1 as [|? ? N2 N3]; subst. inversion HD as [|? ? D0 D1]; subst.
    assert (DW : v_dims w = [d1]).
    { rewrite D, RD. cbn [sub_dims ix_kept]. rewrite ix_positions_length by (cbn; auto). reflexivity. }
    rewrite !prodZ_cons in HP. change (prodZ []) with 1 in HP. destruct HA as [HA _].
    destruct (@z_from w v' F W) as [Z1 Z2]; [rewrite DW; auto|rewrite DW, prodZ_cons; change (prodZ []) with 1; nia|].
    rewrite Z2, DW. split; [exact Z1|]. split; [eauto 10|]. rewrite !prodZ_cons. change (prodZ []) with 1. nia.
  - destruct (z_matrix HV H) as (r & d0 & d1 & ED & ZR & RD & E).
    destruct (maps_ok (z_into_diag ZR HM RD) E) as (w & E' & F).
    destruct (@into_diag_spec r d0 d1 k (zv_wf ZR) RD) as [HO HNO].
    destruct (Z_le_dec (- d0) k) as [K0|K0]; [destruct (Z_le_dec k d1) as [K1|K1]|]; try (rewrite HNO in E' by lia; discriminate).
    destruct (HO (conj K0 K1)) as (w' & E2 & D & W & _). rewrite E' in E2. injection E2 as <-.
    rewrite ED in *. inversion HN as [|? ? N0 N1]; subst. inversion N1 as [|? ? N2 N3]; subst. inversion HD as [|? ? D0 D1]; subst. inversion D1; subst.
    rewrite !prodZ_cons in HP. change (prodZ []) with 1 in HP.
    assert (DW : v_dims w = [if k <? 0 then Z.min (d0 + k) d1 else Z.min d0 (d1 - k)]).
    { rewrite D. f_equal. destruct (Z.geb_spec k 0), (Z.ltb_spec k 0); lia. }
    assert (LE : 0 <= (if k <? 0 then Z.min (d0 + k) d1 else Z.min d0 (d1 - k)) <= d0 * d1) by (destruct (Z.ltb_spec k 0); nia).
    destruct (@z_from w v' F W) as [Z1 Z2]; [rewrite DW; constructor; auto; lia|rewrite DW, prodZ_cons; change (prodZ []) with 1; lia|].
    rewrite Z2, DW. split; [exact Z1|]. split; [eauto 10|]. rewrite !prodZ_cons. change (prodZ []) with 1. lia.
Qed.

Lemma z_step dbg v o v' : zst_view v -> op_machine v o -> x_step dbg v o = Ok v' ->
  zst_view v' /\ shape_after (v_dims v) o (v_dims v') /\ prodZ (v_dims v') <= prodZ (v_dims v).
Proof.
  intros HV HO H. destruct (le_step dbg v o) as [E|(w & E & F)]; [congruence|]. rewrite E in H. injection H as ->. exact (z_step_false HV HO F).
Qed.

Lemma z_run dbg os : forall v v', zst_view v -> run_machine dbg v os -> x_run dbg v os = Ok v' ->
  zst_view v' /\ shapes_after (v_dims v) os (v_dims v') /\ prodZ (v_dims v') <= prodZ (v_dims v).
Proof.
  induction os as [|o os IH]; intros v v' HV HR H; cbn [x_run shapes_after] in *.
  - injection H as <-. split; [exact HV|]. split; [reflexivity|lia].
  - apply bind_ok in H as (v1 & E & H). destruct HR as [HO HR]. destruct (z_step HV HO E) as (Z1 & S1 & L1).
    destruct (IH _ _ Z1 (HR _ E) H) as (Z2 & S2 & L2). split; [exact Z2|]. split; [eauto|lia].
Qed.

(** Requests that the code takes whenever there is a shape for the result. *)
Lemma z_accept v o d' : zst_view v -> op_machine v o -> shape_after (v_dims v) o d' ->
  match o with
  | OpAxisAt _ _ | OpSplitFst _ _ | OpSplitSnd _ _ | OpView _ | OpPermute _ _ | OpReorder => True
  | OpFlatten => v_layout v = Dense
  | _ => False
  end -> exists v', x_step false v o = Ok v' /\ v_dims v' = d'.
Proof.
  intros HV [HA HM] HS HO. pose proof (zv_wf HV) as HW. pose proof (wf_nonneg HW) as HN. fold (v_dims v) in HN.
  pose proof (zv_dims HV) as HD. pose proof (zv_len HV) as HP. pose proof (prodZ_nonneg HN) as HP0.
  destruct o as [a k|a k|a k|xs|p perm| |ty req| |l ty|k|k|k]; cbn [x_step op_arg shape_after] in *; try contradiction.
  - destruct HS as (i & IA & LK & ->). destruct (@v_axis_at_ok v a i k HW IA (conj (proj1 HA) LK)) as (w & E & D & _).
    destruct (maps_back (z_axis_at HV a k) E) as (v' & E' & F). exists v'. split; [exact E'|]. unfold v_dims in *. rewrite F, wrapm_dims. exact D.
  - destruct HS as (i & IA & LK & ->). destruct (@v_split_ok v a i k HW IA (conj (proj1 HA) LK)) as (w & w2 & E & D & _).
    destruct (@maps_back _ _ w (proj1 (z_split HV a k))) as (v' & E' & F); [now rewrite E|]. exists v'. split; [exact E'|]. unfold v_dims in *. rewrite F, wrapm_dims. exact D.
  - destruct HS as (i & IA & LK & ->). destruct (@v_split_ok v a i k HW IA (conj (proj1 HA) LK)) as (w2 & w & E & _ & D & _).
    destruct (@maps_back _ _ w (proj2 (z_split HV a k))) as (v' & E' & F); [now rewrite E|]. exists v'. split; [exact E'|]. unfold v_dims in *. rewrite F, wrapm_dims. exact D.
  - destruct HA as [HA HL]. destruct HS as [OK ->]. destruct (v_view_ok HW HA HD HL OK) as (w & E & D & _).
    destruct (maps_back (z_view_op HV HA HL) E) as (v' & E' & F). exists v'. split; [exact E'|]. unfold v_dims in *. rewrite F, wrapm_dims. exact D.
  - destruct HA as [HA HPM]. destruct HS as [PO ->]. destruct (v_permute_ok HW HM HPM PO) as (w & E & D & _).
    destruct (maps_back (z_permute HV HM HA HPM) E) as (v' & E' & F). exists v'. split; [exact E'|]. unfold v_dims in *. rewrite F, wrapm_dims. exact D.
  - subst d'. destruct (v_reorder_ok HW) as (w & E & D & _).
    destruct (maps_back (z_reorder HV) E) as (v' & E' & F). exists v'. split; [exact E'|]. unfold v_dims in *. rewrite F, wrapm_dims. exact D.
  - subst d'. unfold x_flatten. rewrite z_len by exact HV. cbn [bind]. unfold x_v_reshape, v_layout in *.
    assert (B : 0 <= prodZ (m_dims (v_map v)) <= usize_max) by (split; assumption).
    destruct (v_map v) as [t d|] eqn:EM; [|discriminate]. cbn [x_reshape m_dims] in *. rewrite x_sh_reshape_wrap by exact B.
    unfold v_dims. rewrite EM. cbn [m_dims].
    assert (R : sh_reshape d (STuple [DDyn]) [prodZ d] = Ok [prodZ d]).
    { unfold sh_reshape. cbn [infer_loop]. rewrite sh_len_prod. destruct (Z.eqb_spec (prodZ d) usize_max) as [E|E]; cbn [bind infer_loop assert Nat.eqb].
      - rewrite E. reflexivity.
      - replace (sh_store (STuple [DDyn]) [prodZ d]) with (Ok [prodZ d]) by reflexivity. cbn [bind]. rewrite checked_len_fits.
        + rewrite prodZ_cons. change (prodZ []) with 1. rewrite Z.mul_1_r, Z.eqb_refl. reflexivity.
        + intros [|[|j]]; cbn [firstn]; rewrite ?prodZ_cons; change (prodZ []) with 1; unfold usize_max in *; lia. }
    rewrite R. cbn [bind]. eexists. split; reflexivity.
Qed.
