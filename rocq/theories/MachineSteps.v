(** Machine arithmetic: every operation on views, with and without overflow checks. *)
From Verif Require Import Base Spec SpecFacts Shape Mapping Index View Wf MappingFacts MapOps ReshapeFacts IndexFacts ViewFacts ViewMore
  Machine MachineSpec MachineFacts MachineViews MachineReshape MachineRun MachineWrap MachineRelease PointerFacts.
Unset Strict Implicit.

(** ** With overflow checks an operation either panics or does what it does without *)

Definition le {A} (a b : outcome A) : Prop := a = Panic \/ exists x, a = Ok x /\ b = Ok x.
Lemma le_panic {A} (b : outcome A) : le Panic b. Proof. now left. Qed.
Lemma le_ok {A} (x : A) : le (Ok x) (Ok x). Proof. right. eauto. Qed.
Lemma le_fine {A} (a : outcome A) : fine a -> le a a.
Proof. destruct a; intros H; try destruct H; [apply le_ok|apply le_panic]. Qed.
Lemma le_bind {A B} (a b : outcome A) (f g : A -> outcome B) : le a b -> (forall x, le (f x) (g x)) -> le (bind a f) (bind b g).
Proof. intros [->|(x & -> & ->)] H; [apply le_panic|apply H]. Qed.
Section Checks.
Variable dbg : bool.
Lemma le_u x : le (u_res dbg x) (u_res false x).
Proof. unfold u_res. destruct (u_fits x), dbg; (apply le_ok || apply le_panic). Qed.
Lemma le_i x : le (i_res dbg x) (i_res false x).
Proof. unfold i_res. destruct (i_fits x), dbg; (apply le_ok || apply le_panic). Qed.
Lemma le_shl x n : le (u_shl dbg x n) (u_shl false x n).
Proof. unfold u_shl. destruct (n <? 64), dbg; (apply le_ok || apply le_panic). Qed.
Lemma le_assert b : le (assert b) (assert b).
Proof. apply le_fine, fine_assert. Qed.

#[local] Hint Resolve le_u le_i le_shl le_assert : le.
#[local] Hint Resolve fine_assert fine_get_nth fine_store fine_new fine_dims_new fine_m_dim fine_from_dims fine_ax_index fine_remove fine_resize
  fine_reorder fine_infer fine_ix_range fine_div_ceil fine_from_sizes : fine.
Ltac le_tac :=
  repeat first
    [ apply le_ok | apply le_panic | solve [eauto 2 with le] | solve [apply le_fine; eauto 2 with fine]
    | apply le_bind; [|intros] | progress cbv zeta
    | match goal with
      | |- le (match ?x with _ => _ end) (match ?x with _ => _ end) => destruct x
      end ].
Lemma le_prod dims : forall acc, le (x_prod dbg acc dims) (x_prod false acc dims).
Proof. induction dims as [|d dims IH]; intros acc; cbn [x_prod]; le_tac. Qed.
Lemma le_len dims : le (x_len dbg dims) (x_len false dims). Proof. apply le_prod. Qed.
#[local] Hint Resolve le_prod le_len : le.
Lemma le_is_empty dims : le (x_is_empty dbg dims) (x_is_empty false dims). Proof. unfold x_is_empty. le_tac. Qed.
Lemma le_sh_reshape o ty n : le (x_sh_reshape dbg o ty n) (x_sh_reshape false o ty n). Proof. unfold x_sh_reshape. le_tac. Qed.
Lemma le_stride m i : le (x_stride dbg m i) (x_stride false m i). Proof. unfold x_stride. le_tac. Qed.
Lemma le_dense_calls n dims : forall s, le (x_dense_calls dbg n dims s) (x_dense_calls false n dims s).
Proof. induction n as [|n IH]; intros s; cbn [x_dense_calls]; le_tac. Qed.
#[local] Hint Resolve le_is_empty le_sh_reshape le_stride le_dense_calls : le.
Lemma le_calls m : le (x_calls dbg m) (x_calls false m). Proof. unfold x_calls. le_tac. Qed.
Lemma le_contiguous_loop n dims strides : forall s, le (x_contiguous_loop dbg n dims strides s) (x_contiguous_loop false n dims strides s).
Proof. induction n as [|n IH]; intros s; cbn [x_contiguous_loop]; le_tac. Qed.
#[local] Hint Resolve le_calls le_contiguous_loop : le.
Lemma le_contiguous m : le (x_is_contiguous dbg m) (x_is_contiguous false m). Proof. unfold x_is_contiguous. le_tac. Qed.
#[local] Hint Resolve le_contiguous : le.
Lemma le_remap l ty m : le (x_remap dbg l ty m) (x_remap false l ty m). Proof. unfold x_remap. le_tac. Qed.
Lemma le_mask r perm : forall mask, le (x_mask_loop dbg r perm mask) (x_mask_loop false r perm mask).
Proof. induction perm as [|p perm IH]; intros mask; cbn [x_mask_loop]; le_tac. Qed.
#[local] Hint Resolve le_remap le_mask : le.
Lemma le_permute l ty m perm : le (x_permute dbg l ty m perm) (x_permute false l ty m perm). Proof. unfold x_permute. le_tac. Qed.
Lemma le_prepend l ty m n s : le (x_prepend_dim dbg l ty m n s) (x_prepend_dim false l ty m n s). Proof. unfold x_prepend_dim, sh_prepend_dim. le_tac. Qed.
Lemma le_remove l ty m i : le (x_remove_dim dbg l ty m i) (x_remove_dim false l ty m i). Proof. unfold x_remove_dim, sh_remove_dim. le_tac. Qed.
Lemma le_reorder l m : le (x_reorder dbg l m) (x_reorder false l m). Proof. unfold x_reorder, sh_reverse_dims. le_tac. Qed.
Lemma le_resize l ty m i n : le (x_resize_dim dbg l ty m i n) (x_resize_dim false l ty m i n). Proof. unfold x_resize_dim, sh_resize_dim. le_tac. Qed.
#[local] Hint Resolve le_permute le_prepend le_remove le_reorder le_resize : le.
Lemma le_inner nd j : forall ol nl nst ns, le (x_reshape_inner dbg j nd ol nl nst ns) (x_reshape_inner false j nd ol nl nst ns).
Proof. induction j as [|j IH]; intros; cbn [x_reshape_inner]; le_tac. Qed.
#[local] Hint Resolve le_inner : le.
Lemma le_rstep dims st nd i s : le (x_reshape_step dbg dims st nd i s) (x_reshape_step false dims st nd i s).
Proof. unfold x_reshape_step. le_tac. Qed.
#[local] Hint Resolve le_rstep : le.
Lemma le_rloop dims st nd n : forall s, le (x_reshape_loop dbg n dims st nd s) (x_reshape_loop false n dims st nd s).
Proof. induction n as [|n IH]; intros; cbn [x_reshape_loop]; le_tac. Qed.
Lemma le_rest nd j : forall nl nst ns, le (x_reshape_rest dbg j nd nl nst ns) (x_reshape_rest false j nd nl nst ns).
Proof. induction j as [|j IH]; intros; cbn [x_reshape_rest]; le_tac. Qed.
#[local] Hint Resolve le_rloop le_rest : le.
Lemma le_reshape m ty req : le (x_reshape dbg m ty req) (x_reshape false m ty req). Proof. unfold x_reshape. le_tac. Qed.
Lemma le_ax_remove a m : le (x_ax_remove dbg a m) (x_ax_remove false a m). Proof. unfold x_ax_remove. le_tac. Qed.
Lemma le_ax_resize a m n : le (x_ax_resize dbg a m n) (x_ax_resize false a m n). Proof. unfold x_ax_resize. le_tac. Qed.
Lemma le_view_index m xs : forall s, le (x_view_index dbg xs s m) (x_view_index false xs s m).
Proof. induction xs as [|x xs IH]; intros s; cbn [x_view_index]; le_tac. Qed.
#[local] Hint Resolve le_reshape le_ax_remove le_ax_resize le_view_index : le.
Lemma le_v_reshape v ty req : le (x_v_reshape dbg v ty req) (x_v_reshape false v ty req). Proof. unfold x_v_reshape. le_tac. Qed.
Lemma le_view v xs : le (x_view dbg v xs) (x_view false v xs). Proof. unfold x_view. le_tac. Qed.
Lemma le_split v a k : le (x_split_axis_at dbg v a k) (x_split_axis_at false v a k). Proof. unfold x_split_axis_at. le_tac. Qed.
Lemma le_into_diag v k : le (x_into_diag dbg v k) (x_into_diag false v k).
Proof. unfold x_into_diag, strided_new. le_tac. Qed.
#[local] Hint Resolve le_v_reshape le_view le_split le_into_diag : le.
Lemma le_step v o : le (x_step dbg v o) (x_step false v o).
Proof.
  destruct o; cbn [x_step]; unfold x_axis_at, x_v_permute, x_v_reorder, x_flatten, x_v_remap, x_col, x_row, x_diag; le_tac.
Qed.
Lemma le_run os : forall v, le (x_run dbg v os) (x_run false v os).
Proof. induction os as [|o os IH]; intros v; cbn [x_run]; [apply le_ok|]. apply le_bind; [apply le_step|apply IH]. Qed.
End Checks.

(** ** Strides of dimensions of size one chosen to suit [reshape] *)

Fixpoint suit (dims strides : list Z) : list Z :=
  match dims, strides with
  | d :: ds, s :: ss => (if d =? 1 then match ds with [] => s | d' :: _ => nth 0 (suit ds ss) 0 * d' end else s) :: suit ds ss
  | _, _ => []
  end.
Lemma suit_length dims : forall strides, length strides = length dims -> length (suit dims strides) = length dims.
Proof. induction dims as [|d dims IH]; intros [|s strides] H; try discriminate; [reflexivity|]. cbn [suit length]. rewrite IH; auto. Qed.
Lemma suit_one dims : forall strides i, length strides = length dims -> (S i < length dims)%nat -> nth i dims 0 = 1 ->
  nth i (suit dims strides) 0 = nth (S i) (suit dims strides) 0 * nth (S i) dims 0.
Proof.
  induction dims as [|d dims IH]; intros [|s strides] i HL HI HD; cbn [length] in *; try lia. destruct i as [|i].
  - cbn [nth] in HD. subst d. cbn [suit nth]. change (1 =? 1) with true. destruct dims as [|d' dims]; [cbn in HI; lia|]. reflexivity.
  - cbn [suit]. cbn [nth] in HD |- *. apply (IH strides i); lia.
Qed.
Lemma suit_dot dims idx : in_bounds dims idx -> forall strides, length strides = length dims -> dot (suit dims strides) idx = dot strides idx.
Proof.
  induction 1 as [|d i dims idx Hi HB IH]; intros [|s strides] HL; try discriminate; [reflexivity|]. injection HL as HL.
  cbn [suit dot]. rewrite IH by exact HL. destruct (Z.eqb_spec d 1) as [->|NE]; [|reflexivity]. replace i with 0 by lia. lia.
Qed.
Definition suited (v : view) : view :=
  match v_map v with DenseM _ _ => v | StridedM t d s => mkView (v_ptr v) (StridedM t d (suit d s)) end.
Lemma suited_wf v : wf_map (v_map v) -> wf_map (v_map (suited v)).
Proof.
  intros HW. destruct v as [p [t d|t d st]]; [exact HW|]. destruct HW as [W1 W2 W3 W4]. cbn in *. constructor; cbn; auto. now apply suit_length.
Qed.
Lemma suited_same v : wf_map (v_map v) -> same_view (suited v) v.
Proof.
  intros HW. pose proof (suited_wf HW) as HW'. destruct v as [p [t d|t d st]]; [apply same_refl|]. constructor; try reflexivity.
  intros idx HB. rewrite !v_addr_dot by (auto; now apply in_bounds_length). unfold suited. cbn [v_map v_ptr m_strides]. f_equal. apply suit_dot; [exact HB|].
  apply (wf_strides HW).
Qed.

Lemma no_elements v w : prodZ (v_dims v) = 0 -> nonneg (v_dims v) -> v_ptr v = v_ptr w -> v_ty v = v_ty w -> v_layout v = v_layout w -> v_dims v = v_dims w -> same_view v w.
Proof.
  intros HP HN E1 E2 E3 E4. constructor; auto. intros idx HB. pose proof (prodZ_pos (in_bounds_dims HB)). lia.
Qed.
Lemma empty_valid n v : prodZ (v_dims v) = 0 -> wf_map (v_map v) -> valid_view n v.
Proof.
  intros HP HW. assert (NB : forall idx, in_bounds (v_dims v) idx -> False) by (intros idx HB; pose proof (prodZ_pos (in_bounds_dims HB)); lia).
  constructor; [exact HW| |]; intros; exfalso; eauto.
Qed.
Lemma same_shows a b c f : same_view a b -> same_view c b -> forall d, shows a d f -> same_view d d -> shows c d f.
Proof.
  intros S1 S2 d HS _ idx HB. destruct (HS idx HB) as [H1 H2]. rewrite (sv_dims S1) in H1. split; [now rewrite (sv_dims S2)|].
  rewrite H2, (sv_addr S1) by now rewrite (sv_dims S1). symmetry. apply (sv_addr S2). now rewrite (sv_dims S2).
Qed.

(** ** What one operation does *)

(** The exact operation, applied to the same view, gives the same view. *)
Definition explained (n : Z) (v : view) (ex : view -> outcome view) (v' : view) : Prop :=
  machine_view n v' /\ exists u w, valid_view n u /\ same_view u v /\ ex u = Ok w /\ same_view v' w.
Definition good (n : Z) (v : view) (x : outcome view) (ex : view -> outcome view) : Prop :=
  x = Panic \/ exists v', x = Ok v' /\ explained n v ex v'.

Section Step.
Variables (n : Z) (v : view).
Hypotheses (HN : 0 <= n <= isize_max) (HM : machine_view n v).
Let HV : valid_view n v. Proof. exact (mv_valid HM). Qed.
Let HW : wf_map (v_map v). Proof. exact (vv_wf HV). Qed.
Let HD : Forall (fun d => d <= usize_max) (v_dims v). Proof. exact (mv_dims HM). Qed.
Let HB : 0 <= prodZ (v_dims v) <= usize_max. Proof. exact (valid_prod HN HV). Qed.
Let HU : 0 <= n <= usize_max. Proof. unfold isize_max, usize_max in *. lia. Qed.
Let HI : wrapv v = v. Proof. exact (machine_wrap HM). Qed.

Lemma exact_good o : op_arg v o -> x_step false v o = omap wrapv (v_step v o) -> good n v (x_step false v o) (fun u => v_step u o).
Proof.
  intros HA E. rewrite E. pose proof (fine_step v o) as F. destruct (v_step v o) as [w| | |] eqn:EO; try destruct F; [|now left].
  right. exists (wrapv w). split; [reflexivity|]. destruct (step_valid HU HV HD HA EO) as (V & D & f & S). split.
  - apply wrap_machine; auto. lia.
  - exists v, w. split; [exact HV|]. split; [apply same_refl|]. split; [exact EO|]. apply (@wrap_same n); auto. lia.
Qed.

Lemma reshape_good ty req : Forall usize req -> ty_of_len ty (length req) ->
  good n v (x_v_reshape false v ty req) (fun u => v_reshape u ty req).
Proof.
  intros HR [HT HL]. assert (NR : nonneg req) by (eapply Forall_impl; [|exact HR]; intros a [? _]; assumption).
  destruct (m_layout (v_map v)) eqn:EL.
  { (* dense *)
    apply (@exact_good (OpReshape ty req)); [split; [exact HR|now split]|]. cbn [x_step v_step]. unfold x_v_reshape, v_reshape.
    destruct v as [p [t d|t d st]]; [|discriminate]. cbn [v_map v_ptr] in *. unfold x_reshape, m_reshape. rewrite x_sh_reshape_wrap by exact HB.
    destruct (sh_reshape d ty req); reflexivity. }
  unfold x_v_reshape. destruct (le_reshape false (v_map v) ty req) as [->|(m' & E & _)]; [now left|]. rewrite E. cbn [bind]. right.
  exists (mkView (v_ptr v) m'). split; [reflexivity|].
  assert (IM : wrapm (v_map v) = v_map v) by (pose proof HI as Q; apply (f_equal v_map) in Q; exact Q).
  destruct (Z.eq_dec (prodZ (v_dims v)) 0) as [Z0|NZ].
  - (* no elements *)
    pose proof E as E'. destruct (v_map v) as [t d|t d st] eqn:EV; [discriminate|]. unfold v_dims in *. rewrite EV in *. cbn [m_dims] in *.
    assert (SH : exists nd, sh_reshape d ty req = Ok nd).
    { cbn [x_reshape] in E'. rewrite x_sh_reshape_wrap in E' by exact HB. apply bind_ok in E' as (nd & X & _). eauto. }
    destruct SH as [nd SH]. destruct (@sh_reshape_sound _ _ _ _ (wf_nonneg HW) NR HL SH) as (L & N & T & P). cbn [m_dims] in P.
    assert (DN : dims_new ty (length nd) = Ok (repeat 0 (length nd))) by (apply (@dims_new_spec ty nd); [now apply accepts_typed|reflexivity]).
    assert (IS : Forall is_isize st). { pose proof (mv_strides HM) as Q. unfold v_layout in Q. rewrite EV in Q. now apply Q. }
    destruct (@x_reshape_empty t d st ty req nd IS (wf_strides HW) Z0 ltac:(lia) SH DN) as (ns & X & N1 & N2).
    rewrite E in X. injection X as ->.
    assert (W' : wf_map (StridedM ty nd ns)) by (constructor; cbn; auto).
    destruct (@m_reshape_empty (StridedM t d st) ty req nd ltac:(lia) SH T) as [m2 E2].
    destruct (@m_reshape_sound _ _ _ _ HW NR HT HL E2) as (S1 & S2 & S3 & S4 & S5 & _). cbn [m_dims m_layout] in *. rewrite SH in S1. injection S1 as S1.
    split.
    + constructor; [apply empty_valid; [unfold v_dims; cbn [v_map m_dims]; lia|exact W']| |intros _; exact N1]. cbn. apply (@sh_reshape_dims_le d ty req); auto.
    + exists v, (mkView (v_ptr v) m2). split; [exact HV|]. split; [apply same_refl|]. split; [unfold v_reshape; now rewrite EV, E2|].
      apply no_elements; unfold v_dims, v_ty, v_layout; cbn [v_map v_ptr m_dims m_ty m_layout]; auto; lia.
  - (* the strides lifted *)
    assert (HP : 0 < prodZ (m_dims (v_map v))) by (unfold v_dims in *; lia).
    destruct (@x_reshape_lift (v_map v) ty req HW NR HL (proj2 HB) m' HP IM E) as (m2 & m2' & W2 & EQ2 & R2 & ->).
    set (v2 := mkView (v_ptr v) m2). set (v2' := mkView (v_ptr v) m2').
    assert (RV : v_reshape v2 ty req = Ok v2') by (unfold v_reshape, v2; cbn [v_map v_ptr]; now rewrite R2).
    destruct (@v_reshape_sound v2 ty req v2' W2 NR HT HL RV) as (S1 & S2 & S3 & S4 & S5 & S6).
    assert (WV : wrapv v2 = v) by (unfold wrapv, v2; cbn [v_map v_ptr]; rewrite EQ2; now destruct v).
    assert (ED : v_dims v2 = v_dims v) by (rewrite <- WV; symmetry; apply wrapv_dims).
    set (w' := mkView (v_ptr v) (wrapm m2')). change w' with (wrapv v2').
    assert (D2 : v_dims (wrapv v2') = v_dims v2') by apply wrapv_dims.
    assert (PN : prodZ (v_dims v2') = prodZ (v_dims v)) by (rewrite S5, ED; reflexivity).
    set (f := fun idx => unflat (v_dims v) (flat (v_dims v2') idx)).
    assert (FB : forall idx, in_bounds (v_dims v2') idx -> in_bounds (v_dims v) (f idx)).
    { intros idx B. unfold f. apply unflat_in_bounds; [apply HW|]. rewrite <- PN. now apply flat_bounds. }
    assert (CG : forall idx, in_bounds (v_dims (wrapv v2')) idx ->
               0 <= v_addr v (f idx) < n /\ as_isize (v_addr (wrapv v2') idx) = as_isize (v_addr v (f idx))).
    { intros idx B. rewrite D2 in B. split; [apply HV; now apply FB|]. rewrite addr_cong by (auto; now apply in_bounds_length).
      destruct (S6 idx B) as [B2 ->]. rewrite ED in *. fold (f idx). transitivity (as_isize (v_addr (wrapv v2) (f idx))); [|now rewrite WV].
      symmetry. apply addr_cong; [exact W2|]. rewrite ED. now apply in_bounds_length, FB. }
    assert (PP : positive (v_dims v)) by (apply prodZ_pos_inv; [apply HW|exact HP]).
    assert (LS : m_layout (wrapm m2') = Strided).
    { rewrite wrapm_layout. unfold v_layout, v2', v2 in S3. cbn [v_map] in S3. rewrite S3, <- EL, <- EQ2. symmetry. apply wrapm_layout. }
    assert (IS : Forall is_isize (m_strides (wrapm m2'))).
    { rewrite wrap_strides by (now rewrite wrapm_layout in LS). apply Forall_forall. intros x Hx. apply in_map_iff in Hx as (y & <- & _). apply as_isize_range. }
    assert (EX : forall idx, in_bounds (v_dims (wrapv v2')) idx -> v_addr (wrapv v2') idx = v_addr v (f idx)).
    { apply (@cong_exact n); [lia|now apply wrapm_wf|exact IS|exact (ptr_range HV PP)|exact CG]. }
    assert (VV : valid_view n (wrapv v2')).
    { constructor; [now apply wrapm_wf| |].
      - intros idx B. rewrite EX by exact B. apply HV, FB. now rewrite <- D2.
      - intros i j Bi Bj. rewrite !EX by assumption. intros Q. rewrite D2 in Bi, Bj. apply HV in Q; [|now apply FB|now apply FB].
        unfold f in Q. now apply (@reshape_f_inj v v2' i j (wf_nonneg HW) PN). }
    assert (DL : Forall (fun d => d <= usize_max) (v_dims v2')).
    { apply (@sh_reshape_dims_le (v_dims v) ty req); auto. now rewrite <- ED. }
    split; [constructor; [exact VV|now rewrite D2|intros _; exact IS]|].
    (* strides for which the exact operation accepts *)
    pose proof (suited_same HW) as SU. pose proof (suited_wf HW) as WU. set (u := suited v) in *.
    assert (VU : valid_view n u) by (apply (same_valid SU); auto).
    assert (DU : v_dims u = v_dims v) by apply SU.
    assert (TN : typed ty (v_dims v2')) by (destruct S4 as [_ S4 _ _]; unfold v_ty in S2; now rewrite S2 in S4).
    assert (LO : forall k, 0 <= k < prodZ (v_dims v) -> m_linear_offset (wrapm m2') k = m_linear_offset (v_map u) k).
    { intros k Hk.
      assert (B1 : in_bounds (v_dims v2') (unflat (v_dims v2') k)) by (apply unflat_in_bounds; [apply S4|lia]).
      assert (E1 : m_linear_offset (wrapm m2') k = m_offset (wrapm m2') (unflat (v_dims v2') k)).
      { rewrite m_linear_offset_spec; [now rewrite wrapm_dims|now apply wrapm_wf|]. rewrite wrapm_len. unfold m_len. rewrite sh_len_prod. change (m_dims m2') with (v_dims v2'). rewrite PN. exact Hk. }
      assert (E2 : m_linear_offset (v_map u) k = m_offset (v_map u) (unflat (v_dims v) k)).
      { rewrite m_linear_offset_spec; [now rewrite <- DU|exact WU|]. unfold m_len. rewrite sh_len_prod. fold (v_dims u). rewrite DU. exact Hk. }
      pose proof (EX _ ltac:(rewrite D2; exact B1)) as E3. unfold f in E3. rewrite flat_unflat in E3 by (try apply S4; lia).
      rewrite <- (sv_addr SU) in E3 by (rewrite DU; apply unflat_in_bounds; [apply HW|exact Hk]).
      unfold v_addr in E3. rewrite (sv_ptr SU) in E3. cbn [wrapv v_ptr v_map v2'] in E3. lia. }
    assert (SH : sh_reshape (v_dims u) ty req = Ok (v_dims v2')) by (rewrite DU, <- ED; exact S1).
    assert (AC : exists m3, m_reshape (v_map u) ty req = Ok m3).
    { apply (@m_reshape_exact (v_map u) ty req (v_dims v2') WU); auto.
      - fold (v_dims u). rewrite DU. exact HP.
      - apply S4.
      - fold (v_dims u). rewrite DU. exact PN.
      - split.
        + exists (wrapm m2'). split; [now apply wrapm_wf|]. split; [exact D2|]. intros k Hk. apply LO. unfold m_len in Hk. rewrite sh_len_prod in Hk.
          fold (v_dims u) in Hk. now rewrite DU in Hk.
        + intros i Hi H1. right. unfold u, suited in *. destruct (v_map v) as [t d|t d st] eqn:EV; [discriminate|]. cbn [v_map m_dims m_strides] in *.
          apply suit_one; auto. apply (wf_strides HW). }
    destruct AC as [m3 AC]. set (w := mkView (v_ptr u) m3).
    assert (RW : v_reshape u ty req = Ok w) by (unfold v_reshape; now rewrite AC).
    exists u, w. split; [exact VU|]. split; [exact SU|]. split; [exact RW|].
    destruct (@v_reshape_sound u ty req w WU NR HT HL RW) as (Q1 & Q2 & Q3 & Q4 & Q5 & Q6).
    assert (DW : v_dims w = v_dims v2') by congruence.
    constructor.
    + cbn [wrapv v_ptr v2' w]. symmetry. apply SU.
    + rewrite Q2. rewrite <- S2. unfold v_ty, wrapv. cbn [v_map]. apply wrapm_ty.
    + rewrite Q3, (sv_layout SU). unfold v_layout at 2. rewrite EL. exact LS.
    + rewrite D2. now symmetry.
    + intros idx B. rewrite EX by exact B. rewrite D2 in B. destruct (Q6 idx) as [B3 ->]; [now rewrite DW|].
      rewrite DU, DW in *. symmetry. apply SU. rewrite DU. exact B3.
Qed.
End Step.

(** ** Columns, rows and diagonals *)

Lemma in_le_prod l x : positive l -> In x l -> x <= prodZ l.
Proof.
  induction 1 as [|d l P1 P2 IH]; intros HI; [destruct HI|]. rewrite prodZ_cons. pose proof (prodZ_pos P2).
  destruct HI as [->|HI]; [nia|]. pose proof (IH HI). nia.
Qed.

Section Matrix.
Variables (n : Z) (v : view).
Hypotheses (HN : 0 <= n <= isize_max) (HV : valid_view n v) (HD : Forall (fun d => d <= usize_max) (v_dims v)).
Let HW : wf_map (v_map v). Proof. exact (vv_wf HV). Qed.
Let HB : 0 <= prodZ (v_dims v) <= usize_max. Proof. exact (valid_prod HN HV). Qed.
Let HU : 0 <= n <= usize_max. Proof. unfold isize_max, usize_max in *. lia. Qed.

Lemma suffix2 dims : nonneg dims -> length dims = 2%nat -> Forall (fun d => d <= usize_max) dims -> prodZ dims <= usize_max -> fits_suffix dims.
Proof.
  intros N L D P. destruct dims as [|a [|b [|c dims]]]; try discriminate. inversion D as [|? ? D1 D']. inversion D' as [|? ? D2 _].
  inversion N as [|? ? N1 N']. inversion N' as [|? ? N2 _]. subst. rewrite !prodZ_cons in P. change (prodZ []) with 1 in P. apply two_suffix; [lia|]. nia.
Qed.

Lemma mat_wrap : length (v_dims v) = 2%nat -> typed (mat_ty (v_ty v)) (v_dims v) ->
  x_v_reshape false (wrapv v) (mat_ty (v_ty v)) (v_dims v) = omap wrapv (v_reshape v (mat_ty (v_ty v)) (v_dims v)).
Proof.
  intros HL HT. unfold x_v_reshape, v_reshape. cbn [wrapv v_map v_ptr]. set (ty := mat_ty (v_ty v)) in *.
  assert (NR : nonneg (v_dims v)) by apply HW.
  assert (US : Forall usize (v_dims v)).
  { clear - NR HD. induction (v_dims v) as [|d l IH]; [constructor|]. inversion NR. inversion HD. subst. constructor; [split; assumption|auto]. }
  assert (RK : match sh_rank ty with Some k => length (v_dims v) = k | None => True end) by exact HL.
  assert (TW : ty_wf ty) by (cbn; lia).
  pose proof (fine_reshape (v_map v) ty (v_dims v)) as F. destruct (m_reshape (v_map v) ty (v_dims v)) as [m'| | |] eqn:E; try destruct F.
  - cbn [bind omap]. destruct (@m_reshape_sound _ _ _ _ HW NR TW RK E) as (S1 & S2 & S3 & S4 & S5 & _).
    unfold m_len in S5. rewrite !sh_len_prod in S5.
    rewrite (@x_reshape_follow _ ty (v_dims v) HW (proj2 HB) m' E); [reflexivity| |].
    + now apply suffix2.
    + apply suffix2; [apply S4| |apply (@sh_reshape_dims_le (v_dims v) ty (v_dims v)); auto|].
      * rewrite (sh_reshape_len S1). exact HL.
      * rewrite S5. apply HB.
  - cbn [bind omap]. destruct (sh_reshape (v_dims v) ty (v_dims v)) as [nd| | |] eqn:ES; try (pose proof (fine_sh_reshape (v_dims v) ty (v_dims v)) as F2; now rewrite ES in F2).
    + exfalso. destruct (@sh_reshape_sound (v_dims v) ty (v_dims v) nd NR NR RK ES) as (L & N & T & P). destruct (Z.eq_dec (prodZ (v_dims v)) 0) as [Z0|NZ].
      * destruct (@m_reshape_empty (v_map v) ty (v_dims v) nd ltac:(lia) ES T) as [m' Q]. rewrite E in Q. discriminate.
      * pose proof (valid_len (proj1 HN) HV) as VL.
        assert (PP : positive (v_dims v)) by (apply prodZ_pos_inv; [exact NR|lia]).
        destruct (@m_reshape_same (v_map v) ty HW HT) as (m' & Q & _); [| |fold (v_dims v) in Q; rewrite E in Q; discriminate]; fold (v_dims v).
        -- destruct (v_dims v) as [|a [|b [|c l]]]; try discriminate. rewrite !prodZ_cons in *. change (prodZ []) with 1 in *. inversion US as [|? ? U1 _].
           apply fits2; [exact U1|]. unfold isize_max, usize_max in *. lia.
        -- intros HI. pose proof (in_le_prod PP HI). unfold isize_max, usize_max in *. lia.
    + assert (X : x_sh_reshape false (v_dims v) ty (v_dims v) = Panic) by (rewrite x_sh_reshape_wrap by exact HB; exact ES).
      unfold v_dims in *. destruct (v_map v) as [t d|t d st]; cbn [wrapm x_reshape m_dims] in *; rewrite X; reflexivity.
Qed.

Lemma with_matrix (f : view -> outcome view) (g : view -> outcome view) :
  (forall r, valid_view n r -> Forall (fun d => d <= usize_max) (v_dims r) -> length (v_dims r) = 2%nat -> f (wrapv r) = omap wrapv (g r)) ->
  (let* shape := sh_from_dims (mat_ty (v_ty v)) (v_dims v) in let* r := x_v_reshape false (wrapv v) (mat_ty (v_ty v)) shape in f r)
  = omap wrapv (let* shape := sh_from_dims (mat_ty (v_ty v)) (v_dims v) in let* r := v_reshape v (mat_ty (v_ty v)) shape in g r).
Proof.
  intros HF. rewrite sh_from_dims_spec. destruct (accepts (mat_ty (v_ty v)) (v_dims v)) eqn:EA; [|reflexivity]. cbn [bind].
  apply accepts_typed in EA. assert (HL : length (v_dims v) = 2%nat).
  { destruct (Nat.eq_dec (length (v_dims v)) 2) as [L|L]; [exact L|]. exfalso. apply (@mat_untyped (v_ty v) _ L EA). }
  rewrite mat_wrap by assumption.
  pose proof (fine_v_reshape v (mat_ty (v_ty v)) (v_dims v)) as F. destruct (v_reshape v (mat_ty (v_ty v)) (v_dims v)) as [r| | |] eqn:E; try destruct F; [|reflexivity].
  unfold omap at 1. cbn [bind].
  assert (US : Forall usize (v_dims v)).
  { assert (NR : nonneg (v_dims v)) by apply HW. clear - NR HD. induction (v_dims v) as [|d l IH]; [constructor|]. inversion NR. inversion HD. subst. constructor; [split; assumption|auto]. }
  assert (HA : op_arg v (OpReshape (mat_ty (v_ty v)) (v_dims v))) by (split; [exact US|split; [cbn; lia|exact HL]]).
  destruct (@step_valid n v (OpReshape (mat_ty (v_ty v)) (v_dims v)) r HU HV HD HA E) as (V & D & _). apply HF; auto.
  unfold v_reshape in E. apply bind_ok in E as (m' & E & Q). injection Q as <-.
  destruct (@m_reshape_sound (v_map v) (mat_ty (v_ty v)) (v_dims v) m' HW) as (S1 & _); [apply HW|cbn; lia|exact HL|exact E|].
  pose proof (sh_reshape_len S1) as Q. cbn. unfold v_dims in *. cbn [v_map]. lia.
Qed.

Lemma wrapv_ty : v_ty (wrapv v) = v_ty v. Proof. apply wrapm_ty. Qed.
Lemma x_col_wrap i : usize i -> x_col false (wrapv v) i = omap wrapv (v_col v i).
Proof.
  intros HI. unfold x_col. rewrite wrapv_dims, wrapv_ty.
  refine (@with_matrix (fun r => x_view false r _) (fun r => v_view r _) _). intros r VR DR LR. apply (@x_view_wrap n); auto.
  constructor; [exact I|]. constructor; [exact HI|constructor].
Qed.
Lemma x_row_wrap i : usize i -> x_row false (wrapv v) i = omap wrapv (v_row v i).
Proof.
  intros HI. unfold x_row. rewrite wrapv_dims, wrapv_ty.
  refine (@with_matrix (fun r => x_view false r _) (fun r => v_view r _) _). intros r VR DR LR. apply (@x_view_wrap n); auto.
  constructor; [exact HI|]. constructor; [exact I|constructor].
Qed.
Lemma x_diag_wrap k : is_isize k -> x_diag false (wrapv v) k = omap wrapv (v_diag v k).
Proof.
  intros HI. unfold x_diag. rewrite wrapv_dims, wrapv_ty.
  refine (@with_matrix (fun r => x_into_diag false r _) (fun r => v_into_diag r _) _). intros r VR DR LR. now apply (@x_into_diag_wrap n).
Qed.
End Matrix.

(** ** Any operation *)

(** Except when reshaping and when turning a strided view into a dense one, the machine operation is the
    exact operation with the strides wrapped. *)
Lemma x_step_wrap n v o : 0 <= n <= isize_max -> valid_view n v -> Forall (fun d => d <= usize_max) (v_dims v) -> op_machine v o ->
  match o with OpReshape _ _ | OpFlatten => False | OpRemap l _ => l = Strided \/ v_layout v = Dense | _ => True end ->
  x_step false (wrapv v) o = omap wrapv (v_step v o).
Proof.
  intros HN HV HD [HA HM] HO. destruct o; cbn [x_step v_step op_arg] in *; try destruct HO.
  - now apply (@x_axis_at_wrap n).
  - rewrite (@x_split_wrap n) by assumption. destruct (v_split_axis_at v a mid) as [[a1 a2]| | |]; reflexivity.
  - rewrite (@x_split_wrap n) by assumption. destruct (v_split_axis_at v a mid) as [[a1 a2]| | |]; reflexivity.
  - destruct HA. now apply (@x_view_wrap n).
  - destruct HA. now apply x_v_permute_wrap.
  - apply x_v_reorder_wrap.
  - apply (@x_v_remap_wrap n v); auto.
  - apply (@x_v_remap_wrap n v); auto.
  - now apply (@x_col_wrap n).
  - now apply (@x_row_wrap n).
  - now apply (@x_diag_wrap n).
Qed.

Lemma reshape_faithful n v ty req w : 0 <= n <= isize_max -> valid_view n v -> Forall usize req -> ty_of_len ty (length req) ->
  0 < prodZ (v_dims v) -> v_reshape v ty req = Ok w -> x_v_reshape false (wrapv v) ty req = Ok (wrapv w).
Proof.
  intros HN HV HR [HT HL] HP E. unfold v_reshape in E. apply bind_ok in E as (m' & E & Q). injection Q as <-.
  assert (NR : nonneg req) by (eapply Forall_impl; [|exact HR]; intros a [? _]; assumption).
  unfold x_v_reshape. cbn [wrapv v_map v_ptr]. rewrite (@x_reshape_wrap (v_map v) ty req (vv_wf HV) NR HL (proj2 (valid_prod HN HV)) m' HP E). reflexivity.
Qed.

(** What the exact operation accepts is accepted, with the same result modulo [2 ^ 64]. *)
Lemma x_step_faithful n v o w : 0 <= n <= isize_max -> valid_view n v -> Forall (fun d => d <= usize_max) (v_dims v) -> op_machine v o ->
  0 < prodZ (v_dims v) -> v_step v o = Ok w -> x_step false (wrapv v) o = Ok (wrapv w).
Proof.
  intros HN HV HD HO HP E.
  assert (G : match o with OpReshape _ _ | OpFlatten => False | OpRemap l _ => l = Strided \/ v_layout v = Dense | _ => True end ->
              x_step false (wrapv v) o = Ok (wrapv w)).
  { intros HX. rewrite (@x_step_wrap n v o) by assumption. now rewrite E. }
  destruct o; try exact (G I).
  - destruct HO as [[HR HT] _]. cbn [x_step v_step] in *. now apply (@reshape_faithful n).
  - cbn [x_step v_step] in *. unfold x_flatten, v_flatten in *. rewrite wrapv_dims, x_len_wrap. cbn [bind].
    pose proof (valid_prod HN HV) as B. rewrite as_usize_fit by exact B. unfold m_len in E. rewrite sh_len_prod in E.
    assert (UP : Forall usize [prodZ (v_dims v)]) by (constructor; [exact B|constructor]).
    assert (TL : ty_of_len (STuple [DDyn]) (length [prodZ (v_dims v)])) by (split; [cbn; lia|reflexivity]).
    now apply (@reshape_faithful n).
  - cbn [x_step v_step] in *. unfold x_v_remap, v_remap in *. apply bind_ok in E as (m' & E & Q). injection Q as <-.
    cbn [wrapv v_map v_ptr]. rewrite (@x_remap_wrap l ty (v_map v) m' E). reflexivity.
Qed.

(** ** Reshaping a view with elements *)

(** Below the top of a block of dimensions the strides are proportional, whatever the sizes. *)
Lemma m_reshape_needs t d st ty req m' : wf_map (StridedM t d st) -> 0 < prodZ d -> nonneg req -> ty_wf ty ->
  match sh_rank ty with Some k => length req = k | None => True end -> m_reshape (StridedM t d st) ty req = Ok m' ->
  forall i, (S i < length d)%nat -> one_ok d st (m_dims m') i.
Proof.
  intros HW HP NR HT HL H i Hi. cbn [m_reshape] in H. apply bind_ok in H as (nd & E & H).
  destruct (@sh_reshape_sound _ _ _ _ (wf_nonneg HW) NR HL E) as (L & N & T & P). cbn [m_dims] in P.
  apply bind_ok in H as (ns & ED & H). apply dims_new_ok_inv in ED. subst ns.
  assert (PD : positive d) by (apply prodZ_pos_inv; [apply HW|exact HP]).
  assert (PN : positive nd) by (apply prodZ_pos_inv; [exact N|lia]).
  set (s0 := {| rs_old_len := 1; rs_new_len := 1; rs_old_stride := 1; rs_new_stride := 1;
                rs_valid := true; rs_j := length nd; rs_strides := repeat 0 (length nd) |}) in *.
  set (s := reshape_loop (length d) d st nd s0) in *.
  destruct (reshape_rest (rs_j s) nd (rs_new_len s) (rs_new_stride s) (rs_strides s)) as [nl ns2] eqn:RR.
  assert (SI : sinv nd s).
  { apply reshape_loop_sinv. unfold sinv. simpl. rewrite skipn_all. split; [lia|]. split; [|reflexivity]. apply repeat_length. }
  destruct SI as (SI1 & SI2 & SI3). apply reshape_rest_len in RR as [_ RP]; auto. rewrite RP in H by auto.
  destruct (Z.eqb_spec (prodZ nd) 0) as [Z0|_]; [lia|]. destruct (rs_valid s) eqn:V; [|discriminate H]. cbn [orb] in H.
  rewrite assert_true in H by reflexivity. cbn [bind] in H. injection H as <-. cbn [m_dims].
  apply (@loop_needs d st nd (length d) s0 PD PN (wf_strides HW) P); auto.
  - unfold cont. intros; lia.
  - apply rinv_init; auto; [exact (wf_strides HW)|apply repeat_length].
  - lia.
Qed.

(** Above a dimension of size one there is the end of a block or a larger dimension with the same stride. *)
Lemma above_one d p nd : (forall i, (S i < length d)%nat -> one_ok d p nd i) -> prodZ nd = prodZ d ->
  forall i, (S i < length d)%nat -> positive d -> nth i d 0 = 1 ->
  (exists j, (j <= length nd)%nat /\ prodZ (skipn j nd) = prodZ (skipn (S i) d)) \/
  exists k, (k < i)%nat /\ 1 < nth k d 0 /\ nth k p 0 = nth i p 0.
Proof.
  intros H1 HP i. induction i as [|i IH]; intros HI PD HO.
  - left. exists 0%nat. split; [lia|]. change (skipn 0 nd) with nd. rewrite HP. transitivity (prodZ (skipn 0 d)); [reflexivity|]. rewrite (@suffix_step 0 d) by lia. rewrite HO. ring.
  - assert (SS : prodZ (skipn (S i) d) = prodZ (skipn (S (S i)) d)) by (rewrite (@suffix_step (S i) d) by lia; rewrite HO; ring).
    destruct (H1 i ltac:(lia)) as [(j & J1 & J2)|E]; [left; exists j; split; [exact J1|congruence]|]. rewrite HO, Z.mul_1_r in E.
    destruct (Z.eq_dec (nth i d 0) 1) as [E1|NE].
    + destruct (IH ltac:(lia) PD E1) as [(j & J1 & J2)|(k & K1 & K2 & K3)]; [left; exists j; split; [exact J1|congruence]|].
      right. exists k. split; [lia|]. split; [exact K2|congruence].
    + right. exists i. split; [lia|]. split; [|exact E]. pose proof (@positive_nth d i PD ltac:(lia)). lia.
Qed.

(** Two dimensions with more than one position share the storage. *)
Lemma two_dims n v i k : valid_view n v -> positive (v_dims v) -> (i < length (v_dims v))%nat -> (k < length (v_dims v))%nat -> i <> k ->
  1 < nth i (v_dims v) 0 -> Z.abs (nth i (m_strides (v_map v)) 0) + Z.abs (nth k (m_strides (v_map v)) 0) * (nth k (v_dims v) 0 - 1) < n.
Proof.
  intros HV PP HI HK NE HD. pose proof (vv_wf HV) as HW. pose proof (wf_strides HW) as HL. fold (v_dims v) in HL.
  set (s := nth i (m_strides (v_map v)) 0). set (t := nth k (m_strides (v_map v)) 0). set (d := nth k (v_dims v) 0).
  assert (HDK : 0 < d) by (apply (@positive_nth (v_dims v) k PP HK)).
  assert (R : forall a b, 0 <= a <= 1 -> 0 <= b < d -> 0 <= v_ptr v + s * a + t * b < n).
  { intros a b Ha Hb. set (idx := upd (upd (repeat 0 (length (v_dims v))) i a) k b).
    assert (B : in_bounds (v_dims v) idx).
    { apply in_bounds_intro; [unfold idx; rewrite !upd_length, repeat_length; reflexivity|]. intros j Hj. unfold idx.
      destruct (Nat.eq_dec k j) as [<-|N1]; [rewrite upd_nth_same by (rewrite upd_length, repeat_length; lia); exact Hb|].
      rewrite upd_nth_other by exact N1. destruct (Nat.eq_dec i j) as [<-|N2]; [rewrite upd_nth_same by (rewrite repeat_length; lia); lia|].
      rewrite upd_nth_other by exact N2. rewrite nth_repeat0. pose proof (positive_nth PP Hj). lia. }
    pose proof (vv_range HV B) as R1. rewrite v_addr_dot in R1 by (auto; now apply in_bounds_length). unfold idx in R1.
    rewrite dot_upd in R1 by (rewrite ?upd_length, ?repeat_length; lia). rewrite dot_upd in R1 by (rewrite ?repeat_length; lia).
    rewrite dot_zeros, upd_nth_other, !nth_repeat0 in R1 by exact NE. fold s t in R1. lia. }
  pose proof (R 0 0 ltac:(lia) ltac:(lia)). pose proof (R 1 0 ltac:(lia) ltac:(lia)). pose proof (R 0 (d - 1) ltac:(lia) ltac:(lia)).
  pose proof (R 1 (d - 1) ltac:(lia) ltac:(lia)). nia.
Qed.

(** A view with elements is reshaped exactly when the exact operation reshapes it. *)
Theorem reshape_exactly n v ty req : 0 <= n <= isize_max -> machine_view n v -> 0 < prodZ (v_dims v) -> Forall usize req -> ty_of_len ty (length req) ->
  x_v_reshape false v ty req = omap wrapv (v_reshape v ty req).
Proof.
  intros HN HM HP HR HT. pose proof (mv_valid HM) as HV. pose proof (vv_wf HV) as HW. pose proof (machine_wrap HM) as HI. pose proof (valid_prod HN HV) as HB.
  pose proof (fine_v_reshape v ty req) as F. destruct (v_reshape v ty req) as [w| | |] eqn:E; try destruct F.
  { rewrite <- HI at 1. cbn [omap bind]. now apply (@reshape_faithful n). }
  cbn [omap bind]. destruct (@reshape_good n v HN HM ty req HR HT) as [X|(v' & X & M' & u & w & VU & SU & EU & SW)]; [exact X|]. exfalso.
  destruct HT as [HT HL].
  assert (NR : nonneg req) by (eapply Forall_impl; [|exact HR]; intros a [? _]; assumption).
  unfold x_v_reshape in X. apply bind_ok in X as (m' & X & Q). injection Q as <-.
  assert (IM : wrapm (v_map v) = v_map v) by (apply (f_equal v_map) in HI; exact HI).
  destruct (@x_reshape_lift (v_map v) ty req HW NR HL (proj2 HB) m' HP IM X) as (m2 & m2' & W2 & EQ2 & R2 & ->).
  destruct (@m_reshape_sound m2 ty req m2' W2 NR HT HL R2) as (S1 & S2 & S3 & S4 & S5 & _).
  unfold v_reshape in EU. apply bind_ok in EU as (m3 & EU & Q). injection Q as <-.
  pose proof (vv_wf VU) as WU. destruct (@m_reshape_sound (v_map u) ty req m3 WU NR HT HL EU) as (U1 & U2 & U3 & U4 & U5 & U6).
  assert (DU : v_dims u = v_dims v) by apply SU.
  assert (PP : positive (v_dims v)) by (apply prodZ_pos_inv; [apply HW|exact HP]).
  unfold m_len in S5, U5, U6. rewrite !sh_len_prod in S5. rewrite !sh_len_prod in U5. setoid_rewrite sh_len_prod in U6. fold (v_dims u) in U1, U5, U6. rewrite DU in U1, U5, U6.
  assert (AC : exists m4, m_reshape (v_map v) ty req = Ok m4).
  { apply (@m_reshape_exact (v_map v) ty req (m_dims m3) HW HP NR HT HL U1); [destruct U4 as [_ Q _ _]; now rewrite U2 in Q|apply U4|exact U5|]. split.
    - exists m3. split; [exact U4|]. split; [reflexivity|]. intros k Hk. unfold m_len in Hk. rewrite sh_len_prod in Hk. fold (v_dims v) in Hk.
      rewrite U6 by exact Hk. rewrite !m_linear_offset_spec; [|exact HW|unfold m_len; rewrite sh_len_prod; exact Hk|exact WU|unfold m_len; rewrite sh_len_prod; fold (v_dims u); rewrite DU; exact Hk].
      pose proof (sv_addr SU (idx := unflat (v_dims u) k)) as A. unfold v_addr in A. rewrite (sv_ptr SU) in A.
      fold (v_dims u) (v_dims v). rewrite DU in *. specialize (A (@unflat_in_bounds _ _ (wf_nonneg HW) Hk)). lia.
    - intros i Hi H1. destruct (v_map v) as [t d|t d st] eqn:EV.
      { right. cbn [m_strides m_dims] in *. rewrite !nth_row_major by lia. rewrite (skipn_cons_nth d 0 (n := S i)) by lia. rewrite prodZ_cons. lia. }
      destruct m2 as [t2 d2|t2 d2 p]; [discriminate|]. cbn [wrapm] in EQ2. injection EQ2 as -> -> EP. unfold v_dims in *. rewrite EV in *. cbn [m_dims m_strides] in *.
      assert (SD : m_dims m2' = m_dims m3) by congruence. rewrite <- SD in *.
      pose proof (@m_reshape_needs t d p ty req m2' W2 HP NR HT HL R2) as ON.
      destruct (ON i Hi) as [B|E1]; [now left|].
      assert (CG : nth i st 0 = as_isize (nth (S i) st 0 * nth (S i) d 0)).
      { rewrite <- EP, !nth_wrap, E1. rewrite wrap_mul_l. reflexivity. }
      assert (IS : Forall is_isize st). { pose proof (mv_strides HM) as Q. unfold v_layout in Q. rewrite EV in Q. now apply Q. }
      pose proof (wf_strides HW) as LS. cbn [m_strides m_dims] in LS.
      assert (IK : is_isize (nth (S i) st 0)) by (apply (Forall_nth is_isize); [exact IS|lia]).
      pose proof (@positive_nth d (S i) PP Hi) as DK. destruct (Z.eq_dec (nth (S i) d 0) 1) as [D1|D1].
      { right. rewrite CG, D1, Z.mul_1_r. now apply as_isize_fit. }
      destruct (@above_one d p (m_dims m2') ON S5 i Hi PP H1) as [B|(k & K1 & K2 & K3)]; [now left|]. right.
      assert (CK : nth k st 0 = nth i st 0) by (rewrite <- EP, !nth_wrap; congruence).
      pose proof (@two_dims n v k (S i) HV) as TD. unfold v_dims in TD. rewrite EV in TD. cbn [m_dims m_strides] in TD.
      specialize (TD PP ltac:(lia) Hi ltac:(lia) K2). rewrite CK in TD.
      assert (II : is_isize (nth i st 0)) by (apply (Forall_nth is_isize); [exact IS|lia]). rewrite <- (as_isize_fit II) in CG.
      apply wrap_close in CG; [exact CG|]. unfold isize_max in *. nia. }
  destruct AC as [m4 AC]. unfold v_reshape in E. rewrite AC in E. discriminate.
Qed.

(** So does every operation on a view with elements. *)
Theorem x_step_exact n v o : 0 <= n <= isize_max -> machine_view n v -> 0 < prodZ (v_dims v) -> op_machine v o ->
  x_step false v o = omap wrapv (v_step v o).
Proof.
  intros HN HM HP HO. pose proof (mv_valid HM) as HV. pose proof (mv_dims HM) as HD. pose proof (machine_wrap HM) as HI. pose proof (valid_prod HN HV) as HB.
  assert (G : match o with OpReshape _ _ | OpFlatten => False | OpRemap l _ => l = Strided \/ v_layout v = Dense | _ => True end ->
              x_step false v o = omap wrapv (v_step v o)).
  { intros HX. rewrite <- HI at 1. now apply (@x_step_wrap n). }
  destruct o; try exact (G I).
  - destruct HO as [[HR HT] _]. now apply (@reshape_exactly n).
  - cbn [x_step v_step]. unfold x_flatten, v_flatten, m_len. rewrite x_len_wrap, sh_len_prod. cbn [bind]. rewrite as_usize_fit by exact HB.
    assert (UP : Forall usize [prodZ (v_dims v)]) by (constructor; [exact HB|constructor]).
    assert (TL : ty_of_len (STuple [DDyn]) (length [prodZ (v_dims v)])) by (split; [cbn; lia|reflexivity]).
    now apply (@reshape_exactly n).
  - destruct l; [|apply G; now left]. cbn [x_step v_step]. unfold x_v_remap, v_remap. cbn [x_remap m_remap].
    rewrite x_is_contiguous_fit; [|apply HV|apply (@valid_roomy n v); auto; lia]. cbn [bind].
    destruct (assert (is_contiguous (v_map v))); try reflexivity. cbn [bind]. destruct (sh_from_dims ty (m_dims (v_map v))); reflexivity.
Qed.

(** Row-major strides. *)
Definition dense_like (v : view) : view :=
  match v_map v with DenseM _ _ => v | StridedM t d _ => mkView (v_ptr v) (StridedM t d (row_major d)) end.

(** What is accepted is explained by the exact operation. *)
Theorem x_step_explained n v o : 0 <= n <= isize_max -> machine_view n v -> op_machine v o ->
  good n v (x_step false v o) (fun u => v_step u o).
Proof.
  intros HN HM HO. pose proof (mv_valid HM) as HV. pose proof (mv_dims HM) as HD. pose proof (machine_wrap HM) as HI. pose proof (valid_prod HN HV) as HB.
  assert (G : match o with OpReshape _ _ | OpFlatten => False | OpRemap l _ => l = Strided \/ v_layout v = Dense | _ => True end ->
              good n v (x_step false v o) (fun u => v_step u o)).
  { intros HX. apply exact_good; auto; [apply HO|]. rewrite <- HI at 1. now apply (@x_step_wrap n). }
  destruct o; try exact (G I).
  - destruct HO as [[HR HT] _]. now apply reshape_good.
  - cbn [x_step v_step]. unfold x_flatten. rewrite x_len_wrap. cbn [bind]. rewrite as_usize_fit by exact HB.
    destruct (@reshape_good n v HN HM (STuple [DDyn]) [prodZ (v_dims v)]) as [E|(v' & E & M & u & w & VU & SU & EU & SW)].
    + constructor; [exact HB|constructor].
    + split; [cbn; lia|reflexivity].
    + left. exact E.
    + right. exists v'. split; [exact E|]. split; [exact M|]. exists u, w. split; [exact VU|]. split; [exact SU|]. split; [|exact SW].
      unfold v_flatten, m_len. rewrite sh_len_prod. fold (v_dims u). rewrite (sv_dims SU). exact EU.
  - destruct l; [|apply G; now left].
    destruct (v_layout v) eqn:EL; [apply G; now right|]. clear G. destruct HO as [HA _]. cbn [op_arg] in HA.
    cbn [x_step v_step]. unfold x_v_remap. destruct (le_remap false Dense ty (v_map v)) as [->|(m' & E & _)]; [now left|]. rewrite E. cbn [bind]. right.
    exists (mkView (v_ptr v) m'). split; [reflexivity|].
    assert (ED : m' = DenseM ty (v_dims v) /\ accepts ty (v_dims v) = true).
    { cbn [x_remap] in E. apply bind_ok in E as (b & _ & E). apply bind_ok in E as (t & _ & E). rewrite sh_from_dims_spec in E.
      fold (v_dims v) in E. destruct (accepts ty (v_dims v)); [|discriminate]. cbn [bind] in E. injection E as <-. auto. }
    destruct ED as [-> AC]. pose proof AC as TY. apply accepts_typed in TY. pose proof (vv_wf HV) as HW.
    assert (W' : wf_map (DenseM ty (v_dims v))) by (constructor; cbn; auto; [apply HW|apply row_major_length]).
    destruct (Z.eq_dec (prodZ (v_dims v)) 0) as [Z0|NZ].
    + (* no elements *)
      split; [constructor; [now apply empty_valid|exact HD|discriminate]|].
      exists (dense_like v), (mkView (v_ptr v) (DenseM ty (v_dims v))). unfold v_layout in EL. destruct v as [p [t d|t d st]]; [discriminate|].
      cbn [dense_like v_map v_ptr] in *. unfold v_dims in *. cbn [v_map m_dims] in *.
      assert (W2 : wf_map (StridedM t d (row_major d))) by (destruct HW as [W1 W2 W3 W4]; constructor; cbn; auto; apply row_major_length).
      split; [now apply empty_valid|]. split; [apply no_elements; auto; apply HW|]. split; [|apply same_refl].
      unfold v_remap. cbn [v_map v_ptr m_remap]. rewrite (proj2 (@is_contiguous_iff (StridedM t d (row_major d)) W2)); [|reflexivity].
      rewrite assert_true by reflexivity. cbn [bind m_dims]. rewrite sh_from_dims_spec, AC. reflexivity.
    + assert (EX : v_remap v Dense ty = Ok (mkView (v_ptr v) (DenseM ty (v_dims v)))).
      { cbn [x_remap] in E. rewrite x_is_contiguous_fit in E; [|apply HW|apply (@valid_roomy n v); auto; lia]. cbn [bind] in E.
        apply bind_ok in E as ([] & A & _). apply assert_ok in A. unfold v_remap. cbn [m_remap]. rewrite A, assert_true by reflexivity. cbn [bind].
        rewrite sh_from_dims_spec. fold (v_dims v). rewrite AC. reflexivity. }
      assert (HU : 0 <= n <= usize_max) by (unfold isize_max, usize_max in *; lia).
      destruct (@step_valid n v (OpRemap Dense ty) _ HU HV HD HA EX) as (V & D & _).
      split; [constructor; [exact V|exact D|discriminate]|]. exists v, (mkView (v_ptr v) (DenseM ty (v_dims v))).
      split; [exact HV|]. split; [apply same_refl|]. split; [exact EX|apply same_refl].
Qed.

(** Either kind of build: an operation panics or shows elements of the view. *)
Theorem x_step_safe dbg n v o : 0 <= n <= isize_max -> machine_view n v -> op_machine v o ->
  good n v (x_step dbg v o) (fun u => v_step u o).
Proof.
  intros HN HM HO. destruct (le_step dbg v o) as [->|(r & E & E')]; [now left|]. rewrite E, <- E'. now apply x_step_explained.
Qed.

Lemma good_shows n v v' o : 0 <= n <= isize_max -> Forall (fun d => d <= usize_max) (v_dims v) -> op_machine v o ->
  explained n v (fun u => v_step u o) v' -> exists f, shows v v' f.
Proof.
  intros HN HD [HO _] (M & u & w & VU & SU & EU & SW).
  assert (HU : 0 <= n <= usize_max) by (unfold isize_max, usize_max in *; lia).
  assert (OU : op_arg u o) by (destruct o; cbn [op_arg] in *; rewrite ?(sv_dims SU); exact HO).
  destruct (@step_valid n u o w HU VU ltac:(now rewrite (sv_dims SU)) OU EU) as (_ & _ & f & HS). exists f. intros idx B.
  destruct (HS idx) as [B1 E]; [now rewrite <- (sv_dims SW)|]. rewrite (sv_dims SU) in B1. split; [exact B1|].
  rewrite (sv_addr SW) by exact B. rewrite E. apply SU. now rewrite (sv_dims SU).
Qed.

(** Runs. *)
Theorem x_run_safe dbg n os : forall v, 0 <= n <= isize_max -> machine_view n v -> run_machine dbg v os ->
  x_run dbg v os = Panic \/ exists v', x_run dbg v os = Ok v' /\ machine_view n v' /\ exists f, shows v v' f.
Proof.
  induction os as [|o os IH]; intros v HN HM HR; cbn [x_run].
  - right. exists v. split; [reflexivity|]. split; [exact HM|]. exists (fun idx => idx). intros idx B. auto.
  - destruct HR as [HO HR]. destruct (@x_step_safe dbg n v o HN HM HO) as [->|(v1 & E & X)]; [now left|]. rewrite E. cbn [bind].
    destruct (@good_shows n v v1 o HN (mv_dims HM) HO X) as [f S1]. destruct X as [M1 _].
    destruct (IH v1 HN M1 (HR v1 E)) as [->|(v' & E' & M' & g & S2)]; [now left|]. right. exists v'. split; [exact E'|]. split; [exact M'|].
    exists (fun idx => f (g idx)). intros idx B. destruct (S2 idx B) as [B1 E1]. destruct (S1 _ B1) as [B2 E2]. split; [exact B2|congruence].
Qed.

Lemma run_positive n os : forall v w, 0 <= n <= usize_max -> valid_view n v -> Forall (fun d => d <= usize_max) (v_dims v) -> run_wide v os ->
  v_run v os = Ok w -> 0 < prodZ (v_dims w) -> 0 < prodZ (v_dims v).
Proof.
  induction os as [|o os IH]; intros v w HU HV HD HR E HP; cbn [v_run] in E; [now injection E as ->|].
  apply bind_ok in E as (v1 & E1 & E). destruct HR as [[HA _] HR]. destruct (step_valid HU HV HD HA E1) as (V1 & D1 & f & S).
  pose proof (IH v1 w HU V1 D1 (HR v1 E1) E HP) as P1. apply prodZ_pos. apply (shows_positive S). apply prodZ_pos_inv; [apply V1|exact P1].
Qed.
Theorem x_run_faithful n os : forall v w, 0 <= n <= isize_max -> valid_view n v -> Forall (fun d => d <= usize_max) (v_dims v) -> run_wide v os ->
  v_run v os = Ok w -> 0 < prodZ (v_dims w) -> x_run false (wrapv v) os = Ok (wrapv w) /\ valid_view n w.
Proof.
  intros v w HN. assert (HU : 0 <= n <= usize_max) by (unfold isize_max, usize_max in *; lia). revert v.
  induction os as [|o os IH]; intros v HV HD HR E HP; [cbn [v_run] in E; injection E as ->; auto|].
  pose proof (@run_positive n (o :: os) v w HU HV HD HR E HP) as PV. cbn [v_run x_run] in *.
  apply bind_ok in E as (v1 & E1 & E). destruct HR as [HO HR]. destruct (step_valid HU HV HD (proj1 HO) E1) as (V1 & D1 & _).
  rewrite (@x_step_faithful n v o v1 HN HV HD HO PV E1). cbn [bind]. apply IH; auto.
Qed.

Lemma explained_ptr n v o v' : explained n v (fun u => v_step u o) v' -> prodZ (v_dims v') = 0 -> v_ptr v' = v_ptr v.
Proof.
  intros (_ & u & w & _ & SU & E & SW) HZ. rewrite (sv_ptr SW), <- (sv_ptr SU). apply (v_step_empty E). now rewrite <- (sv_dims SW).
Qed.
