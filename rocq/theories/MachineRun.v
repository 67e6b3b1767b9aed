(** Machine arithmetic of whole programs over views. *)
From Verif Require Import Base Spec SpecFacts Shape Mapping Index View Wf MappingFacts MapOps ReshapeFacts IndexFacts ViewFacts ViewMore Machine MachineSpec MachineFacts MachineViews MachineReshape.
Unset Strict Implicit.

Lemma x_v_reshape_fit dbg v ty req : wf_map (v_map v) -> gentle (v_map v) -> 0 < prodZ (v_dims v) -> nonneg req ->
  match sh_rank ty with Some k => length req = k | None => True end ->
  x_v_reshape dbg v ty req = v_reshape v ty req.
Proof. intros HW HG HP HN HK. unfold x_v_reshape, v_reshape. now rewrite x_reshape_fit. Qed.

Lemma x_flatten_fit dbg v : wf_map (v_map v) -> gentle (v_map v) -> 0 < prodZ (v_dims v) -> x_flatten dbg v = v_flatten v.
Proof.
  intros HW HG HP. unfold x_flatten, v_flatten. rewrite x_len_fit; [|apply HW|apply roomy_usize, HG]. cbn [bind].
  unfold m_len. rewrite sh_len_prod. change (m_dims (v_map v)) with (v_dims v). apply x_v_reshape_fit; auto; [constructor; [lia|constructor]|reflexivity].
Qed.

Lemma v_reshape_gentle v ty req r : wf_map (v_map v) -> gentle (v_map v) -> 0 < prodZ (v_dims v) -> nonneg req ->
  match sh_rank ty with Some k => length req = k | None => True end -> v_reshape v ty req = Ok r -> gentle (v_map r).
Proof.
  intros HW HG HP HN HK E. unfold v_reshape in E. destruct (m_reshape (v_map v) ty req) as [m'| | |] eqn:EM; try discriminate.
  cbn [bind] in E. injection E as <-. exact (@m_reshape_gentle (v_map v) ty req m' HW HG HP HN HK EM).
Qed.

Lemma as_matrix_facts v r : wf_map (v_map v) -> gentle (v_map v) -> 0 < prodZ (v_dims v) -> length (v_dims v) = 2%nat ->
  as_matrix v = Ok r -> wf_map (v_map r) /\ gentle (v_map r) /\ v_dims r = v_dims v.
Proof.
  intros HW HG HP HL E. unfold as_matrix in E.
  assert (HK : match sh_rank (mat_ty (v_ty v)) with Some k => length (v_dims v) = k | None => True end) by (cbn; exact HL).
  pose proof (wf_nonneg HW) as HN. change (m_dims (v_map v)) with (v_dims v) in HN.
  destruct (@v_reshape_sound v (mat_ty (v_ty v)) (v_dims v) r HW HN ltac:(unfold ty_wf, mat_ty; cbn; lia) HK E) as (E1 & E2 & E3 & E4 & E5 & E6).
  split; [exact E4|]. split; [exact (@v_reshape_gentle v (mat_ty (v_ty v)) (v_dims v) r HW HG HP HN HK E)|].
  pose proof (prodZ_pos_inv HN HP) as PP.
  assert (NU : ~ In usize_max (v_dims v)).
  { intros I. apply (In_nth _ _ 0) in I. destruct I as (j & _ & I). pose proof (@roomy_nth (v_dims v) j (proj1 HG)). unfold isize_max, usize_max in *. lia. }
  unfold sh_reshape in E1. rewrite infer_loop_no in E1 by exact NU. cbn [bind] in E1.
  destruct (sh_store _ (v_dims v)) as [d| | |] eqn:ES; try discriminate. apply sh_store_ok_inv in ES. subst d. cbn [bind] in E1.
  destruct (sh_checked_len (v_dims v)) as [k|]; [|discriminate]. destruct (k =? _); [|discriminate]. cbn [assert bind] in E1. now injection E1.
Qed.

Lemma x_col_fit dbg v i : wf_map (v_map v) -> gentle (v_map v) -> 0 < prodZ (v_dims v) -> usize i -> x_col dbg v i = v_col v i.
Proof.
  intros HW HG HP HI. unfold x_col, v_col. fold (mat_ty (v_ty v)).
  destruct (Nat.eq_dec (length (v_dims v)) 2) as [L2|L2]; [|rewrite !mat_not2 by auto; reflexivity].
  rewrite sh_from_dims_spec. destruct (accepts (mat_ty (v_ty v)) (v_dims v)); [|reflexivity]. cbn [bind].
  pose proof (wf_nonneg HW) as HN. change (m_dims (v_map v)) with (v_dims v) in HN.
  rewrite x_v_reshape_fit by (auto; cbn; auto). fold (as_matrix v).
  destruct (as_matrix v) as [r| | |] eqn:ER; try reflexivity. cbn [bind].
  destruct (as_matrix_facts HW HG HP L2 ER) as (RW & RG & RD). apply x_view_fit; auto; [apply RG|repeat constructor; apply HI|rewrite RD, L2; reflexivity|].
  intros OK. destruct RG as [RR RG]. pose proof (wf_strides RW) as RS. change (m_dims (v_map r)) with (v_dims r) in *.
  rewrite RD in *. destruct (v_dims v) as [|d0 [|d1 [|]]] eqn:ED; try discriminate. destruct (m_strides (v_map r)) as [|s0 [|s1 [|]]]; try discriminate.
  inversion OK as [|? ? ? ? _ O1]; subst. inversion O1 as [|? ? ? ? O2 _]; subst. cbn [ix_ok] in O2.
  pose proof (RG 0%nat ltac:(cbn; lia)) as G0. pose proof (RG 1%nat ltac:(cbn; lia)) as G1. cbn [nth] in G0, G1.
  unfold usize in HI. cbn [sub_small ix_first ix_step sub_off]. repeat split; apply isize_abs; rewrite ?Z.mul_0_r, ?Z.mul_1_r, ?Z.add_0_r, ?Z.add_0_l, ?Z.abs_mul; nia.
Qed.

Lemma x_row_fit dbg v i : wf_map (v_map v) -> gentle (v_map v) -> 0 < prodZ (v_dims v) -> usize i -> x_row dbg v i = v_row v i.
Proof.
  intros HW HG HP HI. unfold x_row, v_row. fold (mat_ty (v_ty v)).
  destruct (Nat.eq_dec (length (v_dims v)) 2) as [L2|L2]; [|rewrite !mat_not2 by auto; reflexivity].
  rewrite sh_from_dims_spec. destruct (accepts (mat_ty (v_ty v)) (v_dims v)); [|reflexivity]. cbn [bind].
  pose proof (wf_nonneg HW) as HN. change (m_dims (v_map v)) with (v_dims v) in HN.
  rewrite x_v_reshape_fit by (auto; cbn; auto). fold (as_matrix v).
  destruct (as_matrix v) as [r| | |] eqn:ER; try reflexivity. cbn [bind].
  destruct (as_matrix_facts HW HG HP L2 ER) as (RW & RG & RD). apply x_view_fit; auto; [apply RG|repeat constructor; apply HI|rewrite RD, L2; reflexivity|].
  intros OK. destruct RG as [RR RG]. pose proof (wf_strides RW) as RS. change (m_dims (v_map r)) with (v_dims r) in *.
  rewrite RD in *. destruct (v_dims v) as [|d0 [|d1 [|]]] eqn:ED; try discriminate. destruct (m_strides (v_map r)) as [|s0 [|s1 [|]]]; try discriminate.
  inversion OK as [|? ? ? ? O2 O1]; subst. cbn [ix_ok] in O2.
  pose proof (RG 0%nat ltac:(cbn; lia)) as G0. pose proof (RG 1%nat ltac:(cbn; lia)) as G1. cbn [nth] in G0, G1.
  unfold usize in HI. cbn [sub_small ix_first ix_step sub_off]. repeat split; apply isize_abs; rewrite ?Z.mul_0_r, ?Z.mul_1_r, ?Z.add_0_r, ?Z.add_0_l, ?Z.abs_mul; nia.
Qed.

(** The stride of the diagonal fits. *)
Definition diag_small (m : mapping) : Prop := is_isize (nth 0 (m_strides m) 0 + nth 1 (m_strides m) 0).

Lemma x_into_diag_fit dbg v k : wf_map (v_map v) -> gentle (v_map v) -> is_isize k -> diag_small (v_map v) ->
  x_into_diag dbg v k = v_into_diag v k.
Proof.
  intros HW HG HK HS. unfold x_into_diag, v_into_diag. destruct (Nat.eqb_spec (m_rank (v_map v)) 2) as [R2|R2]; [|reflexivity]. cbn [assert bind].
  pose proof (proj1 HG) as HR. rewrite !m_dim_ok by lia. cbn [bind]. rewrite !x_stride_fit by auto. rewrite !m_stride_ok by (auto; try apply HW; lia). cbn [bind].
  set (d0 := nth 0 (m_dims (v_map v)) 0). set (d1 := nth 1 (m_dims (v_map v)) 0).
  set (s0 := nth 0 (m_strides (v_map v)) 0) in *. set (s1 := nth 1 (m_strides (v_map v)) 0) in *.
  assert (B0 : 0 <= d0 <= isize_max). { split; [|now apply roomy_nth]. apply (Forall_nth (fun d => 0 <= d) (m_dims (v_map v))); [apply HW|unfold m_rank in *; lia]. }
  assert (B1 : 0 <= d1 <= isize_max). { split; [|now apply roomy_nth]. apply (Forall_nth (fun d => 0 <= d) (m_dims (v_map v))); [apply HW|unfold m_rank in *; lia]. }
  pose proof (proj2 HG 0%nat ltac:(unfold m_rank in *; lia)) as G0. pose proof (proj2 HG 1%nat ltac:(unfold m_rank in *; lia)) as G1. fold s0 d0 in G0. fold s1 d1 in G1.
  destruct (Z.geb_spec k 0) as [K|K].
  - unfold is_isize in HK. rewrite as_usize_fit by (apply small_usize; lia).
    destruct (Z.leb_spec k d1); [|reflexivity]. cbn [assert bind].
    rewrite i_res_fit by (apply isize_abs; rewrite Z.abs_mul; nia). cbn [bind]. rewrite u_res_fit by (apply small_usize; lia). cbn [bind].
    rewrite i_res_fit by exact HS. reflexivity.
  - destruct (Z.eq_dec k isize_min) as [EM|NM].
    + subst k. replace (- isize_min <=? d0) with false by (unfold isize_min, isize_max in *; lia). cbn [assert bind].
      unfold i_res. replace (i_fits (- isize_min)) with false by reflexivity. destruct dbg; [reflexivity|]. cbn [bind].
      replace (as_usize (as_isize (- isize_min)) <=? d0) with false; [reflexivity|].
      change (as_usize (as_isize (- isize_min))) with (2 ^ 63). unfold isize_max in *. lia.
    + assert (KN : 0 <= - k <= isize_max) by (unfold is_isize, isize_min, isize_max in *; lia).
      rewrite i_res_fit by (now apply small_isize). cbn [bind]. rewrite as_usize_fit by (now apply small_usize).
      destruct (Z.leb_spec (- k) d0); [|reflexivity]. cbn [assert bind].
      rewrite i_res_fit by (apply isize_abs; rewrite Z.abs_mul; nia). cbn [bind]. rewrite u_res_fit by (apply small_usize; lia). cbn [bind].
      rewrite i_res_fit by exact HS. reflexivity.
Qed.

Lemma x_diag_fit dbg v k : wf_map (v_map v) -> gentle (v_map v) -> 0 < prodZ (v_dims v) -> is_isize k ->
  (forall r, as_matrix v = Ok r -> diag_small (v_map r)) -> x_diag dbg v k = v_diag v k.
Proof.
  intros HW HG HP HI HS. unfold x_diag, v_diag. fold (mat_ty (v_ty v)).
  destruct (Nat.eq_dec (length (v_dims v)) 2) as [L2|L2]; [|rewrite !mat_not2 by auto; reflexivity].
  rewrite sh_from_dims_spec. destruct (accepts (mat_ty (v_ty v)) (v_dims v)); [|reflexivity]. cbn [bind].
  pose proof (wf_nonneg HW) as HN. change (m_dims (v_map v)) with (v_dims v) in HN.
  rewrite x_v_reshape_fit by (auto; cbn; auto). fold (as_matrix v).
  destruct (as_matrix v) as [r| | |] eqn:ER; try reflexivity. cbn [bind].
  destruct (as_matrix_facts HW HG HP L2 ER) as (RW & RG & RD). apply x_into_diag_fit; auto.
Qed.

(** ** One operation *)

Theorem x_step_fit dbg v o : wf_map (v_map v) -> near (v_map v) -> gentle (v_map v) -> 0 < prodZ (v_dims v) ->
  op_arg v o -> op_room v o -> x_step dbg v o = v_step v o.
Proof.
  intros HW HN HG HP HA HO. pose proof (proj1 HG) as HR. pose proof (wf_nonneg HW) as HNN. change (m_dims (v_map v)) with (v_dims v) in *.
  destruct o as [a i|a mid|a mid|xs|p perm| |ty dims| |l ty|i|i|k]; cbn [x_step v_step op_arg op_room] in *.
  - apply x_axis_at_fit; auto. apply HA.
  - rewrite x_split_fit; auto. apply HA.
  - rewrite x_split_fit; auto. apply HA.
  - destruct HA as [A1 A2]. apply x_view_fit; auto. intros OK. destruct (HO OK) as [O1 O2].
    assert (ST : steps_small (m_strides (v_map v)) xs).
    { unfold steps_small. clear -O1. induction O1; constructor; auto. now apply isize_abs. }
    destruct O2 as [O2|O2].
    + apply sub_small_nonempty; auto.
    + destruct (@sub_small_spread (v_dims v) (m_strides (v_map v)) xs) as [_ S]; auto. apply HW.
  - apply x_v_permute_fit; auto. destruct HA as [A _]. apply (Forall_impl _ (P := usize)); [|exact A]. intros q [Q _]. exact Q.
  - now apply x_v_reorder_fit.
  - destruct HA as [A1 [A2 A3]]. apply x_v_reshape_fit; auto. apply (Forall_impl _ (P := usize)); [|exact A1]. intros q [Q _]. exact Q.
  - now apply x_flatten_fit.
  - now apply x_v_remap_fit.
  - now apply x_col_fit.
  - now apply x_row_fit.
  - destruct HO as [O1 O2]. apply x_diag_fit; auto. intros r E. apply isize_abs. now apply O2.
Qed.

(** ** Strides stay small *)

Lemma gentle_strides m : length (m_strides m) = length (m_dims m) -> gentle m -> strides_small m.
Proof.
  intros HL [_ HG]. unfold strides_small. apply Forall_forall. intros s Hs. apply (In_nth _ _ 0) in Hs. destruct Hs as (i & Hi & <-).
  specialize (HG i ltac:(lia)). nia.
Qed.

Lemma dense_strides m : m_layout m = Dense -> nonneg (m_dims m) -> roomy (m_dims m) -> strides_small m.
Proof.
  intros HL HN HR. destruct m as [ty dims|]; [|discriminate]. apply gentle_strides; [cbn; apply row_major_length|]. now apply gentle_dense.
Qed.

Lemma Forall_remove {A} (P : A -> Prop) i l : Forall P l -> Forall P (remove_at i l).
Proof.
  intros H. unfold remove_at. apply Forall_app. split; [now apply Forall_firstn'|now apply Forall_skipn'].
Qed.
Lemma Forall_pick P perm l : Forall P l -> P 0 -> Forall P (pick perm l).
Proof.
  intros H H0. unfold pick. apply Forall_forall. intros x Hx. apply in_map_iff in Hx. destruct Hx as (p & <- & _).
  destruct (Nat.lt_ge_cases (Z.to_nat p) (length l)); [apply (Forall_nth P l); auto|]. rewrite nth_overflow; auto.
Qed.

Lemma sub_strides_small dims : forall strides xs,
  Forall2 (fun s x => Z.abs (s * ix_step x) <= isize_max) strides xs -> Forall (fun s => Z.abs s <= isize_max) (sub_strides dims strides xs).
Proof.
  induction dims as [|d dims IH]; intros [|s strides] [|x xs] H; cbn [sub_strides]; try constructor; try (inversion H; fail).
  inversion H; subst. destruct (ix_kept x); [constructor|]; auto.
Qed.

Lemma v_view_strides v xs v' : wf_map (v_map v) -> Forall ix_arg xs -> Forall (fun d => d <= usize_max) (v_dims v) ->
  length xs = length (v_dims v) -> v_view v xs = Ok v' -> m_strides (v_map v') = sub_strides (v_dims v) (m_strides (v_map v)) xs.
Proof.
  intros HW HA HM HL E. unfold v_view in E.
  assert (K : (m_rank (v_map v) - length xs = 0)%nat) by (unfold m_rank, v_dims in *; lia).
  destruct (@view_index_spec xs (v_ty v) (v_map v) HW) as [(_ & m' & E' & _ & _ & Ed & Es & W')|(NO & E')]; rewrite ?K; cbn [skipn]; auto.
  - unfold m_rank, v_dims in *. lia.
  - apply HW.
  - rewrite E' in E. cbn [bind] in E. injection E as <-. cbn [v_map]. rewrite Es, K. reflexivity.
  - rewrite E' in E. discriminate.
Qed.

Theorem v_step_strides n v0 v o v' : 0 <= n <= isize_max -> chain_inv n v0 v -> gentle (v_map v) -> 0 < prodZ (v_dims v) ->
  strides_small (v_map v) -> op_arg v o -> op_room v o -> v_step v o = Ok v' -> 0 < prodZ (v_dims v') -> strides_small (v_map v').
Proof.
  intros HN HC HG HP HS HA HO E HP'.
  assert (NU : 0 <= n <= usize_max) by (unfold isize_max, usize_max in *; lia).
  pose proof (v_step_inv NU HC HA E) as HC'. destruct (chain_facts NU HC) as (HW & HNN & _).
  destruct (chain_facts NU HC') as (HW' & HNN' & _).
  assert (R' : roomy (v_dims v')). { apply (@valid_roomy n v' (ci_valid HC')); [lia|exact HP']. }
  destruct (v_layout v') eqn:EL; [now apply dense_strides|].
  unfold strides_small in *. pose proof (wf_strides HW) as HL.
  destruct o as [a i|a mid|a mid|xs|p perm| |ty dims| |l ty|i|i|k]; cbn [v_step op_arg op_room] in *.
  - unfold v_axis_at in E. destruct (ax_index_spec a (m_rank (v_map v))) as [(j & EJ & IA)|[EJ _]]; rewrite EJ in E; [|discriminate]. cbn [bind] in E.
    rewrite m_dim_ok in E by apply IA. cbn [bind] in E. destruct (negb _); [|discriminate]. cbn [assert bind] in E.
    destruct (ax_remove_map_ok HW IA) as (m' & EM & D1 & D2 & _). rewrite EM in E. cbn [bind] in E.
    rewrite m_stride_ok in E by (auto; apply IA). cbn [bind] in E. injection E as <-. cbn [v_map]. rewrite D2. now apply Forall_remove.
  - unfold v_split_axis_at in E. destruct (ax_index_spec a (m_rank (v_map v))) as [(j & EJ & IA)|[EJ _]]; rewrite EJ in E; [|discriminate]. cbn [bind] in E.
    rewrite m_dim_ok in E by apply IA. cbn [bind] in E. destruct (Z.gtb_spec mid (nth j (m_dims (v_map v)) 0)); [discriminate|]. cbn [negb assert bind] in E.
    destruct (ax_resize_map_ok HW IA (proj1 HA)) as (m1 & E1 & D1 & D2 & _). rewrite E1 in E. cbn [bind] in E.
    destruct (@ax_resize_map_ok a (v_map v) j (nth j (m_dims (v_map v)) 0 - mid) HW IA ltac:(lia)) as (m2 & E2 & _ & D4 & _). rewrite E2 in E. cbn [bind] in E.
    rewrite m_stride_ok in E by (auto; apply IA). cbn [bind] in E. injection E as <-. cbn [v_map]. now rewrite D2.
  - unfold v_split_axis_at in E. destruct (ax_index_spec a (m_rank (v_map v))) as [(j & EJ & IA)|[EJ _]]; rewrite EJ in E; [|discriminate]. cbn [bind] in E.
    rewrite m_dim_ok in E by apply IA. cbn [bind] in E. destruct (Z.gtb_spec mid (nth j (m_dims (v_map v)) 0)); [discriminate|]. cbn [negb assert bind] in E.
    destruct (ax_resize_map_ok HW IA (proj1 HA)) as (m1 & E1 & D1 & D2 & _). rewrite E1 in E. cbn [bind] in E.
    destruct (@ax_resize_map_ok a (v_map v) j (nth j (m_dims (v_map v)) 0 - mid) HW IA ltac:(lia)) as (m2 & E2 & _ & D4 & _). rewrite E2 in E. cbn [bind] in E.
    rewrite m_stride_ok in E by (auto; apply IA). cbn [bind] in E. injection E as <-. cbn [v_map]. now rewrite D4.
  - destruct HA as [A1 A2]. destruct (ix_ok_dec (v_dims v) xs) as [OK|NO]; [|rewrite v_view_panic in E by (auto; apply HC); discriminate].
    destruct (HO OK) as [O1 _]. rewrite (@v_view_strides v xs v' HW A1 (ci_small HC) A2 E). now apply sub_strides_small.
  - destruct HA as [A1 A2]. assert (P0 : Forall (fun q => 0 <= q) perm) by (apply (Forall_impl _ (P := usize)); [intros q [Q _]; exact Q|exact A1]).
    destruct (v_permute_inv HW P0 A2 E) as [PO RK]. unfold v_permute in E.
    destruct (perm_arg_layout p (v_layout v)) eqn:EPL.
    + destruct (m_permute Dense _ _ _) as [m'| | |] eqn:EM; try discriminate. cbn [bind] in E. injection E as <-. unfold v_layout in EL. cbn [v_map] in EL.
      unfold m_permute in EM. destruct (length perm =? _)%nat; [|discriminate]. cbn [assert bind] in EM. destruct (perm_is_identity 0 perm); [|discriminate].
      cbn [assert bind] in EM. rewrite m_remap_dense in EM. destruct (_ && _); [|discriminate]. injection EM as <-. discriminate.
    + rewrite m_permute_strided in E by (auto; apply HW). destruct (accepts _ _); [|discriminate]. cbn [bind] in E. injection E as <-. cbn [v_map m_strides].
      apply Forall_pick; [exact HS|]. unfold isize_max. lia.
  - unfold v_reorder in E. destruct (sh_layout _ _).
    + destruct (m_reorder Dense (v_map v)) as [m'| | |] eqn:EM; try discriminate. cbn [bind] in E. injection E as <-. unfold v_layout in EL. cbn [v_map] in EL.
      unfold m_reorder in EM. destruct (_ && _); [|discriminate]. cbn [assert bind] in EM. rewrite sh_reverse_dims_spec in EM. destruct (accepts _ _); [|discriminate].
      cbn [bind] in EM. injection EM as <-. discriminate.
    + rewrite m_reorder_strided in E by exact HL. destruct (accepts _ _); [|discriminate]. cbn [bind] in E. injection E as <-. cbn [v_map m_strides]. now apply Forall_rev.
  - destruct HA as [A1 [A2 A3]]. assert (P0 : nonneg dims) by (apply (Forall_impl _ (P := usize)); [intros q [Q _]; exact Q|exact A1]).
    apply gentle_strides; [apply HW'|]. exact (@v_reshape_gentle v ty dims v' HW HG HP P0 A3 E).
  - apply gentle_strides; [apply HW'|]. unfold v_flatten in E. refine (@v_reshape_gentle v _ _ v' HW HG HP _ _ E); [|reflexivity].
    constructor; [|constructor]. unfold m_len. rewrite sh_len_prod. change (m_dims (v_map v)) with (v_dims v). lia.
  - unfold v_remap in E. destruct l.
    + rewrite m_remap_dense in E. destruct (_ && _); [|discriminate]. cbn [bind] in E. injection E as <-. discriminate.
    + rewrite m_remap_strided in E by exact HL. destruct (accepts _ _); [|discriminate]. cbn [bind] in E. injection E as <-. exact HS.
  - unfold v_col in E. fold (mat_ty (v_ty v)) in E.
    destruct (Nat.eq_dec (length (v_dims v)) 2) as [L2|L2]; [|rewrite !mat_not2 in E by auto; discriminate].
    rewrite sh_from_dims_spec in E. destruct (accepts (mat_ty (v_ty v)) (v_dims v)); [|discriminate]. cbn [bind] in E. fold (as_matrix v) in E.
    destruct (as_matrix v) as [r| | |] eqn:ER; try discriminate. cbn [bind] in E. destruct (as_matrix_facts HW HG HP L2 ER) as (RW & RG & RD).
    assert (AX : Forall ix_arg [IxFull; IxUsize i]) by (repeat constructor; apply HA).
    assert (RM : Forall (fun d => d <= usize_max) (v_dims r)) by (rewrite RD; apply HC).
    rewrite (@v_view_strides r _ v' RW AX RM) by (auto; rewrite RD, L2; reflexivity).
    pose proof (gentle_strides (wf_strides RW) RG) as RS. unfold strides_small in RS.
    pose proof (wf_strides RW) as RL. change (m_dims (v_map r)) with (v_dims r) in RL. rewrite RD in *.
    destruct (v_dims v) as [|d0 [|d1 [|]]]; try discriminate. destruct (m_strides (v_map r)) as [|s0 [|s1 [|]]]; try discriminate.
    inversion RS; subst. cbn [sub_strides ix_kept ix_step]. constructor; [now rewrite Z.mul_1_r|constructor].
  - unfold v_row in E. fold (mat_ty (v_ty v)) in E.
    destruct (Nat.eq_dec (length (v_dims v)) 2) as [L2|L2]; [|rewrite !mat_not2 in E by auto; discriminate].
    rewrite sh_from_dims_spec in E. destruct (accepts (mat_ty (v_ty v)) (v_dims v)); [|discriminate]. cbn [bind] in E. fold (as_matrix v) in E.
    destruct (as_matrix v) as [r| | |] eqn:ER; try discriminate. cbn [bind] in E. destruct (as_matrix_facts HW HG HP L2 ER) as (RW & RG & RD).
    assert (AX : Forall ix_arg [IxUsize i; IxFull]) by (repeat constructor; apply HA).
    assert (RM : Forall (fun d => d <= usize_max) (v_dims r)) by (rewrite RD; apply HC).
    rewrite (@v_view_strides r _ v' RW AX RM) by (auto; rewrite RD, L2; reflexivity).
    pose proof (gentle_strides (wf_strides RW) RG) as RS. unfold strides_small in RS.
    pose proof (wf_strides RW) as RL. change (m_dims (v_map r)) with (v_dims r) in RL. rewrite RD in *.
    destruct (v_dims v) as [|d0 [|d1 [|]]]; try discriminate. destruct (m_strides (v_map r)) as [|s0 [|s1 [|]]]; try discriminate.
    inversion RS as [|? ? _ RS']; subst. inversion RS'; subst. cbn [sub_strides ix_kept ix_step]. constructor; [now rewrite Z.mul_1_r|constructor].
  - unfold v_diag in E. fold (mat_ty (v_ty v)) in E.
    destruct (Nat.eq_dec (length (v_dims v)) 2) as [L2|L2]; [|rewrite !mat_not2 in E by auto; discriminate].
    rewrite sh_from_dims_spec in E. destruct (accepts (mat_ty (v_ty v)) (v_dims v)); [|discriminate]. cbn [bind] in E. fold (as_matrix v) in E.
    destruct (as_matrix v) as [r| | |] eqn:ER; try discriminate. cbn [bind] in E. destruct (as_matrix_facts HW HG HP L2 ER) as (RW & RG & RD).
    destruct HO as [_ HO]. specialize (HO r eq_refl). unfold v_into_diag in E. destruct (Nat.eqb_spec (m_rank (v_map r)) 2); [|discriminate]. cbn [assert bind] in E.
    rewrite !m_dim_ok in E by lia. cbn [bind] in E. rewrite !m_stride_ok in E by (try apply RW; lia). cbn [bind] in E.
    destruct (k >=? 0).
    + destruct (k <=? _); [|discriminate]. cbn in E. injection E as <-. cbn [v_map m_strides]. constructor; [exact HO|constructor].
    + destruct (- k <=? _); [|discriminate]. cbn in E. injection E as <-. cbn [v_map m_strides]. constructor; [exact HO|constructor].
Qed.

(** ** Programs *)

Theorem x_run_fit dbg n v0 os : forall v, 0 <= n -> 2 * n <= isize_max -> chain_inv n v0 v ->
  (0 < prodZ (v_dims v) -> strides_small (v_map v)) -> run_args v os -> run_room v os -> x_run dbg v os = v_run v os.
Proof.
  induction os as [|o os IH]; intros v HN H2 HC HS HA HR; [reflexivity|]. cbn [run_args run_room x_run v_run] in *.
  destruct HA as [A1 A2]. destruct HR as (P & R1 & R2). specialize (HS P).
  assert (NU : 0 <= n <= usize_max) by (unfold isize_max, usize_max in *; lia).
  pose proof (valid_gentle (ci_valid HC) H2 P HS) as HG. destruct (chain_facts NU HC) as (HW & _).
  rewrite x_step_fit; auto; [|apply (@valid_near n); [apply HC|lia]].
  destruct (v_step v o) as [v'| | |] eqn:E; try reflexivity. cbn [bind]. apply IH; auto.
  - exact (v_step_inv NU HC A1 E).
  - intros P'. refine (@v_step_strides n v0 v o v' _ HC HG P HS A1 R1 E P'). lia.
Qed.

Lemma plain_room v o : wf_map (v_map v) -> Forall (fun d => d <= usize_max) (v_dims v) -> strides_small (v_map v) -> op_arg v o -> op_plain v o ->
  (forall v', v_step v o = Ok v' -> 0 < prodZ (v_dims v')) -> op_room v o.
Proof.
  intros HW HM HS HA HO HV. destruct o as [a i|a mid|a mid|xs|p perm| |ty dims| |l ty|i|i|k]; cbn [op_plain op_room op_arg v_step] in *; auto; [|contradiction].
  intros OK. destruct HA as [A1 A2]. split.
  - assert (L : length (m_strides (v_map v)) = length xs) by (rewrite (wf_strides HW); symmetry; exact A2).
    unfold strides_small in HS. clear -HS HO L. revert xs HO L. induction HS as [|s st H1 H2 IH]; intros [|x xs] HO L; try discriminate; constructor.
    + inversion HO as [|? ? P1 P2]; subst. rewrite Z.abs_mul, P1. lia.
    + apply IH; [now inversion HO|]. cbn in L. lia.
  - left. destruct (@v_view_ok v xs HW A1 HM A2 OK) as (v' & E & D & _). rewrite <- D. now apply HV.
Qed.

Theorem x_run_plain dbg n v0 os : forall v, 0 <= n -> 2 * n <= isize_max -> chain_inv n v0 v -> 0 < prodZ (v_dims v) ->
  strides_small (v_map v) -> run_args v os -> run_plain v os -> x_run dbg v os = v_run v os.
Proof.
  induction os as [|o os IH]; intros v HN H2 HC P HS HA HR; [reflexivity|]. cbn [run_args run_plain x_run v_run] in *.
  destruct HA as [A1 A2]. destruct HR as (R1 & R2).
  assert (NU : 0 <= n <= usize_max) by (unfold isize_max, usize_max in *; lia).
  pose proof (valid_gentle (ci_valid HC) H2 P HS) as HG. destruct (chain_facts NU HC) as (HW & _).
  assert (RO : op_room v o). { apply plain_room; auto; [apply HC|]. intros v' E. now apply R2. }
  rewrite x_step_fit; auto; [|apply (@valid_near n); [apply HC|lia]].
  destruct (v_step v o) as [v'| | |] eqn:E; try reflexivity. cbn [bind]. destruct (R2 v' eq_refl) as [P' R3]. apply IH; auto.
  - exact (v_step_inv NU HC A1 E).
  - refine (@v_step_strides n v0 v o v' _ HC HG P HS A1 RO E P'). lia.
Qed.

(** ** Element access *)

Lemma x_get_fit T dbg (mem : list T) v idx n : valid_view n v -> n <= isize_max -> Forall (fun i => 0 <= i) idx ->
  x_get dbg mem v idx = v_get mem v idx.
Proof.
  intros HV HN HI. pose proof (vv_wf HV) as HW. unfold x_get, v_get, x_index_multi, slice_index_multi.
  destruct (Nat.eqb_spec (length idx) (m_rank (v_map v))) as [L|L]; [|reflexivity]. cbn [assert bind].
  destruct (@index_in_bounds_spec idx (m_dims (v_map v)) L HI) as [[E B]|[E B]]; rewrite E; [|reflexivity]. cbn [bind].
  assert (P : 0 < prodZ (v_dims v)) by (apply prodZ_pos; exact (in_bounds_positive B)).
  rewrite x_offset_fit; auto; [exact (valid_roomy HV HN P)|exact (valid_near HV HN)].
Qed.

Lemma x_prod_zero dbg dims : forall acc, In 0 dims \/ acc = 0 -> x_prod dbg acc dims = Panic \/ x_prod dbg acc dims = Ok 0.
Proof.
  induction dims as [|d dims IH]; intros acc H; cbn [x_prod].
  - destruct H as [[]| ->]. now right.
  - destruct (tame_u dbg (acc * d)) as [E|[a E]]; rewrite E; [now left|]. cbn [bind]. apply IH.
    destruct H as [[H|H]|H]; [right|now left|right]; subst; revert E; rewrite ?Z.mul_0_r, ?Z.mul_0_l; rewrite u_res_fit by (unfold is_usize, usize_max; lia); now injection 1.
Qed.

Lemma x_get_linear_fit T dbg (mem : list T) v k n : valid_view n v -> n <= isize_max -> 0 <= k ->
  x_get_linear dbg mem v k = v_get_linear mem v k.
Proof.
  intros HV HN HK. pose proof (vv_wf HV) as HW. pose proof (wf_nonneg HW) as NN. unfold x_get_linear, v_get_linear, x_index_linear, slice_index_linear.
  unfold m_len. rewrite sh_len_prod. destruct (Z.eq_dec (prodZ (m_dims (v_map v))) 0) as [Z0|Z0].
  - rewrite Z0. replace (k >=? 0) with true by lia. cbn [negb assert bind].
    apply (prodZ_zero_iff NN) in Z0. destruct (@x_prod_zero dbg (m_dims (v_map v)) 1 (or_introl Z0)) as [E|E]; unfold x_len; rewrite E; [reflexivity|].
    cbn [bind]. replace (k >=? 0) with true by lia. reflexivity.
  - assert (P : 0 < prodZ (v_dims v)) by (pose proof (prodZ_nonneg NN); unfold v_dims; lia).
    pose proof (valid_roomy HV HN P) as R. rewrite x_len_fit; [|exact NN|now apply roomy_usize]. cbn [bind].
    destruct (Z.geb_spec k (prodZ (m_dims (v_map v)))); [reflexivity|]. cbn [negb assert bind].
    rewrite x_linear_offset_fit; auto; [exact (valid_near HV HN)|]. unfold m_len. rewrite sh_len_prod. lia.
Qed.

(** ** Starting from a valid view *)

Lemma x_prod_release dims : forall acc, is_usize acc -> x_prod false acc dims = Ok (as_usize (acc * prodZ dims)).
Proof.
  induction dims as [|d dims IH]; intros acc HA; cbn [x_prod].
  - change (prodZ []) with 1. rewrite Z.mul_1_r, as_usize_fit by exact HA. reflexivity.
  - assert (E : u_res false (acc * d) = Ok (as_usize (acc * d))).
    { unfold u_res. destruct (u_fits (acc * d)) eqn:F; [|reflexivity]. rewrite as_usize_fit; [reflexivity|].
      unfold u_fits in F. unfold is_usize. lia. }
    rewrite E. cbn [bind]. rewrite IH.
    + rewrite prodZ_cons. f_equal. unfold as_usize. rewrite Z.mul_mod_idemp_l by lia. f_equal. lia.
    + unfold is_usize, as_usize, usize_max. pose proof (Z.mod_pos_bound (acc * d) (2 ^ 64)). lia.
Qed.
Lemma x_len_release dims : Forall is_usize dims -> prodZ dims <= usize_max -> x_len false dims = Ok (prodZ dims).
Proof.
  intros HU HB. unfold x_len. rewrite x_prod_release by (unfold is_usize, usize_max; lia). rewrite Z.mul_1_l, as_usize_fit; [reflexivity|].
  split; [|exact HB]. apply prodZ_nonneg. eapply Forall_impl; [|exact HU]. unfold is_usize. cbn beta. lia.
Qed.

Lemma valid_chain n v : valid_view n v -> 2 * n <= isize_max -> 0 < prodZ (v_dims v) -> 0 <= n /\ chain_inv n v v.
Proof.
  intros HV Hn P.
  assert (N0 : 0 <= n).
  { destruct (Z.le_gt_cases 0 n); auto. exfalso. pose proof (prodZ_pos_inv (wf_nonneg (vv_wf HV)) P) as PP.
    pose proof (vv_range HV (in_bounds_zeros PP)). lia. }
  split; auto. constructor; auto.
  - assert (HR : roomy (v_dims v)) by (apply (valid_roomy HV); auto; lia).
    apply Forall_forall. intros y Hy. apply (In_nth _ _ 0) in Hy. destruct Hy as (j & _ & <-).
    pose proof (@roomy_nth _ j HR). unfold isize_max, usize_max in *. lia.
  - exists (fun idx => idx). intros idx HI. auto.
Qed.

Lemma x_step_valid dbg n v o : valid_view n v -> 2 * n <= isize_max -> 0 < prodZ (v_dims v) -> strides_small (v_map v) ->
  op_arg v o -> op_room v o -> x_step dbg v o = v_step v o.
Proof.
  intros HV Hn P HS HA HR. destruct (valid_chain HV Hn P) as [N0 _].
  apply x_step_fit; auto; [apply (vv_wf HV)|apply (valid_near HV); lia|apply (valid_gentle HV); auto].
Qed.
Lemma x_run_valid dbg n v os : valid_view n v -> 2 * n <= isize_max -> 0 < prodZ (v_dims v) -> strides_small (v_map v) ->
  run_args v os -> run_room v os -> x_run dbg v os = v_run v os.
Proof. intros HV Hn P HS HA HR. destruct (valid_chain HV Hn P) as [N0 HC]. apply (@x_run_fit dbg n v); auto. Qed.
Lemma x_run_plain_valid dbg n v os : valid_view n v -> 2 * n <= isize_max -> 0 < prodZ (v_dims v) -> strides_small (v_map v) ->
  run_args v os -> run_plain v os -> x_run dbg v os = v_run v os.
Proof. intros HV Hn P HS HA HR. destruct (valid_chain HV Hn P) as [N0 HC]. apply (@x_run_plain dbg n v); auto. Qed.

Lemma x_whole dbg ty dims :
  nonneg dims -> typed ty dims -> ty_wf ty -> roomy dims ->
  (forall a i, usize i -> x_axis_at dbg (whole ty dims) a i = v_axis_at (whole ty dims) a i) /\
  (forall a i, usize i -> x_split_axis_at dbg (whole ty dims) a i = v_split_axis_at (whole ty dims) a i) /\
  (forall p perm, (length dims < 64)%nat -> Forall usize perm -> x_v_permute dbg (whole ty dims) p perm = v_permute (whole ty dims) p perm) /\
  x_v_reorder dbg (whole ty dims) = v_reorder (whole ty dims) /\
  (forall l t, x_v_remap dbg (whole ty dims) l t = v_remap (whole ty dims) l t) /\
  (forall t req, 0 < prodZ dims -> Forall usize req -> ty_of_len t (length req) ->
     x_v_reshape dbg (whole ty dims) t req = v_reshape (whole ty dims) t req).
Proof.
  intros HN HT HW HR.
  assert (W : wf_map (v_map (whole ty dims))). { constructor; cbn [whole v_map m_dims m_ty m_strides]; auto. apply row_major_length. }
  assert (G : gentle (v_map (whole ty dims))) by (now apply gentle_dense).
  split; [intros a i [Hi _]; now apply x_axis_at_fit|].
  split; [intros a i [Hi _]; now apply x_split_fit|].
  split. { intros p perm HL HP. apply x_v_permute_fit; auto. eapply Forall_impl; [|exact HP]. intros q [Hq _]. exact Hq. }
  split; [now apply x_v_reorder_fit|]. split; [intros; now apply x_v_remap_fit|].
  intros t req P HU [_ HL]. apply x_v_reshape_fit; auto. eapply Forall_impl; [|exact HU]. intros q [Hq _]. exact Hq.
Qed.

Lemma x_permute_rejects dbg v p perm :
  wf_map (v_map v) -> roomy (v_dims v) -> (length (v_dims v) < 64)%nat -> Forall usize perm -> perm_matches p perm ->
  (x_v_permute dbg v p perm = Panic <-> ~ perm_of (length (v_dims v)) perm).
Proof.
  intros HW HR HL HU HP.
  assert (H0 : Forall (fun q => 0 <= q) perm) by (eapply Forall_impl; [|exact HU]; intros q [Hq _]; exact Hq).
  rewrite x_v_permute_fit by auto. now apply permute_panic_iff.
Qed.
Lemma x_v_permute_debug v perm : (64 <= length (v_dims v))%nat -> x_v_permute true v PermDyn perm = Panic.
Proof. intros H. unfold x_v_permute. cbn. rewrite x_permute_debug; auto. Qed.
Lemma wide_dynrank v : wf_map (v_map v) -> (7 <= length (v_dims v))%nat -> v_ty v = SDynRank.
Proof.
  intros HW H. pose proof (wf_ty HW) as T. pose proof (wf_typed HW) as F. unfold v_ty, v_dims in *.
  destruct (m_ty (v_map v)); [reflexivity|]. cbn in T, F. apply Forall2_len in F. lia.
Qed.
Lemma x_v_permute_wide v perm :
  wf_map (v_map v) -> roomy (v_dims v) -> (64 <= length (v_dims v))%nat -> Forall usize perm ->
  (wide_ok (length (v_dims v)) perm /\ exists v', x_v_permute false v PermDyn perm = Ok v') \/
  (~ wide_ok (length (v_dims v)) perm /\ x_v_permute false v PermDyn perm = Panic).
Proof.
  intros HW HR HK HU. assert (H0 : Forall (fun q => 0 <= q) perm) by (eapply Forall_impl; [|exact HU]; intros q [Hq _]; exact Hq).
  unfold x_v_permute. rewrite (wide_dynrank HW) by lia. cbn [perm_arg_layout perm_arg_shape sh_dyn].
  destruct (@x_permute_wide (v_map v) perm (wf_nonneg HW) HR HK H0) as [[H (m' & E)]|[H E]]; [left|right]; (split; [exact H|]).
  - rewrite E. cbn [bind]. eauto.
  - now rewrite E.
Qed.
