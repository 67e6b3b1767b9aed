(** Lemmas for C81 and C82: programs of the reference interpreter with machine integers. *)
From Verif Require Import Base Spec SpecFacts Shape Mapping Index View Wf MappingFacts MapOps ReshapeFacts.
From Verif Require Import IndexFacts ViewFacts ViewMore Expr ExprSpec ExprFacts IterFacts SourceFacts ExprTree ExprMore.
From Verif Require Import Tensor TraceFacts TensorSpec TensorFacts ResizeFacts TensorOps DrainFacts OwnFacts ZipFacts OpsFacts OpsMore History HistoryFacts OwnProps.
From Verif Require Import Program ProgramFacts Machine MachineSpec MachineFacts MachineViews MachineRun MachineWrap MachineSteps MachineIter MachineSources.
From Verif Require Import PropsView PropsExpr PropsTensor PropsProgram PropsMachine PropsWrap PropsMachineIter PropsMachineTensor.
From Verif Require Import MachineTensor MachineTensorFacts MachineTensorMore MachineTensorRun MachineProgram MachineProgramFacts PropsMachineProgram.
From Verif Require Import Select SelectFacts PropsSelect Refer ReferFacts ReferRoom ReferRoomFacts ReferMachine.
Unset Strict Implicit.

(** ** Views *)

Lemma x_run_any n os : forall v, 0 <= n <= isize_max -> valid_view n v -> Forall (fun d => d <= usize_max) (v_dims v) -> run_wide v os ->
  forallb any_layout os = true -> x_run false (wrapv v) os = omap wrapv (v_run v os).
Proof.
  intros v HN. assert (HU : 0 <= n <= usize_max) by (unfold isize_max, usize_max in *; lia). revert v.
  induction os as [|o os IH]; intros v HV HD HR HL; [reflexivity|]. cbn [x_run v_run forallb run_wide] in *.
  apply andb_true_iff in HL as [H1 H2]. destruct HR as [HO HR].
  rewrite (@x_step_wrap n v o) by (auto; destruct o as [| | | | | | | |l| | |]; auto; try discriminate; destruct l; try discriminate; now left).
  destruct (v_step v o) as [v1| | |] eqn:E; try reflexivity. cbn [omap bind].
  destruct (step_valid HU HV HD (proj1 HO) E) as (V1 & D1 & _). now apply IH; auto.
Qed.

Lemma wide_chain n os : forall v, 0 <= n <= usize_max -> valid_view n v -> Forall (fun d => d < usize_max) (v_dims v) -> (length (v_dims v) < 64)%nat ->
  chain_given (v_dims v) os -> forallb any_layout os = true -> isize_args os -> run_wide v os.
Proof.
  induction os as [|o os IH]; intros v HU HV HD HR HG HL HI; [exact I|]. cbn [run_wide chain_given forallb] in *.
  apply andb_true_iff in HL as [H1 H2]. destruct HG as [G1 G2]. inversion HI as [|? ? I1 I2]; subst.
  assert (HD' : Forall (fun d => d <= usize_max) (v_dims v)) by (eapply Forall_impl; [|exact HD]; cbn; lia).
  pose proof (proj1 (given_arg v o) G1) as A.
  split.
  - split; [exact A|]. destruct o; auto.
  - intros v' E. destruct (step_valid HU HV HD' A E) as (V1 & D1 & _).
    destruct (step_index (vv_wf HV) HD' G1 E) as (F & D & _).
    destruct (@op_dims_small (v_dims v) o (wf_nonneg (vv_wf HV)) HD G1 F H1) as [S1 S2].
    apply IH; auto; rewrite D; auto. lia.
Qed.

(** The views of a program. *)
Record x_viewed (dbg : bool) {T} (t : tensor T) (ops : list vop) (v : view) : Prop := {
  xv_run : x_run dbg (whole (tn_ty t) (tn_dims t)) ops = Ok (wrapv v);
  xv_machine : machine_view (zlen (tn_mem t)) (wrapv v);
  xv_same : same_view (wrapv v) v;
  xv_valid : valid_view (zlen (tn_mem t)) v;
  xv_exact : v_run (whole (tn_ty t) (tn_dims t)) ops = Ok v;
  xv_dims : v_dims v = chain_dims (tn_dims t) ops;
  xv_fits : chain_fits (tn_dims t) ops;
  xv_calm : dbg = true -> Forall (fun s => s <> isize_min) (m_strides (v_map (wrapv v)))
}.

Lemma x_views dbg {T} (t : tensor T) ops : tensor_ok t -> small dbg t -> views (as_arr t) ops -> isize_args ops ->
  (dbg = true -> calm (as_arr t) ops) ->
  run_wide (whole (tn_ty t) (tn_dims t)) ops /\
  ((x_run dbg (whole (tn_ty t) (tn_dims t)) ops = Panic /\ v_run (whole (tn_ty t) (tn_dims t)) ops = Panic) \/
   exists v, x_viewed dbg t ops v).
Proof.
  intros Ht HS HW HI HQ. destruct (tensor_machine Ht HS) as [HN HM].
  assert (HU : 0 <= zlen (tn_mem t) <= usize_max) by (unfold isize_max, usize_max in *; lia).
  pose proof HW as (W1 & W2 & W3 & W4 & W5). cbn [as_arr a_dims a_els] in *.
  pose proof (mv_valid HM) as HV.
  assert (WD : run_wide (whole (tn_ty t) (tn_dims t)) ops) by (apply (@wide_chain _ ops (whole (tn_ty t) (tn_dims t)) HU HV); auto).
  split; [exact WD|].
  pose proof (@x_run_any _ ops _ HN HV (mv_dims HM) WD W5) as E. rewrite (machine_wrap HM) in E.
  destruct (views_run Ht HW) as [_ [(EP & _ & _)|(v & EV & _ & F & D & V & _)]].
  - left. rewrite EP in E. cbn [omap] in E. split; [|exact EP]. destruct (@MachineSteps.le_run dbg ops (whole (tn_ty t) (tn_dims t))) as [L|(x & L1 & L2)]; [exact L|rewrite L2 in E; discriminate E].
  - right. exists v. rewrite EV in E. cbn [omap] in E.
    destruct (@run_index _ ops _ v HU HV (mv_dims HM) W4 EV) as (_ & _ & _ & DV & _).
    constructor; auto; [|apply wrap_machine; auto; lia|apply (@wrap_same (zlen (tn_mem t))); auto; lia|].
    + destruct dbg; [|exact E]. exact (proj1 (HQ eq_refl _ E)).
    + intros ->. exact (proj2 (HQ eq_refl _ E)).
Qed.

(** ** Operands *)

Lemma produce_same {S A} (f g : list Z -> S -> outcome (A * S)) l : (forall idx s, In idx l -> f idx s = g idx s) ->
  forall s, produce f l s = produce g l s.
Proof.
  induction l as [|i l IH]; intros H s; [reflexivity|]. cbn [produce]. rewrite (H i s (or_introl eq_refl)).
  destruct (g i s) as [[a s']| | |]; auto. rewrite IH; auto. intros idx s0 I. apply H. now right.
Qed.

Lemma lent_same {T} (t : tensor T) a b idx s : same_view a b -> in_bounds (v_dims b) idx -> t_act (lent t a) idx s = t_act (lent t b) idx s.
Proof.
  intros S B. unfold lent. cbn [t_act]. unfold fun_action, pure_action. cbn [bind]. rewrite (sv_addr S); [reflexivity|]. now rewrite (sv_dims S).
Qed.

Record x_lent (dbg : bool) {T C} (st : state T C) (j : nat) (ops : list vop) (t : tensor T) (v : view) : Prop := {
  xl_exact : lent_ok st j ops t v;
  xl_view : x_viewed dbg t ops v;
  xl_small : small dbg t;
  xl_build : x_build dbg (lent t (wrapv v)) = Ok (x_operand dbg st j ops);
  xl_cells : zlen (tn_mem t) <= isize_max
}.

Lemma x_lends dbg {T C} (st : state T C) l i j ops : consistent st l -> small_state dbg st -> lends i j ops (seen st) -> isize_args ops ->
  (dbg = true -> forall a, rvar (seen st) j = Some a -> calm a ops) ->
  exists t v, x_lent dbg st j ops t v.
Proof.
  intros HC HS HL HI HQ. destruct (lends_ok HC HL) as (t & v & LO). exists t, v. pose proof (var_small HS (le_var LO)) as HSt.
  assert (HQ' : dbg = true -> calm (as_arr t) ops) by (intros E; apply (HQ E); now rewrite rvar_seen, (le_var LO)).
  destruct HL as (_ & b & EB & HW & HF). rewrite rvar_seen, (le_var LO) in EB. injection EB as <-.
  destruct (x_views (le_ok LO) HSt HW HI HQ') as [_ [[_ E]|(v' & XV)]]; [rewrite (le_run LO) in E; discriminate|].
  assert (v' = v) as -> by (pose proof (xv_exact XV) as E; rewrite (le_run LO) in E; congruence).
  constructor; auto.
  - cbn [lent x_build bind]. unfold x_operand. now rewrite (le_var LO), (xv_run XV).
  - apply (tensor_machine (le_ok LO) HSt).
Qed.

Lemma x_lent_items dbg {T C} (st : state T C) j ops t v dims : x_lent dbg st j ops t v -> goes_with dims (v_dims v) = true ->
  produce (bcast (length (v_dims v)) (t_act (lent t (wrapv v)))) (indices dims) tt = (operand_els (as_arr t) ops dims, Ok tt) /\
  length (operand_els (as_arr t) ops dims) = length (indices dims).
Proof.
  intros X G. destruct (le_items (xl_exact X) G) as [E L]. split; [|exact L]. rewrite <- E.
  apply produce_same. intros idx s I. unfold bcast. apply lent_same; [apply (xl_view X)|].
  apply (@operand_bounds _ dims (lent t v) idx); [now apply lent_fits|now apply in_indices].
Qed.

Lemma x_lent_walk dbg {T C} (st : state T C) j ops t v : x_lent dbg st j ops t v -> positive (v_dims v) ->
  t_leaves (lent t (wrapv v)) /\ t_machine dbg (fun _ => 0) (lent t (wrapv v)).
Proof.
  intros X HP. pose proof (xv_machine (xl_view X)) as M. cbn [lent t_leaves t_machine]. split; [apply M|].
  apply machine_walkable; auto; [apply (xl_cells X)|rewrite wrapv_dims; exact HP|exact (xv_calm (xl_view X))].
Qed.

Lemma x_lent_trace dbg {T C} (st : state T C) j ops u v : x_lent dbg st j ops u v -> positive (v_dims v) ->
  x_trace dbg (x_operand dbg st j ops) = (view_els (as_arr u) ops, Ok tt).
Proof.
  intros X PV. pose proof (xl_exact X) as LO. destruct (x_lent_walk X PV) as [W1 W2].
  destruct (x_build_cases W1 W2) as [(_ & e1 & B1 & B2)|(_ & B1)]; rewrite (xl_build X) in B1; [injection B1 as <-|discriminate].
  rewrite (x_tree_trace W1 W2 B2) by (cbn; lia).
  change (t_dims (lent u (wrapv v))) with (v_dims (wrapv v)). change (t_init (lent u (wrapv v))) with tt. rewrite wrapv_dims.
  rewrite (@produce_same _ _ (t_act (lent u (wrapv v))) (t_act (lent u v))); [|intros idx s I; apply lent_same; [apply (xl_view X)|now apply in_indices]].
  pose proof (le_all LO) as LA.
  match goal with |- (let (_, _) := ?X in _) = _ => change X with (produce (t_act (lent u v)) (indices (v_dims v)) tt) end.
  now rewrite LA.
Qed.

(** ** Zips *)

Lemma dense_calm n v : machine_view n v -> n <= isize_max -> v_layout v = Dense -> positive (v_dims v) ->
  Forall (fun s => s <> isize_min) (m_strides (v_map v)).
Proof.
  intros HM HN EL HP. pose proof (mv_valid HM) as HV.
  assert (N0 : 0 <= n) by (pose proof (vv_range HV (IterFacts.in_bounds_zeros HP)); lia).
  pose proof (valid_len N0 HV) as VL. fold (v_dims v) in VL.
  assert (HR : MachineSpec.roomy (m_dims (v_map v))) by (unfold MachineSpec.roomy; rewrite mx_positive by exact HP; unfold v_dims in VL; lia).
  pose proof (dense_strides EL (wf_nonneg (vv_wf HV)) HR) as SS. unfold strides_small in SS.
  eapply Forall_impl; [|exact SS]. cbn beta. intros s Hs. unfold isize_min, isize_max in *. lia.
Qed.

Lemma positive_fits dims : positive dims -> prodZ dims <= usize_max -> fits dims.
Proof.
  intros HP HL k. rewrite <- (firstn_skipn k dims) in HP, HL. rewrite prodZ_app in HL. apply Forall_app in HP as [P1 P2].
  apply prodZ_pos in P1, P2. nia.
Qed.

Lemma addrs_same v : forall l, (forall idx, In idx l -> in_bounds (v_dims v) idx) -> same_view (wrapv v) v ->
  map (v_addr (wrapv v)) l = map (v_addr v) l.
Proof. intros l H S. apply map_ext_in. intros idx I. apply (sv_addr S). rewrite (sv_dims S). now apply H. Qed.

Lemma x_zip_views dbg {T C} (st : state T C) j ops u v n v1 : x_lent dbg st j ops u v -> 0 <= n <= isize_max ->
  valid_view n v1 -> machine_view n (wrapv v1) -> same_view (wrapv v1) v1 -> positive (v_dims v1) ->
  (dbg = true -> Forall (fun s => s <> isize_min) (m_strides (v_map (wrapv v1)))) ->
  (e_zip (e_view n false v1) (operand st j ops) = Panic /\ e_zip (x_e_view dbg n false (wrapv v1)) (x_operand dbg st j ops) = Panic) \/
  (exists z z', e_zip (e_view n false v1) (operand st j ops) = Ok z /\
     e_zip (x_e_view dbg n false (wrapv v1)) (x_operand dbg st j ops) = Ok z' /\ x_trace dbg z' = e_trace z).
Proof.
  intros X HN HV HM HS HP HQ. pose proof (xl_exact X) as LO.
  assert (HW : walkable dbg n (wrapv v1)) by (apply machine_walkable; auto; [lia|rewrite wrapv_dims; exact HP]).
  destruct (goes_with (v_dims v1) (v_dims v)) eqn:G.
  - assert (OF : operand_fits (v_dims v1) (lent u v)) by now apply lent_fits.
    assert (OF' : operand_fits (v_dims (wrapv v1)) (lent u (wrapv v))) by (apply lent_fits; now rewrite !wrapv_dims).
    assert (PV : positive (v_dims v)) by exact (fits_positive OF HP).
    destruct (x_lent_walk X PV) as [L1 L2].
    destruct (@view_with_tree _ n v1 (lent u v) _ HV (le_valid LO) (le_op LO)) as [[F _]|(_ & z & EZ & ET)]; [contradiction|].
    destruct (@exact_with_tree dbg _ n (wrapv v1) (lent u (wrapv v)) _ (fun _ => 0) HW L1 L2 (xl_build X)) as [[F _]|(_ & z' & EZ' & ET')]; [cbn; lia|contradiction|].
    right. exists z, z'. split; [exact EZ|]. split; [exact EZ'|].
    specialize (ET (lent_fine n HP OF)).
    change (t_init (lent u v)) with tt in ET. change (t_init (lent u (wrapv v))) with tt in ET'.
    change (t_dims (lent u v)) with (v_dims v) in ET. change (t_dims (lent u (wrapv v))) with (v_dims (wrapv v)) in ET'.
    rewrite !wrapv_dims in ET'. rewrite (proj1 (le_items LO G)) in ET. rewrite (proj1 (x_lent_items X G)) in ET'.
    rewrite ET, ET'. rewrite addrs_same; auto. intros idx I. now apply in_indices.
  - assert (NF : ~ operand_fits (v_dims v1) (lent u v)) by (intros F; apply lent_fits in F; congruence).
    left. split.
    + destruct (@view_with_tree _ n v1 (lent u v) _ HV (le_valid LO) (le_op LO)) as [[_ E]|(F & _)]; [exact E|contradiction].
    + pose proof (xl_build X) as XB. cbn [lent x_build bind] in XB. injection XB as XB. rewrite <- XB.
      set (e := e_copied _ _).
      destruct (@zip_cases _ _ (x_e_view dbg n false (wrapv v1)) e) as [[Z _]|[_ E]]; [exact (wf_typed (vv_wf (mv_valid HM)))| | |exact E].
      * unfold e, e_copied, e_map. cbn [e_ty e_dims x_e_view]. exact (wf_typed (vv_wf (mv_valid (xv_machine (xl_view X))))).
      * exfalso. apply NF. destruct Z as (Z1 & Z2 & _). unfold e, e_copied, e_map, e_rank in Z1, Z2. cbn [e_dims e_rep x_e_view] in Z1, Z2.
        rewrite !wrapv_dims in Z1, Z2. split; [exact Z1|]. cbn [lent t_dims t_rep]. split; [|now left].
        destruct Z2 as [Z2|Z2]; [discriminate|exact Z2].
Qed.

Lemma x_two_views dbg n v1 v2 : 0 <= n <= isize_max ->
  valid_view n v1 -> machine_view n (wrapv v1) -> same_view (wrapv v1) v1 -> positive (v_dims v1) ->
  valid_view n v2 -> machine_view n (wrapv v2) -> same_view (wrapv v2) v2 ->
  (dbg = true -> Forall (fun s => s <> isize_min) (m_strides (v_map (wrapv v1)))) ->
  (dbg = true -> Forall (fun s => s <> isize_min) (m_strides (v_map (wrapv v2)))) ->
  (e_zip (e_view n false v1) (e_view n true v2) = Panic /\
   e_zip (x_e_view dbg n false (wrapv v1)) (x_e_view dbg n true (wrapv v2)) = Panic) \/
  (exists z z', e_zip (e_view n false v1) (e_view n true v2) = Ok z /\
     e_zip (x_e_view dbg n false (wrapv v1)) (x_e_view dbg n true (wrapv v2)) = Ok z' /\ x_trace dbg z' = e_trace z).
Proof.
  intros HN V1 M1 S1 HP V2 M2 S2 Q1 Q2.
  assert (HP' : positive (v_dims (wrapv v1))) by (rewrite wrapv_dims; exact HP).
  assert (EO : operand_fits (v_dims (wrapv v1)) (TView n true (wrapv v2)) <-> operand_fits (v_dims v1) (TView n true v2))
    by (unfold operand_fits; cbn [t_dims t_rep]; now rewrite !wrapv_dims).
  destruct (@two_views dbg n (wrapv v1) (wrapv v2) M1 M2 (proj2 HN) HP') as [[NF E']|(F & z' & E' & HW & HC)];
    destruct (@view_with_tree _ n v1 (TView n true v2) (e_view n true v2) V1 V2 eq_refl) as [[NF1 E]|(F1 & z & E & ET)]; try (exfalso; tauto).
  - left. auto.
  - right. exists z, z'. split; [exact E|]. split; [exact E'|].
    assert (HF : t_fine (with_target n v1 (TView n true v2))) by (apply nonempty_fine; [|reflexivity]; rewrite with_target_dims by exact F1; exact HP).
    specialize (ET HF). cbn [t_dims t_act t_init] in ET.
    assert (EP : forall l, produce (bcast (length (v_dims v2)) (pure_action (v_addr v2))) l tt = (map (fun idx => v_addr v2 (lastn (length (v_dims v2)) idx)) l, Ok tt)).
    { induction l as [|i l IH]; cbn [produce map]; auto. unfold bcast at 1, pure_action at 1. now rewrite IH. }
    match type of ET with (let (_, _) := ?X in _) => change X with (produce (bcast (length (v_dims v2)) (pure_action (v_addr v2))) (indices (v_dims v1)) tt) in ET end.
    rewrite EP in ET. cbn [done] in ET. rewrite ET.
    destruct HC as [HC|(_ & HC & _)].
    2:{ rewrite HW in HC; [discriminate HC| |]; (apply machine_walkable; auto; try lia); rewrite wrapv_dims; exact (fits_positive F1 HP). }
    rewrite HC, !wrapv_dims.
    rewrite addrs_same by (auto; intros idx I; now apply in_indices).
    rewrite (map_ext_in (fun idx => v_addr (wrapv v2) (lastn (length (v_dims v2)) idx)) (fun idx => v_addr v2 (lastn (length (v_dims v2)) idx))); [reflexivity|].
    intros idx I. apply in_indices in I. apply (sv_addr S2). rewrite (sv_dims S2). exact (operand_bounds F1 I).
Qed.

(** ** Calls *)
Section Calls.
  Context (dbg : bool) {T C : Type} (al : allocator).

  Lemma x_zip_with_lent (st : state T C) j ops u v (t : tensor T) (w : world T C) f :
    x_lent dbg st j ops u v -> tensor_ok t -> small dbg t -> positive (tn_dims t) ->
    xt_zip_with dbg (x_operand dbg st j ops) f t w = xt_zip_with dbg (operand st j ops) f t w.
  Proof.
    intros X Ht HS HP. destruct (tensor_machine Ht HS) as [HN HM].
    assert (EW : wrapv (whole (tn_ty t) (tn_dims t)) = whole (tn_ty t) (tn_dims t)) by exact (machine_wrap HM).
    assert (SW : same_view (whole (tn_ty t) (tn_dims t)) (whole (tn_ty t) (tn_dims t))) by apply same_refl.
    pose proof (@x_zip_views dbg T C st j ops u v (zlen (tn_mem t)) (whole (tn_ty t) (tn_dims t)) X HN (mv_valid HM)) as H.
    rewrite EW in H. assert (HQ : dbg = true -> Forall (fun s => s <> isize_min) (m_strides (v_map (whole (tn_ty t) (tn_dims t))))).
    { intros _. exact (dense_calm HM (proj2 HN) eq_refl HP). }
    destruct (H HM SW HP HQ) as [[E E']|(z & z' & E & E' & ET)]; unfold xt_zip_with; rewrite E'.
    - now rewrite (@zip_refused dbg _ _ _ _ E).
    - destruct (@zip_shape dbg _ _ _ _ _ E) as [_ EZ]. rewrite EZ, ET.
      rewrite (zip_trace Ht HS E); [reflexivity|]. intros E0. apply prodZ_pos in HP. lia.
  Qed.

  Lemma x_edit_zip_lent (st : state T C) j ops ops' u v (t : tensor T) (w : world T C) h :
    x_lent dbg st j ops' u v -> tensor_ok t -> small dbg t -> views (as_arr t) ops -> isize_args ops ->
    (chain_fits (tn_dims t) ops -> positive (chain_dims (tn_dims t) ops)) -> (dbg = true -> calm (as_arr t) ops) ->
    x_edit_zip dbg ops (x_operand dbg st j ops') h (t, w) = tn_edit_zip ops (operand st j ops') h (t, w).
  Proof.
    intros X Ht HS HW HI HP HQ. destruct (tensor_machine Ht HS) as [HN _].
    unfold x_edit_zip, tn_edit_zip, tn_visit. cbn [fst].
    destruct (x_views Ht HS HW HI HQ) as [_ [[E' E]|(v1 & XV)]].
    - now rewrite E', E.
    - rewrite (xv_run XV), (xv_exact XV). cbn [bind].
      destruct (@x_zip_views dbg T C st j ops' u v (zlen (tn_mem t)) v1 X HN (xv_valid XV) (xv_machine XV) (xv_same XV)) as [[E E']|(z & z' & E & E' & ET)].
      + rewrite (xv_dims XV). apply HP, (xv_fits XV).
      + exact (xv_calm XV).
      + now rewrite E, E'.
      + now rewrite E, E', ET.
  Qed.

  (** The two views of a pair of halves are made one after the other. *)
  Lemma x_pair {A} v ops a mid ops1 ops2 (f : view -> view -> outcome A) :
    (let* v := x_run dbg v ops in
     let* (x, y) := x_split_axis_at dbg v a mid in
     let* x := x_run dbg x ops1 in
     let* y := x_run dbg y ops2 in f x y) =
    (let* x := x_run dbg v (ops ++ OpSplitFst a mid :: ops1) in
     let* y := x_run dbg v (ops ++ OpSplitSnd a mid :: ops2) in f x y).
  Proof.
    rewrite !x_run_app. destruct (x_run dbg v ops) as [u| | |]; try reflexivity. cbn [bind x_run x_step].
    destruct (x_split_axis_at dbg u a mid) as [[x y]| | |]; reflexivity.
  Qed.
  Lemma v_pair {A} v ops a mid ops1 ops2 (f : view -> view -> outcome A) :
    (let* v := v_run v ops in
     let* (x, y) := v_split_axis_at v a mid in
     let* x := v_run x ops1 in
     let* y := v_run y ops2 in f x y) =
    (let* x := v_run v (ops ++ OpSplitFst a mid :: ops1) in
     let* y := v_run v (ops ++ OpSplitSnd a mid :: ops2) in f x y).
  Proof.
    rewrite !v_run_app. destruct (v_run v ops) as [u| | |]; try reflexivity. cbn [bind v_run v_step].
    destruct (v_split_axis_at u a mid) as [[x y]| | |]; reflexivity.
  Qed.

  Lemma x_halves_same (t : tensor T) (w : world T C) ops a mid ops1 ops2 h :
    let p := ops ++ OpSplitFst a mid :: ops1 in let q := ops ++ OpSplitSnd a mid :: ops2 in
    tensor_ok t -> small dbg t -> views (as_arr t) p -> views (as_arr t) q -> isize_args ops -> isize_args ops1 -> isize_args ops2 ->
    (chain_fits (tn_dims t) p -> positive (chain_dims (tn_dims t) p)) ->
    (dbg = true -> calm (as_arr t) p /\ calm (as_arr t) q) ->
    x_edit_halves dbg ops a mid ops1 ops2 h (t, w) = tn_edit_halves ops a mid ops1 ops2 h (t, w).
  Proof.
    intros p q Ht HS W1 W2 I0 I1 I2 HP HQ. destruct (tensor_machine Ht HS) as [HN HM].
    assert (IP : isize_args p) by (apply Forall_app; split; [exact I0|constructor; [exact I|exact I1]]).
    assert (IQ : isize_args q) by (apply Forall_app; split; [exact I0|constructor; [exact I|exact I2]]).
    unfold x_edit_halves, tn_edit_halves. cbn [fst]. cbv zeta. rewrite x_pair, v_pair. fold p q.
    destruct (x_views Ht HS W1 IP (fun E => proj1 (HQ E))) as [_ [[E' E]|(v1 & X1)]]; [now rewrite E', E|].
    rewrite (xv_run X1), (xv_exact X1). cbn [bind].
    destruct (x_views Ht HS W2 IQ (fun E => proj2 (HQ E))) as [_ [[E' E]|(v2 & X2)]]; [now rewrite E', E|].
    rewrite (xv_run X2), (xv_exact X2). cbn [bind].
    assert (HP1 : positive (v_dims v1)) by (rewrite (xv_dims X1); apply HP, (xv_fits X1)).
    destruct (x_two_views HN (xv_valid X1) (xv_machine X1) (xv_same X1) HP1 (xv_valid X2) (xv_machine X2) (xv_same X2) (xv_calm X1) (xv_calm X2))
      as [[E E']|(z & z' & E & E' & ET)].
    - now rewrite E, E'.
    - now rewrite E, E', ET.
  Qed.

  Lemma x_expand_lent (st : state T C) l j ops u v (t : tensor T) (w : world T C) cl :
    al_machine al -> consistent st l -> x_lent dbg st j ops u v -> visits_right v -> tensor_ok t -> small dbg t ->
    (dbg = true -> fits (v_dims v)) ->
    tn_expand al (operand st j ops) cl (t, w) <> Fault ->
    xt_expand dbg al (x_operand dbg st j ops) cl (t, w) = tn_expand al (operand st j ops) cl (t, w) /\
    small_res dbg (tn_expand al (operand st j ops) cl (t, w)).
  Proof.
    intros HA HC X HV Ht HS HF NF. pose proof (xl_exact X) as LO. destruct (lent_collect LO HV) as (HH & ED & EC & EZ). cbv zeta in *.
    set (e := operand st j ops) in *.
    assert (EX : x_operand dbg st j ops = e_copied (read (tn_mem u)) (x_e_view dbg (zlen (tn_mem u)) true (wrapv v)))
      by (pose proof (xl_build X) as B; cbn [lent x_build bind] in B; congruence).
    set (e' := x_operand dbg st j ops) in *.
    assert (ED' : e_dims e' = e_dims e) by (rewrite EX, ED; unfold e_copied, e_map; cbn [e_dims x_e_view]; apply wrapv_dims).
    pose proof (mv_dims (xv_machine (xl_view X))) as DM. rewrite wrapv_dims, <- ED in DM.
    assert (HNN : nonneg (e_dims e)) by apply HH.
    assert (CN : counted dbg (e_dims e)).
    { split; [|intros EF; rewrite ED; exact (HF EF)]. rewrite ED. pose proof (valid_prod (proj1 (tensor_machine (le_ok LO) (xl_small X))) (le_valid LO)). lia. }
    pose proof (prodZ_nonneg HNN) as P0.
    destruct (Z.eq_dec (prodZ (e_dims e)) 0) as [E0|NE].
    - unfold xt_expand, tn_expand. pose proof (check_outer_spec t w) as EK.
      destruct (outer_ok t); [|rewrite !(seq_unwound _ EK); split; [reflexivity|exact HS]].
      rewrite !(seq_done _ EK), sh_len_prod, ED'. cbv zeta.
      rewrite (@seq_done _ _ _ (lift (x_len dbg (e_dims e))) _ _ (prodZ (e_dims e)) (t, w)) by (unfold lift; now rewrite (counted_len HNN CN)).
      rewrite E0. cbn. split; [reflexivity|exact HS].
    - assert (PV : positive (v_dims v)) by (apply prodZ_pos_inv; rewrite <- ED; [exact HNN|lia]).
      assert (MO : machine_operand dbg e).
      { split; [exact DM|]. split; [exact CN|].
        assert (E1 : prodZ (firstn (outer_rank e) (e_dims e)) * prodZ (skipn (outer_rank e) (e_dims e)) = prodZ (e_dims e)) by (rewrite <- prodZ_app; now rewrite firstn_skipn).
        assert (Q1 : 0 < prodZ (firstn (outer_rank e) (e_dims e))) by (apply prodZ_pos, Forall_firstn'; rewrite ED; exact PV).
        assert (Q2 : positive (skipn (outer_rank e) (e_dims e))) by (rewrite ED; rewrite <- (firstn_skipn (outer_rank e) (v_dims v)) in PV; now apply Forall_app in PV).
        pose proof (prodZ_pos Q2) as Q3. destruct CN as [CN _].
        assert (Q4 : prodZ (skipn (outer_rank e) (e_dims e)) <= usize_max) by nia. split; [exact Q4|]. intros _. now apply positive_fits. }
      destruct (@x_expand_ok dbg T C al t w HA Ht HS T e cl HNN MO NF) as [E1 E2]. split; [|exact E2]. rewrite <- E1.
      assert (ET : x_trace dbg e' = x_trace dbg e).
      { rewrite (x_trace_ok HNN MO). unfold e'. rewrite (x_lent_trace X PV). symmetry. now apply e_collect_trace. }
      unfold xt_expand, xt_clone_into_vec. now rewrite ED', ET.
  Qed.

  Lemma x_each (t : tensor T) (w : world T C) ops h : tensor_ok t -> small dbg t -> views (as_arr t) ops -> isize_args ops ->
    (dbg = true -> calm (as_arr t) ops) -> (chain_fits (tn_dims t) ops -> positive (chain_dims (tn_dims t) ops)) ->
    x_edit dbg ops h (t, w) = tn_edit ops h (t, w).
  Proof.
    intros Ht HS HW HI HQ HP0. destruct (tensor_machine Ht HS) as [HN _]. destruct (x_views Ht HS HW HI HQ) as [R [[E' E]|(v & XV)]].
    { unfold x_edit, tn_edit. cbn [fst]. now rewrite E', E. }
    assert (HP : positive (v_dims v)) by (rewrite (xv_dims XV); apply HP0, (xv_fits XV)). clear HP0.
    pose proof (xv_valid XV) as HV. pose proof (xv_same XV) as S. pose proof (xv_machine XV) as M. set (v' := wrapv v) in *.
    destruct (contents_exist HV) as [xs HC].
    assert (EA : forall idx, In idx (indices (v_dims v)) -> v_addr v' idx = v_addr v idx).
    { intros idx Hi. apply (sv_addr S). rewrite (sv_dims S). now apply in_indices. }
    assert (HC' : contents (tn_mem t) v' xs).
    { unfold contents in *. rewrite (sv_dims S). revert HC. clear - EA S.
      assert (G : forall idx, In idx (indices (v_dims v)) -> in_bounds (v_dims v) idx) by (intros; now apply in_indices).
      revert EA G. generalize (indices (v_dims v)) as l. intros l EA G H. induction H as [|idx x l xs HG H IH]; constructor.
      - rewrite v_get_in in * by (rewrite ?(sv_dims S); apply G; now left). rewrite EA by now left. exact HG.
      - apply IH; intros; [apply EA|apply G]; now right. }
    assert (HP' : positive (v_dims v')) by (rewrite (sv_dims S); exact HP).
    destruct (x_edit_eq h w (xv_run XV) M (proj2 HN) (or_intror HP') HC') as (k & all & K1 & K2 & ->).
    rewrite (edit_eq h w (xv_exact XV) HV (positive_visits HP) HC). destruct all.
    2:{ exfalso. apply (K2 eq_refl). apply machine_walkable; auto; [lia|exact (xv_calm XV)]. }
    rewrite firstn_all2 by auto. fold v'. rewrite (sv_dims S), (map_ext_in _ _ _ EA).
    destruct (edited _ _) as [[news c] b]. now rewrite andb_true_r.
  Qed.

  (** ** Steps *)

  Lemma x_none (k : act T C) (st : state T C) i : on k = Some i -> var st i = None ->
    x_exec dbg al (x_code dbg k st) st = Done tt st /\ exec al (code k st) st = Done tt st.
  Proof.
    intros EI EV. destruct k; cbn [on] in EI; try discriminate EI; injection EI as <-; cbn [x_code code x_exec x_op exec step];
      unfold on_var, consume; rewrite ?EV; auto.
    destruct (var st j); auto; unfold on_var; now rewrite EV.
  Qed.

  Lemma x_fixed (st : state T C) i (m m' : M (tensor T * world T C) unit) : small_state dbg st ->
    (forall t, var st i = Some t -> m (t, st_w st) = m' (t, st_w st) /\ keeps t (m (t, st_w st))) ->
    on_var i m st = on_var i m' st /\ sstate dbg (on_var i m' st).
  Proof.
    intros HS H. unfold on_var, sstate. destruct (var st i) as [t|] eqn:EV; [|auto]. destruct (H t eq_refl) as [E K].
    rewrite <- E. split; [reflexivity|]. destruct (var_small HS EV) as [S1 S2 S3].
    destruct (m (t, st_w st)) as [a [t' w']|[t' w']| |]; cbn [keeps] in K; auto; apply set_small; auto;
      destruct K as [K1 K2]; constructor; rewrite ?K1, ?K2; auto.
  Qed.

  Lemma x_act_same (k : act T C) (st : state T C) l : al_machine al -> consistent st l -> small_state dbg st ->
    act_ok k (seen st) -> m_act_ok k (seen st) -> (dbg = true -> calm_act k (seen st)) -> exec al (code k st) st <> Fault ->
    x_exec dbg al (x_code dbg k st) st = exec al (code k st) st /\ sstate dbg (exec al (code k st) st).
  Proof.
    intros HA HC HS HO HM HQ NF.
    assert (OWN : forall o, op_ok o st -> small_op dbg o st -> x_exec dbg al (Own o) st = exec al (Own o) st /\ sstate dbg (exec al (Own o) st))
      by (intros o H1 H2; exact (x_op_ok HA HC H1 H2 HS)).
    destruct (on k) as [i|] eqn:EI.
    2:{ destruct k; try discriminate EI; cbn [x_code code act_ok m_act_ok] in *; apply OWN; cbn [op_ok small_op]; auto; lia. }
    destruct (var st i) as [t|] eqn:EV.
    2:{ destruct (x_none EI EV) as [-> E]. rewrite E. split; [reflexivity|exact HS]. }
    pose proof (var_ok HC EV) as Ht. pose proof (var_small HS EV) as HSt. destruct (tensor_machine Ht HSt) as [HN _].
    assert (O1 : one_ok k (as_arr t) (seen st)).
    { destruct k; cbn [act_ok on] in *; try discriminate EI; injection EI as <-; rewrite rvar_seen, EV in HO; exact HO. }
    pose proof (one_code_ok HC EI EV O1) as CO.
    assert (FIX : forall m m' : M (tensor T * world T C) unit, m (t, st_w st) = m' (t, st_w st) -> keeps t (m (t, st_w st)) ->
      on_var i m st = on_var i m' st /\ sstate dbg (on_var i m' st)).
    { intros m m' E K. apply x_fixed; auto. intros t' E'. rewrite EV in E'. injection E' as <-. auto. }
    assert (EA : rvar (seen st) i = Some (as_arr t)) by now rewrite rvar_seen, EV.
    assert (HQ1 : dbg = true -> calm_one k (as_arr t) (seen st)) by (intros E; exact (HQ E i _ EI EA)). clear HQ. rename HQ1 into HQ.
    assert (EACH : forall ops h w, views (as_arr t) ops -> isize_args ops -> (dbg = true -> calm (as_arr t) ops) ->
      (chain_fits (tn_dims t) ops -> positive (chain_dims (tn_dims t) ops)) -> x_edit dbg ops h (t, w) = tn_edit (C := C) ops h (t, w))
      by (intros; now apply x_each).
    destruct k; cbn [on] in EI; try discriminate EI; injection EI as ->; cbn [x_code code cmd_ok one_ok m_act_ok calm_one] in *;
      try (apply OWN; [exact CO|cbn [small_op]; auto; (split; [exact HM|intros ED HP0 t' E'; rewrite EV in E'; injection E' as <-; exact (HQ ED HP0)])]).
    - (* expand *)
      cbn [x_exec x_op exec step] in *. destruct O1 as [HL HW]. destruct (x_lends HC HS HL HM (fun E => proj1 (HQ E))) as (u & v & X). pose proof (xl_exact X) as LO.
      assert (VR : visits_right v) by (eapply walked_visits; [apply LO|apply LO|apply HW; now rewrite rvar_seen, (le_var LO)]).
      apply on_var_same; auto. intros t' E' F. rewrite EV in E'. injection E' as <-.
      refine (x_expand_lent HA HC X VR Ht HSt _ F). intros ED. rewrite (xv_dims (xl_view X)).
      apply (proj2 (HQ ED) (as_arr u)). now rewrite rvar_seen, (le_var LO).
    - (* zip_with *)
      destruct O1 as [HL HP]. destruct (x_lends HC HS HL HM HQ) as (u & v & X).
      destruct (OWN (ZipWith i (operand st j ops) f) CO) as [E1 E2].
      { cbn [small_op]. intros t' E'. rewrite EV in E'. injection E' as <-. intros z Ez E0. exfalso. apply prodZ_pos in HP. cbn [as_arr a_dims] in HP. lia. }
      split; [|exact E2]. rewrite <- E1. cbn [x_exec x_op]. unfold consume. rewrite EV. unfold kept, seqM.
      now rewrite (@x_zip_with_lent st j ops u v t (st_w st) f X Ht HSt HP).
    - (* for_each *)
      destruct HM as [HI HM]. cbn [x_exec exec]. apply FIX; [|apply x_edit_keeps]. apply EACH; auto; [apply O1|].
      intros F. apply (HM (as_arr t)); auto.
    - (* zip for_each *)
      destruct O1 as (HW & HL & HP). destruct HM as [HI HI']. destruct (x_lends HC HS HL HI' (fun E => proj2 (HQ E))) as (u & v & X).
      cbn [x_exec exec]. apply FIX; [|apply x_edit_zip_keeps]. apply (@x_edit_zip_lent st j ops ops' u v t (st_w st) h X Ht HSt HW HI HP).
      intros ED. exact (proj1 (HQ ED)).
    - destruct HM as [HI HM]. cbn [x_exec exec]. apply FIX; [|apply x_edit_keeps]. apply EACH; auto; [apply O1|].
      intros F. apply (HM (as_arr t)); auto.
    - destruct HM as [HI HM]. cbn [x_exec exec]. apply FIX; [|apply x_fill_keeps]. unfold x_fill, tn_fill. cbn [fst snd].
      rewrite EACH; auto; [apply O1|]. intros F. apply (HM (as_arr t)); auto.
    - destruct O1 as [HW HX]. cbn [x_exec exec]. apply FIX; [|apply x_edit_at_keeps]. unfold x_edit_at, tn_edit_at. cbn [fst].
      destruct (x_views Ht HSt HW HM HQ) as [_ [[E' E]|(v & XV)]]; [now rewrite E', E|].
      rewrite (xv_run XV), (xv_exact XV). cbn [bind]. pose proof (xv_same XV) as SV.
      destruct (@x_index_cases dbg _ (wrapv v) idx (mv_valid (xv_machine XV)) (proj2 HN) HX) as [[B EX]|[B EX]]; rewrite EX; cbn [bind].
      + pose proof (sv_addr SV B) as EB. rewrite (sv_dims SV) in B. rewrite slice_index_multi_in by exact B. cbn [bind].
        change (v_ptr (wrapv v) + m_offset (v_map (wrapv v)) idx) with (v_addr (wrapv v) idx). now rewrite EB.
      + rewrite (sv_dims SV) in B. now rewrite slice_index_multi_out.
    - destruct O1 as [HW HX]. cbn [x_exec exec]. apply FIX; [|apply x_edit_linear_keeps]. unfold x_edit_linear, tn_edit_linear. cbn [fst].
      destruct (x_views Ht HSt HW HM HQ) as [_ [[E' E]|(v & XV)]]; [now rewrite E', E|].
      rewrite (xv_run XV), (xv_exact XV). cbn [bind]. pose proof (xv_same XV) as SV.
      rewrite (@x_linear_addr dbg (wrapv v) k _ (mv_valid (xv_machine XV)) (proj2 HN) HX), (linear_addr (vv_wf (xv_valid XV)) HX), (sv_dims SV).
      destruct (Z.ltb_spec k (prodZ (v_dims v))) as [L|L]; auto. rewrite (sv_addr SV); [reflexivity|]. rewrite (sv_dims SV).
      apply unflat_in_bounds; [apply (xv_valid XV)|lia].
    - destruct O1 as (W1 & W2 & HP). destruct HM as (I0 & I1 & I2). cbn [x_exec exec]. apply FIX; [|apply x_halves_keeps].
      now apply x_halves_same.
  Qed.
End Calls.

Theorem machine_step dbg {T C} al most (k : act T C) (st : state T C) l : al_machine al -> grants al most ->
  consistent st l -> small_state dbg st -> act_ok k (seen st) -> m_act_ok k (seen st) -> (dbg = true -> calm_act k (seen st)) -> asks k (seen st) <= most ->
  exists st' more, x_exec dbg al (x_code dbg k st) st = Done tt st' /\ exec al (code k st) st = Done tt st' /\
    consistent st' (l ++ more) /\ small_state dbg st' /\ seen st' = r_do k (seen st).
Proof.
  intros HA HG HC HS HO HM HQ HK. destruct (granted_step HG HC HO HK) as (st' & more & E & C' & S).
  destruct (x_act_same HA HC HS HO HM HQ) as [E1 E2]; [rewrite E; discriminate|]. rewrite E in E1, E2. exists st', more. auto.
Qed.

Theorem machine_run dbg {T C} al most (p : list (act T C)) : al_machine al -> grants al most -> forall (st : state T C) l,
  consistent st l -> small_state dbg st -> acts_ok p (seen st) -> m_acts_ok p (seen st) -> (dbg = true -> calm_acts p (seen st)) ->
  asks_most most p (seen st) ->
  exists st' more, x_prog dbg al (map (x_code dbg) p) st = Done tt st' /\ run_prog al (map code p) st = Done tt st' /\
    consistent st' (l ++ more) /\ small_state dbg st' /\ seen st' = r_run p (seen st).
Proof.
  intros HA HG. induction p as [|k p IH]; intros st l HC HS HO HM HQ HK; cbn [map x_prog run_prog r_run acts_ok m_acts_ok calm_acts asks_most] in *.
  - exists st, []. rewrite app_nil_r. auto.
  - destruct HO as [H1 H2]. destruct HM as [M1 M2]. destruct HK as [A1 A2].
    destruct (machine_step HA HG HC HS H1 M1 (fun E => proj1 (HQ E)) A1) as (st1 & m1 & E1 & E1' & C1 & S1 & R1). rewrite <- R1 in H2, M2, A2, HQ |- *.
    destruct (IH st1 _ C1 S1 H2 M2 (fun E => proj2 (HQ E)) A2) as (st2 & m2 & E2 & E2' & C2 & S2 & R2). exists st2, (m1 ++ m2). unfold seqM. rewrite E1, E1'.
    split; [exact E2|]. split; [exact E2'|]. split; [now rewrite app_assoc|auto].
Qed.

(** ** Chains without steps and diagonals *)

Lemma plain_run n v0 os : forall v, 0 <= n -> 2 * n <= isize_max -> chain_inv n v0 v -> 0 < prodZ (v_dims v) -> strides_small (v_map v) ->
  Forall (fun d => d < usize_max) (v_dims v) -> (length (v_dims v) < 64)%nat -> chain_given (v_dims v) os -> forallb any_layout os = true ->
  plain_ops (v_dims v) os ->
  x_run true v os = x_run false v os /\ forall x, x_run false v os = Ok x -> strides_small (v_map x) /\ 0 < prodZ (v_dims x).
Proof.
  induction os as [|o os IH]; intros v HN H2 HC P HS HD HR HG HL HP; cbn [x_run plain_ops chain_given forallb] in *.
  { split; [reflexivity|]. intros x E. injection E as <-. auto. }
  destruct HG as [G1 G2]. destruct HP as [P1 P2]. apply andb_true_iff in HL as [L1 L2].
  assert (NU : 0 <= n <= usize_max) by (unfold isize_max, usize_max in *; lia).
  pose proof (valid_gentle (ci_valid HC) H2 P HS) as HGn. destruct (chain_facts NU HC) as (HW & _).
  pose proof (proj1 (given_arg v o) G1) as A1.
  assert (HD' : Forall (fun d => d <= usize_max) (v_dims v)) by (eapply Forall_impl; [|exact HD]; cbn; lia).
  assert (NXT : forall v', v_step v o = Ok v' -> v_dims v' = op_dims (v_dims v) o /\ op_fits (v_dims v) o)
    by (intros v' E; destruct (step_index HW HD' G1 E) as (F & D & _); auto).
  assert (RO : op_room v o).
  { apply plain_room; auto. { destruct o; cbn [op_plain]; auto. }
    intros v' E. destruct (NXT v' E) as [-> F]. apply (P2 F). }
  rewrite !x_step_fit; auto; try (apply (@valid_near n); [apply HC|lia]).
  destruct (v_step v o) as [v'| | |] eqn:E; try (split; [reflexivity|discriminate]). cbn [bind].
  destruct (NXT v' eq_refl) as [D F]. destruct (P2 F) as [P' R3]. rewrite <- D in P', R3.
  destruct (@op_dims_small (v_dims v) o (wf_nonneg HW) HD G1 F L1) as [S1 S2]. rewrite <- D in S1, S2.
  apply IH; auto; try lia.
  - exact (v_step_inv NU HC A1 E).
  - refine (@v_step_strides n v0 v o v' _ HC HGn P HS A1 RO E P'). lia.
  - rewrite D. now apply G2.
Qed.

Lemma plain_positive ops : forall dims, 0 < prodZ dims -> plain_ops dims ops -> chain_fits dims ops -> 0 < prodZ (chain_dims dims ops).
Proof.
  induction ops as [|o ops IH]; intros dims P HP HF; cbn [plain_ops chain_fits chain_dims] in *; auto.
  destruct HF as [F1 F2]. destruct HP as [_ HP]. destruct (HP F1). now apply IH.
Qed.

Lemma plain_calm {T} (t : tensor T) ops : tensor_ok t -> views (as_arr t) ops -> plain (as_arr t) ops -> calm (as_arr t) ops /\
  (chain_fits (tn_dims t) ops -> fits (chain_dims (tn_dims t) ops)).
Proof.
  intros Ht HV (P1 & P2 & P3). pose proof HV as (V1 & V2 & V3 & V4 & V5). cbn [as_arr a_ty a_dims a_els] in *.
  pose proof (tensor_view Ht) as HW.
  assert (P : 0 < prodZ (v_dims (whole (tn_ty t) (tn_dims t)))) by (apply prodZ_pos; exact P1).
  destruct (valid_chain HW P2 P) as [N0 HC].
  assert (SS : strides_small (v_map (whole (tn_ty t) (tn_dims t)))).
  { apply dense_strides; [reflexivity|apply (vv_wf HW)|]. apply (valid_roomy HW); auto. lia. }
  destruct (@plain_run _ _ ops _ N0 P2 HC P SS V1 V3 V4 V5 P3) as [E H]. split.
  - intros v EV. cbn [as_arr a_ty a_dims] in *. split; [now rewrite E|]. destruct (H v EV) as [S _].
    eapply Forall_impl; [|exact S]. cbn beta. unfold isize_min, isize_max. lia.
  - intros F. destruct (views_run Ht HV) as [_ [(_ & _ & NF)|(v & EV & _ & _ & D & V & _)]]; [contradiction|].
    assert (PD : 0 < prodZ (v_dims v)) by (rewrite D; apply plain_positive; auto).
    rewrite <- D. refine (nonempty_fits V _ PD). unfold isize_max, usize_max in *. lia.
Qed.

Lemma plain_calm_act {T C} (k : act T C) (st : state T C) l : consistent st l -> act_ok k (seen st) -> plain_act k (seen st) -> calm_act k (seen st).
Proof.
  intros HC HO HP i a EI EA. specialize (HP i a EI EA).
  assert (O1 : one_ok k a (seen st)) by (destruct k; cbn [act_ok on] in *; try discriminate EI; injection EI as <-; rewrite EA in HO; exact HO).
  assert (AT : forall j ops b, rvar (seen st) j = Some b -> views b ops -> plain b ops ->
    calm b ops /\ (chain_fits (a_dims b) ops -> fits (chain_dims (a_dims b) ops))).
  { intros j ops b E H1 H2. rewrite rvar_seen in E. destruct (var st j) as [t|] eqn:EV; [|discriminate].
    cbn [option_map] in E. injection E as <-. exact (plain_calm (var_ok HC EV) H1 H2). }
  assert (LD : forall i j ops, lends i j ops (seen st) -> (forall b, rvar (seen st) j = Some b -> plain b ops) ->
    forall b, rvar (seen st) j = Some b -> calm b ops /\ fits (chain_dims (a_dims b) ops)).
  { intros i0 j ops (_ & b & EB & H1 & H2) HB b' E. rewrite EB in E. injection E as <-. destruct (AT j ops b EB H1 (HB b EB)). auto. }
  destruct k; cbn [plain_one calm_one one_ok] in *; auto;
    try (exact (proj1 (AT _ _ _ EA (proj1 O1) HP))).
  - destruct O1 as [HL _]. split; intros b E; apply (LD _ _ _ HL HP b E).
  - destruct O1 as [HL _]. intros b E. apply (LD _ _ _ HL HP b E).
  - destruct O1 as (HV & HL & _). destruct HP as [P1 P2]. split; [exact (proj1 (AT _ _ _ EA HV P1))|]. intros b E. apply (LD _ _ _ HL P2 b E).
  - destruct O1 as (V1 & V2 & _). destruct HP as [P1 P2]. split; [exact (proj1 (AT _ _ _ EA V1 P1))|exact (proj1 (AT _ _ _ EA V2 P2))].
Qed.
