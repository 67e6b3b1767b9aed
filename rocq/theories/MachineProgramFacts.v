(** Writes through views with machine integers: what is visited, and programs with such writes. *)
From Verif Require Import Base Spec SpecFacts Shape Mapping Index View Wf MappingFacts MapOps ReshapeFacts.
From Verif Require Import IndexFacts ViewFacts ViewMore Expr ExprSpec ExprFacts IterFacts SourceFacts ExprTree ExprMore.
From Verif Require Import Tensor TraceFacts TensorSpec TensorFacts ResizeFacts TensorOps DrainFacts OwnFacts ZipFacts.
From Verif Require Import OpsFacts History HistoryFacts Program ProgramFacts.
From Verif Require Import Machine MachineSpec MachineFacts MachineViews MachineReshape MachineRun MachineWrap MachineRelease.
From Verif Require Import MachineSteps MachineIter MachineIterFacts MachineSources MachineChecks.
From Verif Require Import PropsView PropsExpr PropsMachine PropsWrap PropsMachineIter.
From Verif Require Import MachineTensor MachineTensorFacts MachineTensorMore MachineTensorRun MachineProgram TensorFacts.
Unset Strict Implicit.

(** ** The checks only cut a trace short *)

Definition tle {A S S'} (P : S -> S' -> Prop) (x : list A * outcome S) (y : list A * outcome S') : Prop :=
  match snd x with
  | Panic => exists k, fst x = firstn k (fst y)
  | _ => fst x = fst y /\ ole P (snd x) (snd y)
  end.

Section Sim.
  Context {A : Type} {a b : expression A} {R : e_st a -> e_st b -> Prop}.
  Hypothesis H : e_le R.

  Lemma sim_inner_trace n : forall i s t, R s t -> tle R (inner_trace a n i s) (inner_trace b n i t).
  Proof.
    induction n as [|n IH]; intros i s t HR; cbn [inner_trace]; [unfold tle; cbn; auto|].
    pose proof (el_get H i HR) as HG.
    destruct (e_get a i s) as [[x s1]| | |], (e_get b i t) as [[y t1]| | |]; cbn [ole fail fst snd] in *; try contradiction;
      try (unfold tle; cbn; auto; fail); try (exists 0%nat; reflexivity).
    destruct HG as [<- HR1]. specialize (IH (i + 1) s1 t1 HR1).
    destruct (inner_trace a n (i + 1) s1) as [xs o], (inner_trace b n (i + 1) t1) as [ys o']. unfold tle in *. cbn [fst snd] in *.
    destruct o; try (destruct IH as [-> IH]; auto; fail). destruct IH as [k ->]. exists (S k). reflexivity.
  Qed.

  Lemma sim_loop_trace k : forall i j, it_le (R := R) i j -> tle eq (x_loop_trace true k i) (x_loop_trace false k j).
  Proof.
    induction k as [|k IH]; intros i j HI; cbn [x_loop_trace]; [unfold tle; cbn; auto|].
    pose proof HI as (HR & EI & EL & EO & EM). rewrite EI, EL.
    pose proof (@sim_inner_trace (Z.to_nat (it_limit j - it_index j)) (it_index j) (it_st i) (it_st j) HR) as HT.
    destruct (inner_trace a _ _ _) as [xs o], (inner_trace b _ _ _) as [ys o']. unfold tle in HT. cbn [fst snd] in HT.
    assert (FX : forall n zs, exists k', firstn n ys = firstn k' (ys ++ zs)).
    { intros n zs. exists (Nat.min n (length ys)). rewrite firstn_app. replace (Nat.min n (length ys) - length ys)%nat with 0%nat by lia.
      cbn [firstn]. rewrite app_nil_r. rewrite <- (firstn_all2 (n := length ys) ys) at 1 by lia. rewrite firstn_firstn. reflexivity. }
    destruct o as [s1| | |]; cbn [fail].
    - destruct HT as [-> HT]. destruct o' as [t1| | |]; cbn [ole] in HT; try contradiction.
      pose proof (@sim_step_outer _ _ _ _ H
        (mkIter s1 (it_index j) (it_limit j) (it_outer i) (it_olimit i)) (mkIter t1 (it_index j) (it_limit j) (it_outer j) (it_olimit j))) as HS.
      assert (IL : it_le (R := R) (mkIter s1 (it_index j) (it_limit j) (it_outer i) (it_olimit i)) (mkIter t1 (it_index j) (it_limit j) (it_outer j) (it_olimit j))).
      { unfold it_le. cbn. auto. }
      specialize (HS IL).
      destruct (x_step_outer true _) as [[x i1]| | |], (x_step_outer false _) as [[y j1]| | |]; cbn [ole fst snd fail] in HS; try contradiction.
      + destruct HS as [<- HI1]. destruct x; [|unfold tle; cbn; auto].
        assert (IL2 : it_le (R := R) (mkIter (it_st i1) 0 (it_limit i1) (it_outer i1) (it_olimit i1)) (mkIter (it_st j1) 0 (it_limit j1) (it_outer j1) (it_olimit j1))).
        { destruct HI1 as (? & ? & ? & ? & ?). unfold it_le. cbn. auto. }
        specialize (IH _ _ IL2).
        destruct (x_loop_trace true k _) as [zs q], (x_loop_trace false k _) as [zs' q']. unfold tle in *. cbn [fst snd] in *.
        destruct q; try (destruct IH as [-> IH]; auto; fail). destruct IH as [n ->]. exists (length ys + n)%nat.
        now rewrite firstn_app_2.
      + destruct y; [destruct (x_loop_trace false k _) as [zs' q']|]; unfold tle; cbn [fst snd fail];
          [exists (length ys)|exists (length ys)]; [rewrite firstn_app, Nat.sub_diag, firstn_all; cbn; now rewrite app_nil_r|now rewrite firstn_all].
      + unfold tle; cbn [fst snd fail]. exists (length ys). now rewrite firstn_all.
      + unfold tle; cbn [fst snd fail]. exists (length ys). now rewrite firstn_all.
      + unfold tle; cbn [fst snd fail]. exists (length ys). now rewrite firstn_all.
      + unfold tle; cbn; auto.
      + unfold tle; cbn; auto.
    - destruct HT as [n ->]. unfold tle. cbn [fst snd].
      destruct o' as [t1| | |]; cbn [fail fst]; try (exists n; reflexivity).
      destruct (x_step_outer false _) as [[[] j1]| | |]; cbn [fst fail]; try (exists n; reflexivity).
      destruct (x_loop_trace false k _) as [zs' q']. cbn [fst]. apply FX.
    - destruct HT as [-> HT]. destruct o'; cbn [ole] in HT; try contradiction. unfold tle. cbn. auto.
    - destruct HT as [-> HT]. destruct o'; cbn [ole] in HT; try contradiction. unfold tle. cbn. auto.
  Qed.

  Lemma sim_trace : tle eq (x_trace true a) (x_trace false b).
  Proof.
    unfold x_trace. pose proof (sim_new H) as HN.
    destruct (x_it_new true a) as [i| | |], (x_it_new false b) as [j| | |]; cbn [ole] in HN; try contradiction;
      try (unfold tle; cbn; auto; fail); try (exists 0%nat; reflexivity).
    assert (EF : it_fuel i = it_fuel j).
    { destruct HN as (_ & _ & _ & _ & EM). unfold it_fuel. now rewrite (sim_outer H), EM. }
    rewrite EF. apply sim_loop_trace. exact HN.
  Qed.
End Sim.

(** ** Traces of trees *)

Lemma x_produce_same dbg {A} (t : tree A) l : forall k s,
  t_below t k s -> k + Z.of_nat (length l) <= usize_max ->
  produce (x_act dbg t) l s = produce (t_act t) l s.
Proof.
  induction l as [|idx l IH]; intros k s HB HK; cbn [produce length] in *; auto.
  destruct (@x_act_same dbg A t k idx s HB ltac:(lia)) as [-> P].
  destruct (t_act t idx s) as [[a s']| | |]; auto. rewrite (IH (k + 1) s'); [reflexivity|eauto|lia].
Qed.

Lemma x_tree_trace dbg size {A} (t : tree A) e :
  t_leaves t -> t_machine dbg size t -> x_built dbg t e -> (t_need t <= length (t_dims t) - t_outer t)%nat ->
  x_trace dbg e = let (xs, o) := produce (t_act t) (indices (t_dims t)) (t_init t) in (xs, done o).
Proof.
  intros HL HM HB HN. destruct (leaf_small HL HM) as [HP HU]. destruct (xw_new HL HM HB HN) as [E1 E2].
  unfold x_trace. rewrite E1, (x_loop_trace_ok dbg _ E2).
  change (loop_trace (it_fuel (it_new e)) (it_new e)) with (e_trace e).
  rewrite (@trace_computes _ _ _ _ _ _ (xb_computes HB)).
  - rewrite (xb_dims HB). rewrite (@x_produce_same dbg A t (indices (t_dims t)) 0); [reflexivity|apply below_init|].
    rewrite (xw_count HL HM HN). lia.
  - unfold e_rank. rewrite (xw_outer HB), (xb_dims HB). exact HN.
  - left. rewrite (xb_dims HB). now apply pos_front.
Qed.

(** ** Traces of views *)

(** Without checks all elements of a view are visited; with them the visit can end early in a panic. *)
Definition cut (dbg : bool) {A} (l : list A) (x : list A * outcome unit) : Prop :=
  x = (l, Ok tt) \/ (dbg = true /\ snd x = Panic /\ exists k, fst x = firstn k l).

Lemma produce_pure {A} (f : list Z -> A) l : produce (pure_action f) l tt = (map f l, Ok tt).
Proof. induction l as [|i l IH]; cbn [produce map]; auto. unfold pure_action at 1. now rewrite IH. Qed.

Lemma walk_trace dbg n rep v : walkable dbg n v ->
  x_trace dbg (x_e_view dbg n rep v) = (map (v_addr v) (indices (v_dims v)), Ok tt).
Proof.
  intros HW. pose proof HW as (HV & _).
  assert (HB : x_built dbg (TView n rep v) (x_e_view dbg n rep v)).
  { constructor; try reflexivity; [apply (wf_typed (vv_wf HV))|now apply computes_x_view]. }
  rewrite (@x_tree_trace dbg (fun _ => n) Z (TView n rep v) (x_e_view dbg n rep v) HV HW HB) by (cbn; lia).
  cbn [t_act t_dims t_init]. rewrite produce_pure. reflexivity.
Qed.

Lemma cut_le {A} (l : list A) x y : tle eq x y -> y = (l, Ok tt) -> cut true l x.
Proof.
  intros HT ->. unfold tle, cut in *. destruct x as [xs [[]| | |]]; cbn [fst snd ole] in *.
  - left. now destruct HT as [-> _].
  - right. auto.
  - now destruct HT.
  - now destruct HT.
Qed.

Lemma view_cut dbg n rep v : machine_view n v -> n <= isize_max -> visited v ->
  cut dbg (map (v_addr v) (indices (v_dims v))) (x_trace dbg (x_e_view dbg n rep v)).
Proof.
  intros HM HN HV.
  assert (HP : positive (v_dims v) -> cut dbg (map (v_addr v) (indices (v_dims v))) (x_trace dbg (x_e_view dbg n rep v))).
  { intros HP. assert (HF : x_trace false (x_e_view false n rep v) = (map (v_addr v) (indices (v_dims v)), Ok tt)).
    { apply walk_trace, machine_walkable; auto. discriminate. }
    destruct dbg; [|now left]. exact (cut_le (sim_trace (sim_view n rep v)) HF). }
  destruct HV as [HD|]; auto.
  pose proof (wf_nonneg (vv_wf (mv_valid HM))) as NN. fold (v_dims v) in NN.
  destruct (Z.eq_dec (prodZ (v_dims v)) 0) as [E0|NZ].
  2:{ apply HP, prodZ_pos_inv; auto. pose proof (prodZ_nonneg NN). lia. }
  clear HP. assert (EI : indices (v_dims v) = []).
  { apply length_zero_iff_nil. rewrite indices_length by auto. lia. }
  rewrite EI. cbn [map].
  assert (EQ : outer_rank (x_e_view dbg n rep v) = 0%nat).
  { unfold outer_rank. cbn [x_e_view e_inner]. unfold map_inner_rank. unfold e_rank. cbn [x_e_view e_dims]. unfold v_layout, v_dims in *.
    destruct (v_map v) as [ty dims|]; [|discriminate]. cbn [m_layout m_ty m_dims]. unfold m_rank. cbn [m_dims].
    destruct (sh_rank ty) as [[|k]|]; auto; lia. }
  unfold x_trace, x_it_new. rewrite EQ. cbn [skipn]. change (e_dims (x_e_view dbg n rep v)) with (v_dims v).
  assert (I0 : In 0 (v_dims v)) by (now apply (prodZ_zero_iff NN)).
  destruct (@x_prod_zero dbg (v_dims v) 1 (or_introl I0)) as [E|E]; rewrite E; cbn [bind fail].
  - right. split; [|split; [reflexivity|exists 0%nat; reflexivity]]. destruct dbg; auto. exfalso.
    clear - E. revert E. generalize 1. induction (v_dims v) as [|d ds IH]; intros z E; cbn [x_prod] in E; [discriminate|].
    unfold u_res in E. cbn [bind] in E. destruct (u_fits _); cbn [bind] in E; eauto.
  - cbn [Nat.ltb Nat.leb]. unfold it_fuel. rewrite EQ. cbn [firstn map fold_left it_olimit]. change (Z.to_nat 1) with 1%nat.
    cbn [x_loop_trace it_limit it_index it_st]. change (Z.to_nat (0 - 0)) with 0%nat. cbn [inner_trace].
    unfold x_step_outer. rewrite EQ. cbn [it_st it_outer it_olimit].
    left. assert (ER : exists s', e_reset (x_e_view dbg n rep v) (length (v_dims v) - 1) 0 (v_ptr v) = Ok s').
    { cbn [x_e_view e_reset]. unfold v_layout, v_dims in *. destruct (v_map v) as [ty dims|]; [|discriminate]. cbn [m_dims x_stride].
      destruct dims as [|d ds]; [destruct I0|].
      assert (EB : (length (d :: ds) - 1 <? length (d :: ds))%nat = true) by (apply Nat.ltb_lt; cbn; lia).
      rewrite EB. cbn [assert bind]. rewrite skipn_all2 by (cbn; lia). cbn [x_prod bind].
      rewrite as_isize_fit by (apply small_isize; unfold isize_max; lia).
      rewrite (i_res_fit dbg (x := - (1))) by (unfold is_isize, isize_min, isize_max; lia). cbn [bind].
      rewrite (as_isize_fit (x := 0)) by (apply small_isize; unfold isize_max; lia).
      rewrite (i_res_fit dbg (x := - (1) * 0)) by (unfold is_isize, isize_min, isize_max; lia). cbn [bind]. eauto. }
    destruct ER as [s' ER]. change (e_rank (x_e_view dbg n rep v)) with (length (v_dims v)). change (e_init (x_e_view dbg n rep v)) with (v_ptr v).
    destruct (0 <? length (v_dims v))%nat; [rewrite ER|]; reflexivity.
Qed.

(** ** Views of a tensor *)

Lemma tensor_machine dbg {T} (t : tensor T) : tensor_ok t -> small dbg t ->
  0 <= zlen (tn_mem t) <= isize_max /\ machine_view (zlen (tn_mem t)) (whole (tn_ty t) (tn_dims t)).
Proof.
  intros Ht HS. split; [pose proof (mem_small Ht HS); unfold zlen in *; lia|].
  constructor; [now apply tensor_view|exact (sm_dims HS)|discriminate].
Qed.

Lemma x_chain_cases dbg {T} (t : tensor T) ops :
  tensor_ok t -> small dbg t -> run_machine dbg (whole (tn_ty t) (tn_dims t)) ops ->
  x_run dbg (whole (tn_ty t) (tn_dims t)) ops = Panic \/
  exists v, x_run dbg (whole (tn_ty t) (tn_dims t)) ops = Ok v /\ machine_view (zlen (tn_mem t)) v.
Proof.
  intros Ht HS HR. destruct (tensor_machine Ht HS) as [HN HM].
  destruct (@x_run_safe dbg _ ops _ HN HM HR) as [E|(v & E & M & _)]; eauto.
Qed.

(** ** Visiting *)

Lemma combine_units {A} (l : list A) k : combine l (repeat tt k) = map (fun p => (p, tt)) (firstn k l).
Proof. revert k. induction l as [|x l IH]; intros [|k]; cbn; auto. now rewrite IH. Qed.

Lemma combine_const {A B} (l : list A) (b : B) k : combine l (repeat b k) = map (fun a => (a, b)) (firstn k l).
Proof. revert k. induction l as [|x l IH]; intros [|k]; cbn; auto. now rewrite IH. Qed.

(** [k] elements have been visited; [all] tells whether the visit ended without a panic of its own. *)
Lemma x_edit_eq dbg {T C} (h : T -> C -> edit T C) (t : tensor T) (w : world T C) ops v xs :
  x_run dbg (whole (tn_ty t) (tn_dims t)) ops = Ok v -> machine_view (zlen (tn_mem t)) v -> zlen (tn_mem t) <= isize_max ->
  visited v -> contents (tn_mem t) v xs ->
  exists k all, (all = true -> (length xs <= k)%nat) /\ (all = false -> dbg = true /\ ~ walkable dbg (zlen (tn_mem t)) v) /\
    x_edit dbg ops h (t, w) =
    let '(news, c, b) := edited (map (fun x => (x, h)) (firstn k xs)) (w_clo w) in
    finish (b && all) tt (edited_tensor t (putting (map (v_addr v) (indices (v_dims v))) news (tn_mem t)), edit_world c news xs w).
Proof.
  intros E HM HN HV HC. pose proof (mv_valid HM) as Hv. unfold x_edit. cbn [fst]. rewrite E.
  assert (EL : length xs = length (indices (v_dims v))) by (symmetry; apply (Forall2_len HC)).
  assert (G : forall k o, (o = Ok tt \/ o = Panic) ->
    on_items (put_all (fun x _ => h x) (map (fun p => (p, tt)) (firstn k (map (v_addr v) (indices (v_dims v))))) ;;; lift o) (t, w) =
    let '(news, c, b) := edited (map (fun x => (x, h)) (firstn k xs)) (w_clo w) in
    finish (b && match o with Ok _ => true | _ => false end) tt
      (edited_tensor t (putting (map (v_addr v) (indices (v_dims v))) news (tn_mem t)), edit_world c news xs w)).
  { intros k o HO. rewrite <- combine_units. rewrite (visit_eq _ w _ Hv HC HO). rewrite map_repeat, combine_const. reflexivity. }
  pose proof (@walk_trace dbg (zlen (tn_mem t)) false v) as WT.
  destruct (@view_cut dbg _ false v HM HN HV) as [EC|(ED & EC & k & EK)];
    destruct (x_trace dbg (x_e_view dbg (zlen (tn_mem t)) false v)) as [l o]; cbn [fst snd] in *.
  - injection EC as -> ->. exists (length xs), true. split; [auto|]. split; [discriminate|].
    rewrite <- (firstn_all (map (v_addr v) (indices (v_dims v)))). rewrite map_length, <- EL. rewrite G by auto.
    rewrite EL, <- (map_length (v_addr v)), firstn_all. reflexivity.
  - subst l o. exists k, false. split; [discriminate|]. split; [intros _; split; [auto|]; intros HW; specialize (WT HW); discriminate|].
    rewrite G by auto. reflexivity.
Qed.

Lemma x_edit_post dbg {T C} ops (h : T -> C -> edit T C) (t : tensor T) w S0 R :
  tensor_ok t -> small dbg t -> run_machine dbg (whole (tn_ty t) (tn_dims t)) ops ->
  (forall v, x_run dbg (whole (tn_ty t) (tn_dims t)) ops = Ok v -> visited v) ->
  balanced S0 (R ++ tn_mem t) w -> tpost (tn_ty t) S0 R (x_edit dbg ops h (t, w)).
Proof.
  intros Ht HS HR HF HB. destruct (x_chain_cases Ht HS HR) as [E|(v & E & HM)].
  - unfold x_edit. cbn [fst]. rewrite E. cbn [tpost]. auto.
  - pose proof (mv_valid HM) as Hv. destruct (contents_exist Hv) as [xs HC].
    destruct (x_edit_eq h w E HM (proj2 (proj1 (tensor_machine Ht HS))) (HF v E) HC) as (k & all & _ & _ & ->).
    apply edited_post; auto. rewrite map_length, firstn_length. lia.
Qed.

Lemma x_edit_zip_eq dbg {T Y C} (h : T -> Y -> C -> edit T C) (e : expression Y) (t : tensor T) (w : world T C) ops v xs z ys o :
  x_run dbg (whole (tn_ty t) (tn_dims t)) ops = Ok v ->
  valid_view (zlen (tn_mem t)) v -> contents (tn_mem t) v xs ->
  e_zip (x_e_view dbg (zlen (tn_mem t)) false v) e = Ok z ->
  x_trace dbg z = (combine (map (v_addr v) (indices (v_dims v))) ys, o) -> (o = Ok tt \/ o = Panic) ->
  x_edit_zip dbg ops e h (t, w) =
  let '(news, c, b) := edited (combine xs (map (fun y x => h x y) ys)) (w_clo w) in
  finish (b && match o with Ok _ => true | _ => false end) tt
    (edited_tensor t (putting (map (v_addr v) (indices (v_dims v))) news (tn_mem t)), edit_world c news xs w).
Proof.
  intros E Hv HC EZ ET HO. unfold x_edit_zip. cbn [fst snd]. rewrite E. cbn [bind]. rewrite EZ, ET. now apply visit_eq.
Qed.

Lemma x_edit_zip_post dbg {T Y C} ops (e : expression Y) (h : T -> Y -> C -> edit T C) (t : tensor T) w S0 R :
  tensor_ok t -> small dbg t -> run_machine dbg (whole (tn_ty t) (tn_dims t)) ops ->
  (forall v, x_run dbg (whole (tn_ty t) (tn_dims t)) ops = Ok v -> xzips dbg (zlen (tn_mem t)) v e) ->
  balanced S0 (R ++ tn_mem t) w -> tpost (tn_ty t) S0 R (x_edit_zip dbg ops e h (t, w)).
Proof.
  intros Ht HS HR HF HB. destruct (x_chain_cases Ht HS HR) as [E|(v & E & HM)].
  - unfold x_edit_zip. cbn [fst]. rewrite E. cbn [bind tpost]. auto.
  - pose proof (mv_valid HM) as Hv. destruct (contents_exist Hv) as [xs HC]. destruct (HF v E) as [EZ|z ys o EZ ET HL HO].
    + unfold x_edit_zip. cbn [fst]. rewrite E. cbn [bind]. rewrite EZ. cbn [tpost]. auto.
    + rewrite (x_edit_zip_eq h w E Hv HC EZ ET) by (destruct HO as [[-> _]| ->]; auto).
      apply edited_post; auto. rewrite combine_length, map_length. pose proof (Forall2_len HC). lia.
Qed.

Lemma x_fill_post dbg {T C} ops value (cl : T -> T -> C -> edit T C) (t : tensor T) w S0 R :
  tensor_ok t -> small dbg t -> run_machine dbg (whole (tn_ty t) (tn_dims t)) ops ->
  (forall v, x_run dbg (whole (tn_ty t) (tn_dims t)) ops = Ok v -> visited v) ->
  balanced S0 (R ++ tn_mem t) w -> tpost (tn_ty t) S0 R (x_fill dbg ops value cl (t, w)).
Proof.
  intros Ht HS HR HF HB. unfold x_fill. cbn [fst snd].
  set (w0 := mkWorld (w_clo w) (w_made w ++ [value]) (w_used w) (w_dropped w)).
  assert (HB0 : balanced S0 ((R ++ [value]) ++ tn_mem t) w0).
  { unfold balanced in *. unfold w0. cbn [w_made w_used w_dropped]. rewrite app_assoc, HB. perm. }
  pose proof (x_edit_post (cl value) Ht HS HR HF HB0) as H.
  destruct (x_edit dbg ops (cl value) (t, w0)) as [a [t' w']|[t' w']| |]; cbn [tpost] in *; auto.
  - destruct H as (H1 & H2 & H3). split; auto. split; auto. eapply balanced_drop; [exact H3|]. perm.
  - destruct H as (H1 & H2 & H3). split; auto. split; auto. eapply balanced_drop; [exact H3|]. perm.
Qed.

(** ** One element *)

Lemma x_index_cases dbg n v idx : valid_view n v -> n <= isize_max -> nonneg idx ->
  (in_bounds (v_dims v) idx /\ x_index_multi dbg (v_map v) idx = Ok (m_offset (v_map v) idx)) \/
  (~ in_bounds (v_dims v) idx /\ x_index_multi dbg (v_map v) idx = Panic).
Proof.
  intros HV HN HI. pose proof (vv_wf HV) as HW. unfold x_index_multi, v_dims.
  destruct (Nat.eqb_spec (length idx) (m_rank (v_map v))) as [L|L]; cbn [assert bind].
  2:{ right. split; [|reflexivity]. intros B. apply L. unfold m_rank. now rewrite (in_bounds_length B). }
  destruct (@index_in_bounds_spec idx (m_dims (v_map v)) L HI) as [[E B]|[E B]]; rewrite E; cbn [bind]; [left|right]; split; auto.
  assert (P : 0 < prodZ (v_dims v)) by (apply prodZ_pos; exact (in_bounds_positive B)).
  rewrite x_offset_fit; auto; [exact (valid_roomy HV HN P)|exact (valid_near HV HN)].
Qed.

Lemma x_edit_at_post dbg {T C} ops idx (h : T -> C -> edit T C) (t : tensor T) w S0 R :
  tensor_ok t -> small dbg t -> run_machine dbg (whole (tn_ty t) (tn_dims t)) ops -> nonneg idx ->
  balanced S0 (R ++ tn_mem t) w -> tpost (tn_ty t) S0 R (x_edit_at dbg ops idx h (t, w)).
Proof.
  intros Ht HS HR Hi HB. unfold x_edit_at. cbn [fst]. destruct (x_chain_cases Ht HS HR) as [E|(v & E & HM)]; rewrite E; cbn [bind].
  - cbn [tpost]. auto.
  - pose proof (mv_valid HM) as Hv. pose proof (proj2 (proj1 (tensor_machine Ht HS))) as HN.
    destruct (@x_index_cases dbg _ v idx Hv HN Hi) as [[B EX]|[B EX]]; rewrite EX; cbn [bind].
    + destruct (proj1 (checked_get (mem := tn_mem t) Hv) idx B) as [x Ex]. rewrite v_get_in in Ex by exact B.
      now apply (put_one_post h (x := x)).
    + cbn [tpost]. auto.
Qed.

Lemma x_index_linear_fit dbg v k n : valid_view n v -> n <= isize_max -> 0 <= k ->
  x_index_linear dbg (v_map v) k = slice_index_linear (v_map v) k.
Proof.
  intros HV HN HK. pose proof (vv_wf HV) as HW. pose proof (wf_nonneg HW) as NN. unfold x_index_linear, slice_index_linear.
  unfold m_len. rewrite sh_len_prod. destruct (Z.eq_dec (prodZ (m_dims (v_map v))) 0) as [Z0|Z0].
  - rewrite Z0. replace (k >=? 0) with true by lia. cbn [negb assert bind].
    apply (prodZ_zero_iff NN) in Z0. destruct (@x_prod_zero dbg (m_dims (v_map v)) 1 (or_introl Z0)) as [E|E]; unfold x_len; rewrite E; [reflexivity|].
    cbn [bind]. replace (k >=? 0) with true by lia. reflexivity.
  - assert (P : 0 < prodZ (v_dims v)) by (pose proof (prodZ_nonneg NN); unfold v_dims; lia).
    pose proof (valid_roomy HV HN P) as R. rewrite x_len_fit; [|exact NN|now apply roomy_usize]. cbn [bind].
    destruct (Z.geb_spec k (prodZ (m_dims (v_map v)))); [reflexivity|]. cbn [negb assert bind].
    rewrite x_linear_offset_fit; auto; [exact (valid_near HV HN)|]. unfold m_len. rewrite sh_len_prod. lia.
Qed.

Lemma x_linear_addr dbg v k n : valid_view n v -> n <= isize_max -> 0 <= k ->
  (let* off := x_index_linear dbg (v_map v) k in Ok (v_ptr v + off)) =
  if k <? prodZ (v_dims v) then Ok (v_addr v (unflat (v_dims v) k)) else Panic.
Proof. intros HV HN HK. rewrite (@x_index_linear_fit dbg v k n) by auto. exact (linear_addr (vv_wf HV) HK). Qed.

Lemma x_edit_linear_post dbg {T C} ops k (h : T -> C -> edit T C) (t : tensor T) w S0 R :
  tensor_ok t -> small dbg t -> run_machine dbg (whole (tn_ty t) (tn_dims t)) ops -> 0 <= k ->
  balanced S0 (R ++ tn_mem t) w -> tpost (tn_ty t) S0 R (x_edit_linear dbg ops k h (t, w)).
Proof.
  intros Ht HS HR Hk HB. unfold x_edit_linear. cbn [fst]. destruct (x_chain_cases Ht HS HR) as [E|(v & E & HM)]; rewrite E; cbn [bind].
  - cbn [tpost]. auto.
  - pose proof (mv_valid HM) as Hv. pose proof (proj2 (proj1 (tensor_machine Ht HS))) as HN.
    rewrite (@x_linear_addr dbg v k _ Hv HN Hk). destruct (Z.ltb_spec k (prodZ (v_dims v))) as [L|L]; [|cbn [tpost]; auto].
    assert (B : in_bounds (v_dims v) (unflat (v_dims v) k)) by (apply unflat_in_bounds; [apply (wf_nonneg (vv_wf Hv))|lia]).
    destruct (proj1 (checked_get (mem := tn_mem t) Hv) _ B) as [x Ex]. rewrite v_get_in in Ex by exact B.
    now apply (put_one_post h (x := x)).
Qed.

(** ** Expression trees as operands *)

Lemma with_target_dims {Y} n v (tr : tree Y) : operand_fits (v_dims v) tr -> t_dims (with_target n v tr) = v_dims v.
Proof.
  intros (_ & H & _). unfold with_target. cbn [t_dims]. unfold longer.
  destruct (Nat.ltb_spec (length (v_dims v)) (length (t_dims tr))); [lia|reflexivity].
Qed.

(** All strides can be negated. *)
Lemma exact_with_tree dbg {Y} n v (tr : tree Y) e size :
  walkable dbg n v ->
  t_leaves tr -> t_machine dbg size tr -> x_build dbg tr = Ok e ->
  (operand_fits (v_dims v) tr -> (t_need tr <= length (v_dims v) - t_outer (with_target n v tr))%nat) ->
  (~ operand_fits (v_dims v) tr /\ e_zip (x_e_view dbg n false v) e = Panic) \/
  (operand_fits (v_dims v) tr /\
   exists z, e_zip (x_e_view dbg n false v) e = Ok z /\
     let (ys, o) := produce (bcast (length (t_dims tr)) (t_act tr)) (indices (v_dims v)) (t_init tr) in
     x_trace dbg z = (combine (map (v_addr v) (indices (v_dims v))) ys, done o)).
Proof.
  intros HW HL HT HB HNeed. pose proof (proj1 HW) as Hv.
  assert (HLZ : t_leaves (with_target n v tr)) by (split; auto).
  assert (HTZ : t_machine dbg size (with_target n v tr)) by (split; auto).
  assert (EB : x_build dbg (with_target n v tr) = e_zip (x_e_view dbg n false v) e).
  { unfold with_target. cbn [x_build bind]. now rewrite HB. }
  assert (HTR : t_zips tr).
  { destruct (x_build_cases HL HT) as [(Z & _)|(_ & E)]; [exact Z|congruence]. }
  assert (EZ : t_zips (with_target n v tr) <-> operand_fits (v_dims v) tr).
  { unfold with_target, operand_fits. cbn [t_zips t_rep t_dims]. split.
    - intros (_ & _ & H1 & H2 & H3). destruct H2 as [H2|H2]; [discriminate|]. repeat split; auto. destruct H3; auto. right. lia.
    - intros (H1 & H2 & H3). repeat split; auto. destruct H3; auto. right. lia. }
  destruct (x_build_cases HLZ HTZ) as [(HZ & z & E & B)|(HZ & E)]; rewrite EB in E; [right|left; split; [tauto|exact E]].
  apply EZ in HZ. split; auto. exists z. split; auto.
  assert (ED : t_dims (with_target n v tr) = v_dims v) by now apply with_target_dims.
  rewrite (x_tree_trace HLZ HTZ B).
  - rewrite ED. unfold with_target. cbn [t_act t_init t_dims].
    pose proof (@produce_zip_pure _ _ _ (length (v_dims v)) (length (t_dims tr)) (v_addr v) (t_act tr) (indices (v_dims v)) (t_init tr)) as P.
    destruct (produce (bcast _ _) _ _) as [ys o].
    match goal with |- (let (_, _) := ?X in _) = _ => change X with (produce (zip_action (length (v_dims v)) (length (t_dims tr)) (pure_action (v_addr v)) (t_act tr)) (indices (v_dims v)) (tt, t_init tr)) end.
    rewrite P. f_equal; [|destruct o; reflexivity]. f_equal.
    apply map_ext_in. intros idx Hi. apply in_indices in Hi. now rewrite lastn_bounds by auto.
  - rewrite ED. unfold with_target at 1. cbn [t_need]. specialize (HNeed HZ). lia.
Qed.

Lemma firstn_combine {A B} (a : list A) (b : list B) k : firstn k (combine a b) = combine a (firstn k b).
Proof. revert b k. induction a as [|x a IH]; intros [|y b] [|k]; cbn; auto. now rewrite IH. Qed.

(** Being able to negate all strides is decidable. *)
Lemma walkable_dec n v : walkable false n v -> walkable true n v \/ ~ walkable true n v.
Proof.
  intros (H1 & H2 & H3 & H4). destruct (existsb (Z.eqb isize_min) (m_strides (v_map v))) eqn:E.
  - right. intros (_ & _ & _ & H). apply existsb_exists in E as (s & HI & E). apply Z.eqb_eq in E. subst s.
    rewrite Forall_forall in H. now apply (proj2 (H _ HI)).
  - left. split; auto. split; auto. split; auto. rewrite Forall_forall in *. intros s Hs. split; [apply (H4 s Hs)|]. intros _ ->.
    assert (F : existsb (Z.eqb isize_min) (m_strides (v_map v)) = true) by (apply existsb_exists; exists isize_min; split; [auto|apply Z.eqb_refl]).
    congruence.
Qed.
Lemma t_machine_dec size {Y} (tr : tree Y) : t_machine false size tr -> t_machine true size tr \/ ~ t_machine true size tr.
Proof.
  induction tr; cbn [t_machine]; auto using walkable_dec.
  intros [H1 H2]. destruct (IHtr1 H1), (IHtr2 H2); auto; right; tauto.
Qed.

(** Either kind of build. *)
Lemma cut_with_tree dbg {Y} n v (tr : tree Y) e size :
  machine_view n v -> n <= isize_max -> positive (v_dims v) ->
  t_leaves tr -> t_machine false size tr -> x_build dbg tr = Ok e ->
  (operand_fits (v_dims v) tr -> (t_need tr <= length (v_dims v) - t_outer (with_target n v tr))%nat) ->
  (~ operand_fits (v_dims v) tr /\ e_zip (x_e_view dbg n false v) e = Panic) \/
  (operand_fits (v_dims v) tr /\
   exists z, e_zip (x_e_view dbg n false v) e = Ok z /\
     let (ys, o) := produce (bcast (length (t_dims tr)) (t_act tr)) (indices (v_dims v)) (t_init tr) in
     x_trace dbg z = (combine (map (v_addr v) (indices (v_dims v))) ys, done o) \/
     (dbg = true /\ ~ (walkable dbg n v /\ t_machine dbg size tr) /\ exists k,
      x_trace dbg z = (combine (map (v_addr v) (indices (v_dims v))) (firstn k ys), Panic))).
Proof.
  intros HM HN HP HL HT HB HNeed. pose proof (mv_valid HM) as Hv.
  assert (HW : walkable false n v) by (apply machine_walkable; auto; discriminate).
  destruct dbg.
  2:{ destruct (exact_with_tree HW HL HT HB HNeed) as [H|(HO & z & E & HZ)]; [left; auto|right]. split; auto. exists z. split; auto.
      destruct (produce _ _ _) as [ys o]. auto. }
  assert (HD : (walkable true n v /\ t_machine true size tr) \/ ~ (walkable true n v /\ t_machine true size tr)).
  { destruct (walkable_dec HW), (t_machine_dec HT); auto; right; tauto. }
  destruct HD as [[HW1 HT1]|HD].
  { destruct (exact_with_tree HW1 HL HT1 HB HNeed) as [H|(HO & z & E & HZ)]; [left; auto|right]. split; auto. exists z. split; auto.
    destruct (produce _ _ _) as [ys o]. auto. }
  pose proof (build_le tr) as BT. rewrite HB in BT. destruct (x_build false tr) as [e0| | |] eqn:E0; cbn [ole] in BT; try contradiction.
  destruct BT as [R BT].
  pose proof (build_le (with_target n v tr)) as BZ. unfold with_target in BZ. cbn [x_build bind] in BZ. rewrite HB, E0 in BZ. cbn [bind] in BZ.
  destruct (exact_with_tree HW HL HT E0 HNeed) as [[HO ER]|(HO & z0 & ER & ET)]; [left|right]; split; auto.
  - rewrite ER in BZ. destruct (e_zip (x_e_view true n false v) e); cbn [ole] in BZ; auto; contradiction.
  - destruct (x_build_cases HL HT) as [(_ & e1 & E1 & B1)|(_ & E1)]; rewrite E0 in E1; [injection E1 as <-|discriminate].
    destruct (@zip_cases _ _ (x_e_view true n false v) e (wf_typed (vv_wf Hv))) as [[_ EZ]|[NZ EZ]].
    { rewrite (el_ty BT), (el_dims BT). apply (xb_ty B1). }
    2:{ exfalso. apply NZ. unfold zippable, e_rank. rewrite (el_dims BT), (el_rep BT), (xb_dims B1), (xb_rep B1).
        destruct HO as (H1 & H2 & H3). cbn [x_e_view e_dims e_rep]. split; [exact H1|]. split; [right; exact H2|]. destruct H3; [auto|right; lia]. }
    rewrite EZ. eexists. split; [reflexivity|]. rewrite EZ, ER in BZ. cbn [ole] in BZ. destruct BZ as [R' BZ].
    pose proof (sim_trace BZ) as ST. destruct (produce _ _ _) as [ys o]. rewrite ET in ST. unfold tle in ST. cbn [fst snd] in ST.
    destruct (x_trace true _) as [l [[]| | |]]; cbn [fst snd] in ST.
    + destruct ST as [-> ST]. left. destruct (done o) as [[]| | |]; cbn [ole] in ST; try contradiction. reflexivity.
    + destruct ST as [k ->]. rewrite firstn_combine. right. split; auto. split; auto. now exists k.
    + destruct ST as [-> ST]. left. destruct (done o) as [[]| | |]; cbn [ole] in ST; try contradiction. reflexivity.
    + destruct ST as [-> ST]. left. destruct (done o) as [[]| | |]; cbn [ole] in ST; try contradiction. reflexivity.
Qed.

Lemma tree_xzips dbg {Y} n v (tr : tree Y) e size :
  machine_view n v -> n <= isize_max -> positive (v_dims v) ->
  t_leaves tr -> t_machine false size tr -> t_safe tr -> x_build dbg tr = Ok e ->
  (operand_fits (v_dims v) tr -> (t_need tr <= length (v_dims v) - t_outer (with_target n v tr))%nat) ->
  xzips dbg n v e.
Proof.
  intros HM HN HP HL HT HS HB HNeed. pose proof (mv_valid HM) as Hv.
  destruct (cut_with_tree HM HN HP HL HT HB HNeed) as [[_ E]|(HO & z & E & HZ)]; [now apply xzips_refused|].
  pose proof (bcast_proper (t_init tr) (wf_nonneg (vv_wf Hv)) HO HS) as HPr.
  pose proof (@produce_length _ _ (bcast (length (t_dims tr)) (t_act tr)) (indices (v_dims v)) (t_init tr)) as [P1 P2].
  destruct (produce _ _ _) as [ys o]. cbn [fst snd] in *. destruct HZ as [HZ|(_ & _ & k & HZ)].
  - apply (@xzips_items dbg _ n v e z ys _ E HZ); [lia|].
    destruct o as [s| | |]; try contradiction; [left|right; reflexivity]. split; [reflexivity|]. apply (P2 s eq_refl).
  - apply (@xzips_items dbg _ n v e z _ _ E HZ); [|auto]. rewrite firstn_length. lia.
Qed.

(** ** The two halves of a split *)

Lemma x_run_app dbg v a b : x_run dbg v (a ++ b) = let* v' := x_run dbg v a in x_run dbg v' b.
Proof. revert v. induction a as [|o a IH]; intros v; cbn [app x_run bind]; auto. destruct (x_step dbg v o); cbn [bind]; auto. Qed.

Lemma run_machine_app dbg v a b v' : run_machine dbg v (a ++ b) -> x_run dbg v a = Ok v' -> run_machine dbg v a /\ run_machine dbg v' b.
Proof.
  revert v. induction a as [|o a IH]; intros v H E; cbn [app run_machine x_run] in *.
  - injection E as ->. auto.
  - destruct H as [H1 H2]. destruct (x_step dbg v o) as [v1| | |]; try discriminate. cbn [bind] in E.
    destruct (IH v1 (H2 v1 eq_refl) E) as [K1 K2]. split; auto. split; auto. intros v2 [= <-]. auto.
Qed.

(** Where the halves of a split of [v] lie. *)
Lemma half_first n v a mid u1 : 0 <= mid -> explained n v (fun u => v_step u (OpSplitFst a mid)) u1 ->
  exists i, is_axis a (length (v_dims v)) i /\
    forall idx, in_bounds (v_dims u1) idx -> in_bounds (v_dims v) idx /\ nth i idx 0 < mid /\ v_addr u1 idx = v_addr v idx.
Proof.
  intros Hm (M1 & u & w & VU & SU & EU & SW). cbn [v_step] in EU. apply bind_ok in EU as ([w1 w2] & ES & [= <-]).
  assert (EI : exists i, is_axis a (length (v_dims u)) i).
  { unfold v_split_axis_at in ES. unfold m_rank in ES. destruct (ax_index a (length (m_dims (v_map u)))) as [i| | |] eqn:EA; try discriminate.
    exists i. now apply ax_index_inv. }
  destruct EI as [i HI]. pose proof HI as HI'. rewrite (sv_dims SU) in HI'. exists i. split; auto.
  assert (Hi : (i < length (v_dims u))%nat) by apply HI.
  destruct (Z.le_gt_cases mid (nth i (v_dims u) 0)) as [Hle|Hgt].
  2:{ rewrite v_split_panic in ES; [discriminate|apply VU|exact Hm|]. intros j HJ. rewrite (is_axis_unique HJ HI). lia. }
  destruct (split_ok (vv_wf VU) HI (conj Hm Hle)) as (x1 & x2 & E & H1 & H2 & W1 & W2 & S1 & S2). rewrite ES in E. injection E as <- <-.
  intros idx B. pose proof B as B0. rewrite (sv_dims SW) in B. destruct (S1 idx B) as [BU EA]. rewrite <- (sv_dims SU). split; auto.
  split; [|rewrite (sv_addr SW) by exact B0; rewrite EA; now apply (sv_addr SU)].
  rewrite H1 in B. assert (L1 : (i < length (upd (v_dims u) i mid))%nat) by (rewrite upd_length; lia).
  pose proof (in_bounds_nth B L1) as C1. rewrite upd_nth_same in C1 by lia. lia.
Qed.

Lemma half_second n v a mid u2 : 0 <= mid -> explained n v (fun u => v_step u (OpSplitSnd a mid)) u2 ->
  exists i, is_axis a (length (v_dims v)) i /\
    forall idx, in_bounds (v_dims u2) idx -> exists jdx, in_bounds (v_dims v) jdx /\ mid <= nth i jdx 0 /\ v_addr u2 idx = v_addr v jdx.
Proof.
  intros Hm (M1 & u & w & VU & SU & EU & SW). cbn [v_step] in EU. apply bind_ok in EU as ([w1 w2] & ES & [= <-]).
  assert (EI : exists i, is_axis a (length (v_dims u)) i).
  { unfold v_split_axis_at in ES. unfold m_rank in ES. destruct (ax_index a (length (m_dims (v_map u)))) as [i| | |] eqn:EA; try discriminate.
    exists i. now apply ax_index_inv. }
  destruct EI as [i HI]. pose proof HI as HI'. rewrite (sv_dims SU) in HI'. exists i. split; auto.
  assert (Hi : (i < length (v_dims u))%nat) by apply HI.
  destruct (Z.le_gt_cases mid (nth i (v_dims u) 0)) as [Hle|Hgt].
  2:{ rewrite v_split_panic in ES; [discriminate|apply VU|exact Hm|]. intros j HJ. rewrite (is_axis_unique HJ HI). lia. }
  destruct (split_ok (vv_wf VU) HI (conj Hm Hle)) as (x1 & x2 & E & H1 & H2 & W1 & W2 & S1 & S2). rewrite ES in E. injection E as <- <-.
  intros idx B. pose proof B as B0. rewrite (sv_dims SW) in B. destruct (S2 idx B) as [BU EA]. eexists. rewrite <- (sv_dims SU). split; [exact BU|].
  split; [|rewrite (sv_addr SW) by exact B0; rewrite EA; now apply (sv_addr SU)].
  rewrite H2 in B. assert (L1 : (i < length (upd (v_dims u) i (nth i (v_dims u) 0 - mid)%Z))%nat) by (rewrite upd_length; lia).
  pose proof (in_bounds_nth B L1) as C1. rewrite upd_nth_same in C1 by lia.
  apply in_bounds_length in B. rewrite upd_length in B. rewrite upd_nth_same by lia. lia.
Qed.

Lemma x_halves_views dbg {T} (t : tensor T) ops a mid ops1 ops2 v u1 u2 v1 v2 :
  tensor_ok t -> small dbg t ->
  run_machine dbg (whole (tn_ty t) (tn_dims t)) (ops ++ OpSplitFst a mid :: ops1) ->
  run_machine dbg (whole (tn_ty t) (tn_dims t)) (ops ++ OpSplitSnd a mid :: ops2) ->
  x_run dbg (whole (tn_ty t) (tn_dims t)) ops = Ok v -> x_split_axis_at dbg v a mid = Ok (u1, u2) ->
  x_run dbg u1 ops1 = Ok v1 -> x_run dbg u2 ops2 = Ok v2 ->
  machine_view (zlen (tn_mem t)) v1 /\ machine_view (zlen (tn_mem t)) v2 /\
  (forall i1 i2, in_bounds (v_dims v1) i1 -> in_bounds (v_dims v2) i2 -> v_addr v1 i1 <> v_addr v2 i2).
Proof.
  intros Ht HS HA1 HA2 E ES E1 E2. destruct (tensor_machine Ht HS) as [HN HM].
  destruct (run_machine_app HA1 E) as [HR [HP1 HQ1]]. destruct (run_machine_app HA2 E) as [_ [HP2 HQ2]].
  destruct (@x_run_safe dbg _ _ _ HN HM HR) as [F|(v0 & F & MV & _)]; rewrite E in F; [discriminate|]. injection F as <-.
  assert (S1 : x_step dbg v (OpSplitFst a mid) = Ok u1) by (cbn [x_step]; rewrite ES; reflexivity).
  assert (S2 : x_step dbg v (OpSplitSnd a mid) = Ok u2) by (cbn [x_step]; rewrite ES; reflexivity).
  assert (Hm : 0 <= mid) by (destruct HP1 as [HP1 _]; cbn [op_arg] in HP1; unfold usize in HP1; lia).
  destruct (@x_step_safe dbg _ v _ HN MV HP1) as [F|(u & F & X1)]; rewrite S1 in F; [discriminate|]. injection F as <-.
  destruct (@x_step_safe dbg _ v _ HN MV HP2) as [F|(u & F & X2)]; rewrite S2 in F; [discriminate|]. injection F as <-.
  destruct (@x_run_safe dbg _ _ u1 HN (proj1 X1) (HQ1 _ S1)) as [F|(z & F & M1 & f1 & F1)]; rewrite E1 in F; [discriminate|]. injection F as <-.
  destruct (@x_run_safe dbg _ _ u2 HN (proj1 X2) (HQ2 _ S2)) as [F|(z & F & M2 & f2 & F2)]; rewrite E2 in F; [discriminate|]. injection F as <-.
  split; auto. split; auto. intros i1 i2 B1 B2. destruct (F1 i1 B1) as [B1' ->]. destruct (F2 i2 B2) as [B2' ->].
  destruct (half_first Hm X1) as (i & HI & G1). destruct (half_second Hm X2) as (j & HJ & G2). rewrite (is_axis_unique HJ HI) in G2.
  destruct (G1 _ B1') as (C1 & L1 & ->). destruct (G2 _ B2') as (jdx & C2 & L2 & ->).
  intros EA. apply (vv_inj (mv_valid MV)) in EA; auto. subst jdx. lia.
Qed.

Lemma Forall2_firstn {A B} (P : A -> B -> Prop) l m k : Forall2 P l m -> Forall2 P (firstn k l) (firstn k m).
Proof. intros H. revert k. induction H; intros [|k]; cbn; constructor; auto. Qed.

Lemma fits_positive dims {Y} (tr : tree Y) : operand_fits dims tr -> positive dims -> positive (t_dims tr).
Proof.
  intros (H1 & H2 & _) HP. unfold trailing_eq in H1. rewrite Nat.min_r in H1 by exact H2.
  assert (E : lastn (length (t_dims tr)) (t_dims tr) = t_dims tr) by (unfold lastn; now rewrite Nat.sub_diag).
  rewrite E in H1. unfold positive in *. rewrite <- H1. unfold lastn. rewrite Forall_forall in *. intros d Hd. apply HP.
  rewrite <- (firstn_skipn (length dims - length (t_dims tr)) dims). apply in_or_app. now right.
Qed.

(** Zipping two views and visiting them together. *)
Lemma two_views dbg n v1 v2 : machine_view n v1 -> machine_view n v2 -> n <= isize_max -> positive (v_dims v1) ->
  (~ operand_fits (v_dims v1) (TView n true v2) /\ e_zip (x_e_view dbg n false v1) (x_e_view dbg n true v2) = Panic) \/
  (operand_fits (v_dims v1) (TView n true v2) /\
   exists z, e_zip (x_e_view dbg n false v1) (x_e_view dbg n true v2) = Ok z /\
     (walkable dbg n v1 -> walkable dbg n v2 -> snd (x_trace dbg z) = Ok tt) /\
     cut dbg (combine (map (v_addr v1) (indices (v_dims v1)))
                      (map (fun idx => v_addr v2 (lastn (length (v_dims v2)) idx)) (indices (v_dims v1)))) (x_trace dbg z)).
Proof.
  intros M1 M2 HN HP.
  assert (HZ : zippable (x_e_view dbg n false v1) (x_e_view dbg n true v2) <-> operand_fits (v_dims v1) (TView n true v2)).
  { unfold zippable, operand_fits, e_rank. cbn [x_e_view e_dims e_rep t_dims t_rep]. split.
    - intros (H1 & H2 & H3). destruct H2 as [H2|H2]; [discriminate|]. repeat split; auto.
    - intros (H1 & H2 & H3). repeat split; auto. }
  destruct (@zip_cases _ _ (x_e_view dbg n false v1) (x_e_view dbg n true v2) (wf_typed (vv_wf (mv_valid M1))) (wf_typed (vv_wf (mv_valid M2)))) as [[Z EZ]|[Z EZ]].
  2:{ left. split; auto. tauto. }
  right. apply HZ in Z. split; auto. clear HZ.
  pose proof (fits_positive Z HP) as P2. cbn [t_dims] in P2.
  assert (HT : t_machine false (fun _ => 0) (TView n true v2)) by (apply machine_walkable; auto; discriminate).
  destruct (@cut_with_tree dbg _ n v1 (TView n true v2) (x_e_view dbg n true v2) (fun _ => 0) M1 HN HP (mv_valid M2) HT eq_refl) as [[F _]|(_ & z & E0 & ET)];
    [cbn [t_need]; lia|contradiction|]. exists z. split; auto.
  cbn [t_dims t_act t_init] in ET.
  assert (EP : produce (bcast (length (v_dims v2)) (pure_action (v_addr v2))) (indices (v_dims v1)) tt =
               (map (fun idx => v_addr v2 (lastn (length (v_dims v2)) idx)) (indices (v_dims v1)), Ok tt)).
  { generalize (indices (v_dims v1)). induction l as [|i l IH]; cbn [produce map]; auto.
    unfold bcast at 1, pure_action at 1. now rewrite IH. }
  match type of ET with (let (_, _) := ?X in _) => change X with (produce (bcast (length (v_dims v2)) (pure_action (v_addr v2))) (indices (v_dims v1)) tt) in ET end.
  rewrite EP in ET. cbn [done bind t_machine] in ET. destruct ET as [ET|(ED & NW & k & ET)]; rewrite ET.
  - split; auto. now left.
  - split; [intros; exfalso; auto|]. right. split; auto. split; auto. exists k. cbn [fst]. now rewrite firstn_combine.
Qed.

Lemma x_halves_eq dbg {T C} (h : T -> T -> C -> edit T C) (t : tensor T) (w : world T C) ops a mid ops1 ops2 v u1 u2 v1 v2 xs :
  tensor_ok t -> small dbg t ->
  run_machine dbg (whole (tn_ty t) (tn_dims t)) (ops ++ OpSplitFst a mid :: ops1) ->
  run_machine dbg (whole (tn_ty t) (tn_dims t)) (ops ++ OpSplitSnd a mid :: ops2) ->
  x_run dbg (whole (tn_ty t) (tn_dims t)) ops = Ok v -> x_split_axis_at dbg v a mid = Ok (u1, u2) ->
  x_run dbg u1 ops1 = Ok v1 -> x_run dbg u2 ops2 = Ok v2 ->
  positive (v_dims v1) -> contents (tn_mem t) v1 xs ->
  (~ operand_fits (v_dims v1) (TView (zlen (tn_mem t)) true v2) /\
   x_edit_halves dbg ops a mid ops1 ops2 h (t, w) = Unwound (t, w)) \/
  (operand_fits (v_dims v1) (TView (zlen (tn_mem t)) true v2) /\
   exists ys k all, (all = true -> (length xs <= k)%nat) /\
     (all = false -> dbg = true /\ ~ (walkable dbg (zlen (tn_mem t)) v1 /\ walkable dbg (zlen (tn_mem t)) v2)) /\
     Forall2 (fun idx y => v_get (tn_mem t) v2 (lastn (length (v_dims v2)) idx) = Ok y) (indices (v_dims v1)) ys /\
     x_edit_halves dbg ops a mid ops1 ops2 h (t, w) =
     let '(news, c, b) := edited (combine xs (map (fun y x => h x y) (firstn k ys))) (w_clo w) in
     finish (b && all) tt (edited_tensor t (putting (map (v_addr v1) (indices (v_dims v1))) news (tn_mem t)), edit_world c news xs w)).
Proof.
  intros Ht HS HA1 HA2 E ES E1 E2 HP HC.
  destruct (x_halves_views Ht HS HA1 HA2 E ES E1 E2) as (M1 & M2 & HD). pose proof (mv_valid M1) as Hv1. pose proof (mv_valid M2) as Hv2.
  pose proof (proj2 (proj1 (tensor_machine Ht HS))) as HN. set (n := zlen (tn_mem t)) in *.
  destruct (@two_views dbg n v1 v2 M1 M2 HN HP) as [[HO EZ]|(HO & z & EZ & WT & HT)];
    unfold x_edit_halves; cbn [fst]; fold n; rewrite E; cbn [bind]; rewrite ES; cbn [bind]; rewrite E1; cbn [bind]; rewrite E2; cbn [bind]; rewrite EZ; [left|right]; split; auto.
  set (qs := map (fun idx => v_addr v2 (lastn (length (v_dims v2)) idx)) (indices (v_dims v1))) in *.
  assert (BO : forall idx, In idx (indices (v_dims v1)) -> in_bounds (v_dims v2) (lastn (length (v_dims v2)) idx)).
  { intros idx Hi. apply in_indices in Hi. exact (operand_bounds HO Hi). }
  assert (EY : exists ys, Forall2 (fun q y => read (tn_mem t) q = Ok y) qs ys /\
    Forall2 (fun idx y => v_get (tn_mem t) v2 (lastn (length (v_dims v2)) idx) = Ok y) (indices (v_dims v1)) ys).
  { unfold qs. revert BO. clear -Hv2. generalize (indices (v_dims v1)). induction l as [|i l IH]; intros BO.
    - exists []. split; constructor.
    - destruct IH as (ys & Y1 & Y2); [intros; apply BO; now right|].
      pose proof (BO i (or_introl eq_refl)) as B. destruct (proj1 (checked_get (mem := tn_mem t) Hv2) _ B) as [y Ey].
      exists (y :: ys). split; constructor; auto. now rewrite v_get_in in Ey. }
  destruct EY as (ys & Y1 & Y2). exists ys.
  assert (LY : length ys = length xs).
  { rewrite <- (Forall2_len Y2). apply (Forall2_len HC). }
  assert (G : forall k o, (o = Ok tt \/ o = Panic) ->
    on_items (put_from h (combine (map (v_addr v1) (indices (v_dims v1))) (firstn k qs)) ;;; lift o) (t, w) =
    let '(news, c, b) := edited (combine xs (map (fun y x => h x y) (firstn k ys))) (w_clo w) in
    finish (b && match o with Ok _ => true | _ => false end) tt
      (edited_tensor t (putting (map (v_addr v1) (indices (v_dims v1))) news (tn_mem t)), edit_world c news xs w)).
  { intros k o HOk. rewrite <- (@visit_eq _ _ _ h t w v1 xs (firstn k ys) o Hv1 HC HOk). unfold on_items, seqM. cbn [fst snd].
    rewrite (put_from_eq h (ps := map (v_addr v1) (indices (v_dims v1))) w (Forall2_firstn k Y1)); [reflexivity| |].
    - intros p Hp. apply in_map_iff in Hp as (i & <- & Hi). apply in_indices in Hi. apply (vv_range Hv1 Hi).
    - intros p q Hp Hq. apply in_map_iff in Hp as (i & <- & Hi). assert (Hq' : In q qs) by (rewrite <- (firstn_skipn k qs); apply in_or_app; now left). apply in_map_iff in Hq' as (j & <- & Hj).
      apply HD; [now apply in_indices|now apply BO]. }
  destruct HT as [EC|(ED & EC & k & EK)]; destruct (x_trace dbg z) as [l o]; cbn [fst snd] in *.
  - injection EC as -> ->. exists (length xs), true. split; [auto|]. split; [discriminate|]. split; [exact Y2|].
    rewrite <- (firstn_all qs). rewrite G by auto.
    rewrite (Forall2_len Y1), LY. reflexivity.
  - subst l o. exists k, false. split; [discriminate|].
    split; [intros _; split; [auto|]; intros [W1 W2]; specialize (WT W1 W2); discriminate|]. split; [exact Y2|]. rewrite firstn_combine, G by auto. reflexivity.
Qed.

Lemma x_halves_post dbg {T C} (h : T -> T -> C -> edit T C) (t : tensor T) (w : world T C) ops a mid ops1 ops2 S0 R :
  tensor_ok t -> small dbg t ->
  run_machine dbg (whole (tn_ty t) (tn_dims t)) (ops ++ OpSplitFst a mid :: ops1) ->
  run_machine dbg (whole (tn_ty t) (tn_dims t)) (ops ++ OpSplitSnd a mid :: ops2) ->
  (forall v, x_run dbg (whole (tn_ty t) (tn_dims t)) (ops ++ OpSplitFst a mid :: ops1) = Ok v -> positive (v_dims v)) ->
  balanced S0 (R ++ tn_mem t) w ->
  tpost (tn_ty t) S0 R (x_edit_halves dbg ops a mid ops1 ops2 h (t, w)).
Proof.
  intros Ht HS HA1 HA2 HP HB. destruct (tensor_machine Ht HS) as [HN HM].
  pose proof (@x_run_safe dbg _ _ _ HN HM HA1) as X1. pose proof (@x_run_safe dbg _ _ _ HN HM HA2) as X2.
  rewrite x_run_app in X1, X2.
  destruct (x_run dbg (whole (tn_ty t) (tn_dims t)) ops) as [v| | |] eqn:E; cbn [bind] in X1, X2;
    try (destruct X1 as [X1|(? & X1 & _)]; discriminate).
  2:{ unfold x_edit_halves. cbn [fst]. rewrite E. cbn [bind tpost]. auto. }
  cbn [x_run x_step] in X1, X2.
  destruct (x_split_axis_at dbg v a mid) as [[u1 u2]| | |] eqn:ES; cbn [bind] in X1, X2;
    try (destruct X1 as [X1|(? & X1 & _)]; discriminate).
  2:{ unfold x_edit_halves. cbn [fst]. rewrite E. cbn [bind]. rewrite ES. cbn [bind tpost]. auto. }
  destruct (x_run dbg u1 ops1) as [v1| | |] eqn:E1; try (destruct X1 as [X1|(? & X1 & _)]; discriminate).
  2:{ unfold x_edit_halves. cbn [fst]. rewrite E. cbn [bind]. rewrite ES. cbn [bind]. rewrite E1. cbn [bind tpost]. auto. }
  destruct (x_run dbg u2 ops2) as [v2| | |] eqn:E2; try (destruct X2 as [X2|(? & X2 & _)]; discriminate).
  2:{ unfold x_edit_halves. cbn [fst]. rewrite E. cbn [bind]. rewrite ES. cbn [bind]. rewrite E1. cbn [bind]. rewrite E2. cbn [bind tpost]. auto. }
  destruct (x_halves_views Ht HS HA1 HA2 E ES E1 E2) as (M1 & _ & _). pose proof (mv_valid M1) as Hv1.
  assert (HP1 : positive (v_dims v1)).
  { apply HP. rewrite x_run_app, E. cbn [bind x_run x_step]. rewrite ES. exact E1. }
  destruct (contents_exist Hv1) as [xs HC].
  destruct (x_halves_eq h w Ht HS HA1 HA2 E ES E1 E2 HP1 HC) as [[_ ->]|(_ & ys & k & all & _ & _ & HY & ->)].
  - cbn [tpost]. auto.
  - apply edited_post; auto. rewrite combine_length. lia.
Qed.

(** ** Programs *)

Definition keeps {T C A} (t : tensor T) (r : result (tensor T * world T C) A) : Prop :=
  match r with
  | Done _ (t', _) | Unwound (t', _) => tn_dims t' = tn_dims t /\ tn_cap t' = tn_cap t
  | _ => True
  end.

Lemma items_keeps {T C A} (m : M (list T * world T C) A) t w : keeps t (on_items m (t, w)).
Proof. unfold on_items, keeps. destruct (m _) as [a r|r| |]; cbn; auto. Qed.

Lemma x_edit_keeps dbg {T C} ops (h : T -> C -> edit T C) t w : keeps t (x_edit dbg ops h (t, w)).
Proof. unfold x_edit. cbn [fst]. destruct (x_run _ _ _); cbn; auto. destruct (x_trace _ _). apply items_keeps. Qed.
Lemma x_edit_zip_keeps dbg {T Y C} ops (e : expression Y) (h : T -> Y -> C -> edit T C) t w : keeps t (x_edit_zip dbg ops e h (t, w)).
Proof. unfold x_edit_zip. cbn [fst]. destruct (bind _ _); cbn; auto. destruct (x_trace _ _). apply items_keeps. Qed.
Lemma x_edit_at_keeps dbg {T C} ops idx (h : T -> C -> edit T C) t w : keeps t (x_edit_at dbg ops idx h (t, w)).
Proof. unfold x_edit_at. cbn [fst]. destruct (bind _ _); cbn; auto. apply items_keeps. Qed.
Lemma x_edit_linear_keeps dbg {T C} ops k (h : T -> C -> edit T C) t w : keeps t (x_edit_linear dbg ops k h (t, w)).
Proof. unfold x_edit_linear. cbn [fst]. destruct (bind _ _); cbn; auto. apply items_keeps. Qed.
Lemma x_halves_keeps dbg {T C} ops a mid ops1 ops2 (h : T -> T -> C -> edit T C) t w : keeps t (x_edit_halves dbg ops a mid ops1 ops2 h (t, w)).
Proof. unfold x_edit_halves. cbn [fst]. destruct (bind _ _); cbn; auto. destruct (x_trace _ _). apply items_keeps. Qed.
Lemma x_fill_keeps dbg {T C} ops value (cl : T -> T -> C -> edit T C) t w : keeps t (x_fill dbg ops value cl (t, w)).
Proof.
  unfold x_fill. cbn [fst snd]. match goal with |- context [x_edit dbg ops (cl value) (t, ?w0)] => pose proof (x_edit_keeps dbg ops (cl value) t w0) as K; destruct (x_edit dbg ops (cl value) (t, w0)) as [? [? ?]|[? ?]| |] end; cbn in *; auto.
Qed.

Section Safe.
  Context (dbg : bool) {T C : Type} (al : allocator).

  Lemma on_var_safe (m : M (tensor T * world T C) unit) (st : state T C) l i n :
    consistent st l -> small_state dbg st ->
    (forall t R, var st i = Some t -> tensor_ok t -> small dbg t -> balanced [] (R ++ tn_mem t) (st_w st) ->
       tpost (tn_ty t) [] R (m (t, st_w st)) /\ keeps t (m (t, st_w st))) ->
    safe_res dbg (Some n) l (bad_default st) (on_var i m st).
  Proof.
    intros HC HS HM.
    assert (H1 : forall t R, var st i = Some t -> tensor_ok t -> balanced [] (R ++ tn_mem t) (st_w st) -> tpost (tn_ty t) [] R (m (t, st_w st))).
    { intros t R HV Ht HB. exact (proj1 (HM t R HV Ht (var_small HS HV) HB)). }
    pose proof (@on_var_step T C unit m st l i n HC H1) as H.
    assert (HK : match on_var i m st with Done _ st' => small_state dbg st' | _ => True end).
    { unfold on_var. destruct (var st i) as [t|] eqn:EV; auto.
      destruct (HM t _ eq_refl (var_ok HC EV) (var_small HS EV) (open_var HC EV)) as [_ K].
      destruct (m (t, st_w st)) as [a [t' w']|[t' w']| |]; cbn [keeps] in K; auto; apply set_small; auto;
        destruct (var_small HS EV) as [S1 S2 S3]; destruct K as [K1 K2]; constructor; rewrite ?K1, ?K2; auto. }
    unfold safe_res. destruct (on_var i m st); auto.
  Qed.

  Theorem x_exec_safe (k : cmd T C) (st : state T C) l :
    al_machine al -> consistent st l -> small_state dbg st -> x_cmd_ok dbg k st ->
    safe_res dbg (cmd_leak k) l (bad_default st) (x_exec dbg al k st).
  Proof.
    intros HA HC HS HO. destruct k; cbn [x_exec x_cmd_ok cmd_leak] in *.
    - destruct HO. now apply x_op_safe.
    - apply on_var_safe; auto. intros t R HV Ht HSt HB. destruct (HO t HV). split; [now apply x_edit_post|apply x_edit_keeps].
    - apply on_var_safe; auto. intros t R HV Ht HSt HB. destruct (HO t HV). split; [now apply x_edit_zip_post|apply x_edit_zip_keeps].
    - apply on_var_safe; auto. intros t R HV Ht HSt HB. destruct (HO t HV). split; [now apply x_edit_post|apply x_edit_keeps].
    - apply on_var_safe; auto. intros t R HV Ht HSt HB. destruct (HO t HV). split; [now apply x_fill_post|apply x_fill_keeps].
    - apply on_var_safe; auto. intros t R HV Ht HSt HB. destruct (HO t HV) as [HR HI]. split; [|apply x_edit_at_keeps].
      destruct (x_chain_cases Ht HSt HR) as [E|(v & E & _)].
      + unfold x_edit_at. cbn [fst]. rewrite E. cbn [bind tpost]. auto.
      + apply x_edit_at_post; eauto.
    - apply on_var_safe; auto. intros t R HV Ht HSt HB. destruct (HO t HV) as [HR HI]. split; [|apply x_edit_linear_keeps].
      destruct (x_chain_cases Ht HSt HR) as [E|(v & E & _)].
      + unfold x_edit_linear. cbn [fst]. rewrite E. cbn [bind tpost]. auto.
      + apply x_edit_linear_post; eauto.
    - destruct HO as [HO1 HO2]. apply on_var_safe; auto. intros t R HV Ht HSt HB.
      destruct (HO1 t HV) as [K1 K2]. destruct (HO2 t HV) as [K3 _]. split; [now apply x_halves_post|apply x_halves_keeps].
  Qed.

  Theorem x_prog_safe (p : list (state T C -> cmd T C)) : forall (st : state T C) l,
    al_machine al -> consistent st l -> small_state dbg st -> x_prog_ok dbg al p st ->
    safe_res dbg (x_prog_leak dbg al p st) l
      (exists p1 p2 st1, p = p1 ++ p2 /\ x_prog dbg al p1 st = Done tt st1 /\ bad_default st1) (x_prog dbg al p st).
  Proof.
    induction p as [|k p IH]; intros st l HA HC HS HO; cbn [x_prog x_prog_leak].
    - split; auto. exists []. rewrite app_nil_r. cbn. auto.
    - destruct HO as [HO HR]. pose proof (x_exec_safe HA HC HS HO) as H. unfold seqM.
      destruct (x_exec dbg al (k st) st) as [[] st'|st'| |] eqn:E; cbn [safe_res] in H; try contradiction.
      + destruct H as [HS' (m1 & HC1 & HW1)]. specialize (IH st' (l ++ m1) HA HC1 HS' (HR _ eq_refl)).
        destruct (x_prog dbg al p st') as [[] st2|st2| |] eqn:E2; cbn [safe_res] in *; auto.
        * destruct IH as [HS2 (m2 & HC2 & HW2)]. split; auto. exists (m1 ++ m2). rewrite app_assoc. split; auto.
          exact (within_app HW1 HW2).
        * destruct IH as (p1 & p2 & st1 & -> & E1 & HB). exists (k :: p1), p2, st1. split; [reflexivity|]. split; auto.
          cbn [x_prog]. unfold seqM. now rewrite E.
      + cbn [safe_res]. exists [], (k :: p), st. split; [reflexivity|]. split; [reflexivity|exact H].
  Qed.
End Safe.
