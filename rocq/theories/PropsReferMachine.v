(** Theorems for C81: the reference interpreter for programs that run with 64-bit machine integers, without overflow
    checks (release builds).

    [x_code] (ReferMachine.v) is the code of an action with the operands that the machine code makes, [x_prog]
    (MachineProgram.v) runs programs on the machine, and [m_acts_ok] asks that arguments are machine integers and that the
    views which are looped over have elements.  Strides may wrap around on the way. *)
From Verif Require Import Base Spec SpecFacts Shape Mapping Index View Wf MappingFacts MapOps
  ReshapeFacts IndexFacts ViewFacts ViewMore PropsView.
From Verif Require Import Expr ExprSpec ExprFacts IterFacts SourceFacts ExprTree ExprMore PropsExpr.
From Verif Require Import Tensor TraceFacts TensorSpec TensorFacts ResizeFacts TensorOps DrainFacts OwnFacts
  ZipFacts OwnMore OpsFacts History HistoryFacts OwnProps PropsTensor PropsMore Program ProgramFacts PropsProgram.
From Verif Require Import Machine MachineSpec MachineFacts MachineRun MachineWrap MachineSteps MachineIter MachineSources
  PropsMachine PropsWrap PropsMachineIter PropsMachineTensor.
From Verif Require Import MachineTensor MachineTensorFacts MachineTensorMore MachineTensorRun MachineProgram MachineProgramFacts PropsMachineProgram.
From Verif Require Import Select SelectFacts PropsSelect Refer ReferFacts PropsRefer ReferRoom ReferRoomFacts ReferMachine ReferMachineFacts.
Unset Strict Implicit.

Local Lemma unchecked (P : Prop) : false = true -> P. Proof. discriminate. Qed.

(** One call on the machine does what the interpreter says. *)
Theorem c81_step : forall T C al most (k : act T C) (st : state T C) l,
  al_machine al -> grants al most -> consistent st l -> small_state false st ->
  act_ok k (seen st) -> m_act_ok k (seen st) -> asks k (seen st) <= most ->
  exists st' more, x_exec false al (x_code false k st) st = Done tt st' /\
    consistent st' (l ++ more) /\ small_state false st' /\ seen st' = r_do k (seen st).
Proof.
  intros T C al most k st l H1 H2 H3 H4 H5 H6 H7. destruct (machine_step H1 H2 H3 H4 H5 H6 (unchecked _) H7) as (st' & more & E & _ & R).
  exists st', more. auto.
Qed.
Print Assumptions c81_step.

(** So do programs; the state is the one that the program has with unbounded integers, capacities included. *)
Theorem c81_run : forall T C al most (p : list (act T C)) (st : state T C) l,
  al_machine al -> grants al most -> consistent st l -> small_state false st ->
  acts_ok p (seen st) -> m_acts_ok p (seen st) -> asks_most most p (seen st) ->
  exists st' more, x_prog false al (map (x_code false) p) st = Done tt st' /\ run_prog al (map code p) st = Done tt st' /\
    consistent st' (l ++ more) /\ small_state false st' /\ seen st' = r_run p (seen st).
Proof. intros T C al most p st l H1 H2 H3 H4 H5 H6. exact (machine_run H1 H2 H3 H4 H5 H6 (unchecked _)). Qed.
Print Assumptions c81_run.

(** Views of the arrays that a program leaves, made and read with machine integers: the elements that the interpreter
    has at the selected indices, and a panic at others; views that the interpreter refuses panic. *)
Theorem c81_reads : forall T C al most (p : list (act T C)) (c : C),
  al_machine al -> grants al most ->
  acts_ok p (mkRef [] c []) -> m_acts_ok p (mkRef [] c []) -> asks_most most p (mkRef [] c []) ->
  let s := r_run p (mkRef [] c []) in
  exists st, x_prog false al (map (x_code false) p) (start c) = Done tt st /\ w_clo (st_w st) = r_clo s /\ w_used (st_w st) = r_out s /\
    length (st_vars st) = length (r_vars s) /\
    forall i,
      match rvar s i with
      | None => var st i = None
      | Some a => exists t, var st i = Some t /\ tn_ty t = a_ty a /\ tn_dims t = a_dims a /\ tn_mem t = a_els a /\
          forall ops, views a ops -> isize_args ops ->
            if chain_works (a_dims a) ops
            then exists v, x_run false (whole (tn_ty t) (tn_dims t)) ops = Ok v /\ v_dims v = chain_dims (a_dims a) ops /\
                   Forall2 (fun idx x => x_get false (tn_mem t) v idx = Ok x) (indices (v_dims v)) (view_els a ops) /\
                   (forall idx, nonneg idx -> ~ in_bounds (v_dims v) idx -> x_get false (tn_mem t) v idx = Panic) /\
                   (positive (v_dims v) -> x_trace false (x_operand false st i ops) = (view_els a ops, Ok tt))
            else x_run false (whole (tn_ty t) (tn_dims t)) ops = Panic
      end.
Proof.
  intros T C al most p c HA HG HO HM HK s.
  destruct (@c81_run T C al most p (start c) [] HA HG (start_consistent c) (Forall_nil _) HO HM HK) as (st & more & E & _ & HC & HS & S).
  exists st. split; [exact E|]. assert (ES : s = seen st) by (symmetry; exact S). rewrite ES.
  split; [reflexivity|]. split; [reflexivity|]. split; [unfold seen; cbn [r_vars]; now rewrite map_length|].
  intros i. rewrite rvar_seen. destruct (var st i) as [t|] eqn:EV; cbn [option_map]; [|reflexivity].
  exists t. split; [reflexivity|]. cbn [as_arr a_ty a_dims a_els]. do 3 (split; [reflexivity|]). intros ops HV HI.
  pose proof (var_ok HC EV) as Ht. pose proof (var_small HS EV) as HSt. destruct (tensor_machine Ht HSt) as [HN _].
  destruct (x_views Ht HSt HV HI (unchecked _)) as [_ [[EX EP]|(v & XV)]];
    destruct (views_run Ht HV) as [_ [(EP' & K & _)|(v' & EK & K & _ & D & _ & _ & X)]]; rewrite K; try congruence.
  { rewrite (xv_exact XV) in EP'. discriminate. }
  assert (v' = v) as -> by (pose proof (xv_exact XV); congruence). pose proof (xv_same XV) as SV.
  assert (GET : forall idx, in_bounds (v_dims v) idx -> x_get false (tn_mem t) (wrapv v) idx = v_get (tn_mem t) v idx).
  { intros idx B. assert (NI : nonneg idx) by (clear - B; unfold nonneg; induction B; constructor; auto; lia). unfold x_get. destruct (@x_index_cases false _ (wrapv v) idx (mv_valid (xv_machine XV)) (proj2 HN) NI) as [[B' EX]|[B' EX]];
      [|exfalso; apply B'; now rewrite (sv_dims SV)].
    rewrite EX. cbn [bind]. rewrite v_get_in by exact B. rewrite <- (sv_addr SV); [reflexivity|exact B']. }
  exists (wrapv v). split; [exact (xv_run XV)|]. rewrite wrapv_dims. split; [exact (xv_dims XV)|]. split; [|split].
  - assert (IN : forall idx, In idx (indices (v_dims v)) -> in_bounds (v_dims v) idx) by (intros idx I; now apply in_indices).
    revert X IN. unfold contents. generalize (indices (v_dims v)) as ii. intros ii X. induction X as [|idx x jj xs H X IH]; intros IN; constructor.
    + rewrite GET; [exact H|apply IN; now left].
    + apply IH. intros j J. apply IN. now right.
  - intros idx HX NB. unfold x_get. destruct (@x_index_cases false _ (wrapv v) idx (mv_valid (xv_machine XV)) (proj2 HN) HX) as [[B' EX]|[B' EX]];
      [exfalso; apply NB; now rewrite <- (sv_dims SV)|now rewrite EX].
  - intros HP. assert (HL : lends (Datatypes.S i) i ops (seen st)).
    { split; [lia|]. exists (as_arr t). split; [now rewrite rvar_seen, EV|]. split; [exact HV|exact (xv_fits XV)]. }
    destruct (x_lends HC HS HL HI (unchecked _)) as (u & v1 & XL). pose proof (le_var (xl_exact XL)) as EU. rewrite EV in EU. injection EU as <-.
    assert (v1 = v) as -> by (pose proof (xv_exact XV); pose proof (le_run (xl_exact XL)); congruence).
    exact (x_lent_trace XL HP).
Qed.
Print Assumptions c81_reads.

(** The allocator makes no difference. *)
Theorem c81_same : forall T C al al' most (p q : list (act T C)) (c : C),
  al_machine al -> al_machine al' -> grants al most -> grants al' most ->
  acts_ok p (mkRef [] c []) -> m_acts_ok p (mkRef [] c []) -> asks_most most p (mkRef [] c []) ->
  acts_ok q (mkRef [] c []) -> m_acts_ok q (mkRef [] c []) -> asks_most most q (mkRef [] c []) ->
  r_run p (mkRef [] c []) = r_run q (mkRef [] c []) ->
  exists st st', x_prog false al (map (x_code false) p) (start c) = Done tt st /\
    x_prog false al' (map (x_code false) q) (start c) = Done tt st' /\ seen st = seen st'.
Proof.
  intros T C al al' most p q c A1 A2 G1 G2 P1 P2 P3 Q1 Q2 Q3 E.
  destruct (@c81_run T C al most p (start c) [] A1 G1 (start_consistent c) (Forall_nil _) P1 P2 P3) as (st & _ & E1 & _ & _ & _ & S1).
  destruct (@c81_run T C al' most q (start c) [] A2 G2 (start_consistent c) (Forall_nil _) Q1 Q2 Q3) as (st' & _ & E2 & _ & _ & _ & S2).
  exists st, st'. split; [exact E1|]. split; [exact E2|]. rewrite S1, S2. exact E.
Qed.
Print Assumptions c81_same.

(** ** Examples *)

(** The program of [c78_example]. *)
Local Ltac go_on := repeat (match goal with |- ?f (?k :: ?p) ?s => let s' := eval vm_compute in (r_do k s) in
  change (m_act_ok k s /\ f p (r_do k s)); replace (r_do k s) with s' by (vm_compute; reflexivity); split end); cbn [m_act_ok].
Local Ltac dims_it := repeat constructor; vm_compute; discriminate.
Local Ltac args_it := repeat constructor; try discriminate.
Lemma al_1000_grants : grants al_1000 1000.
Proof. intros n H. now apply Z.leb_le. Qed.
Lemma ex_acts_machine : m_acts_ok ex_acts (mkRef [] 0 []).
Proof.
  unfold ex_acts. cbv zeta. go_on; try exact I; try (split; [args_it|intros a E; injection E as <-; intros _; cbn; args_it]); try dims_it; args_it.
Qed.

(** A view whose stride wraps around: it is looped over, zipped, appended, indexed and split; one of the
    indices is out of bounds. *)
Definition ex_far : list vop := [OpView [IxFull; IxStep Unbounded Unbounded (- 2 ^ 62 - 1); IxFull]].
Definition ex_wraps : list (act Z Z) :=
  let keep := fun (x : Z) c => Gives x (c + 1) in
  [ AFromVec [1; 2; 3; 4];
    AIntoShape 0 (STuple [DDyn; DDyn; DDyn]) [2; 1; 2];
    AClone 0 keep;
    AEach 0 ex_far (fun x c => Edit (Some (x + 10)) (c + 1) true);
    AZipEach 1 ex_far 0 ex_far (fun x y c => Edit (Some (100 * x + y)) c true);
    AExpand 0 1 ex_far keep;
    ASetAt 0 ex_far [3; 0; 1] (fun x c => Edit (Some 0) c true);
    ASetAt 0 ex_far [0; 0; 2] (fun x c => Edit (Some 7) c true);
    AHalves 0 ex_far (AxConst 0) 2 [] [] (fun x y c => Edit (Some (x - y)) c true) ].

Local Ltac views_it :=
  split; [repeat constructor|]; split; [discriminate|]; split; [cbn; lia|]; split; [cbn; repeat split; auto; try lia; repeat constructor; try discriminate|reflexivity].
Local Ltac lends_it := eapply lends_works; [discriminate|reflexivity|views_it|reflexivity].
Local Ltac pos_it := cbn; repeat constructor.
Lemma ex_wraps_ok : acts_ok ex_wraps (mkRef [] 0 []).
Proof.
  unfold ex_wraps. cbv zeta.
  repeat (match goal with |- acts_ok (?k :: ?p) ?s => let s' := eval vm_compute in (r_do k s) in
    change (act_ok k s /\ acts_ok p (r_do k s)); replace (r_do k s) with s' by (vm_compute; reflexivity); split end);
  unfold act_ok, on; try match goal with |- context [rvar ?s ?i] => let a := eval vm_compute in (rvar s i) in change (rvar s i) with a end; cbv iota beta;
  unfold one_ok; cbn [a_dims a_els a_ty].
  - exact I.
  - split; [repeat constructor; discriminate|]. split; [reflexivity|]. split; [repeat constructor|]. intros ds E. injection E as <-. intros [F|[F|[F|[]]]]; discriminate F.
  - exact I.
  - split; [views_it|]. intros _. right. left. pos_it.
  - split; [views_it|]. split; [lends_it|]. intros _. pos_it.
  - split; [lends_it|]. intros b E. injection E as <-. right. left. pos_it.
  - split; [views_it|repeat constructor; discriminate].
  - split; [views_it|repeat constructor; discriminate].
  - split; [views_it|]. split; [views_it|]. intros _. pos_it.
  - exact I.
Qed.
Lemma ex_wraps_machine : m_acts_ok ex_wraps (mkRef [] 0 []).
Proof.
  unfold ex_wraps. cbv zeta. go_on; try exact I; try (split; [args_it|intros a E; injection E as <-; intros _; cbn; args_it]); try dims_it; args_it.
Qed.
Example c81_example : al_machine al_1000 /\ grants al_1000 1000 /\ acts_ok ex_wraps (mkRef [] 0 []) /\
  m_acts_ok ex_wraps (mkRef [] 0 []) /\ asks_most 1000 ex_wraps (mkRef [] 0 []) /\
  m_acts_ok ex_acts (mkRef [] 0 []) /\
  exists st, x_prog false al_1000 (map (x_code false) ex_wraps) (start 0) = Done tt st /\ seen st = r_run ex_wraps (mkRef [] 0 []) /\
    r_run ex_wraps (mkRef [] 0 []) =
      mkRef [Some (mkArr (STuple [DDyn; DDyn; DDyn]) [4; 1; 2] [-100; -200; -300; 14; 111; 212; 313; 0]);
             Some (mkArr (STuple [DDyn; DDyn; DDyn]) [2; 1; 2] [111; 212; 313; 414])] 12 [].
Proof.
  split; [exact al_1000_machine|]. split; [exact al_1000_grants|]. split; [exact ex_wraps_ok|]. split; [exact ex_wraps_machine|]. split; [|split].
  - unfold ex_wraps. cbv zeta.
    repeat (match goal with |- asks_most ?n (?k :: ?p) ?s => let s' := eval vm_compute in (r_do k s) in
      change (asks k s <= n /\ asks_most n p (r_do k s)); replace (r_do k s) with s' by (vm_compute; reflexivity); split end; [vm_compute; discriminate|]).
    exact I.
  - exact ex_acts_machine.
  - eexists. split; [vm_compute; reflexivity|]. split; [vm_compute; reflexivity|]. vm_compute. reflexivity.
Qed.

(** With overflow checks the first use of the view panics, so debug builds do not follow the interpreter here. *)
Theorem c81_checked_refuted : exists (p : list (act Z Z)) st,
  acts_ok p (mkRef [] 0 []) /\ m_acts_ok p (mkRef [] 0 []) /\ asks_most 1000 p (mkRef [] 0 []) /\
  x_prog true al_1000 (map (x_code true) p) (start 0) = Done tt st /\ seen st <> r_run p (mkRef [] 0 []).
Proof.
  exists (firstn 4 ex_wraps). eexists.
  destruct c81_example as (_ & _ & HO & HM & HK & _).
  assert (G : forall k p s, acts_ok p s -> m_acts_ok p s -> asks_most 1000 p s ->
    acts_ok (firstn k p) s /\ m_acts_ok (firstn k p) s /\ asks_most 1000 (T := Z) (C := Z) (firstn k p) s).
  { induction k as [|k IH]; intros [|a p] s; cbn [firstn acts_ok m_acts_ok asks_most]; auto.
    intros [A1 A2] [M1 M2] [K1 K2]. destruct (IH p _ A2 M2 K2) as (B1 & B2 & B3). auto. }
  destruct (G 4%nat _ _ HO HM HK) as (B1 & B2 & B3). do 3 (split; [assumption|]).
  split; [vm_compute; reflexivity|]. vm_compute. discriminate.
Qed.
Print Assumptions c81_checked_refuted.
