(** Theorems for C82: the reference interpreter for programs that run with 64-bit machine integers and overflow checks
    (debug builds).

    [calm_acts] (ReferMachine.v) asks that making the views of the program overflows nowhere, and [plain_acts] that
    they are made without steps and diagonals from arrays of at most [isize::MAX / 2] elements and are nowhere empty. *)
From Verif Require Import Base Spec SpecFacts Shape Mapping Index View Wf MappingFacts MapOps
  ReshapeFacts IndexFacts ViewFacts ViewMore PropsView.
From Verif Require Import Expr ExprSpec ExprFacts IterFacts SourceFacts ExprTree ExprMore PropsExpr.
From Verif Require Import Tensor TraceFacts TensorSpec TensorFacts ResizeFacts TensorOps DrainFacts OwnFacts
  ZipFacts OwnMore OpsFacts History HistoryFacts OwnProps PropsTensor PropsMore Program ProgramFacts PropsProgram.
From Verif Require Import Machine MachineSpec MachineFacts MachineRun MachineWrap MachineSteps MachineIter MachineSources
  PropsMachine PropsWrap PropsMachineIter PropsMachineTensor.
From Verif Require Import MachineTensor MachineTensorFacts MachineTensorMore MachineTensorRun MachineProgram MachineProgramFacts PropsMachineProgram.
From Verif Require Import Select SelectFacts PropsSelect Refer ReferFacts PropsRefer ReferRoom ReferRoomFacts ReferMachine ReferMachineFacts PropsReferMachine.
Unset Strict Implicit.

(** One call with overflow checks does what the interpreter says. *)
Theorem c82_step : forall T C al most (k : act T C) (st : state T C) l,
  al_machine al -> grants al most -> consistent st l -> small_state true st ->
  act_ok k (seen st) -> m_act_ok k (seen st) -> calm_act k (seen st) -> asks k (seen st) <= most ->
  exists st' more, x_exec true al (x_code true k st) st = Done tt st' /\
    consistent st' (l ++ more) /\ small_state true st' /\ seen st' = r_do k (seen st).
Proof.
  intros T C al most k st l H1 H2 H3 H4 H5 H6 H7 H8. destruct (machine_step H1 H2 H3 H4 H5 H6 (fun _ => H7) H8) as (st' & more & E & _ & R).
  exists st', more. auto.
Qed.
Print Assumptions c82_step.

(** So do programs, and their last state is the one with unbounded integers. *)
Theorem c82_run : forall T C al most (p : list (act T C)) (st : state T C) l,
  al_machine al -> grants al most -> consistent st l -> small_state true st ->
  acts_ok p (seen st) -> m_acts_ok p (seen st) -> calm_acts p (seen st) -> asks_most most p (seen st) ->
  exists st' more, x_prog true al (map (x_code true) p) st = Done tt st' /\ run_prog al (map code p) st = Done tt st' /\
    consistent st' (l ++ more) /\ small_state true st' /\ seen st' = r_run p (seen st).
Proof. intros T C al most p st l H1 H2 H3 H4 H5 H6 H7. exact (machine_run H1 H2 H3 H4 H5 H6 (fun _ => H7)). Qed.
Print Assumptions c82_run.

(** Debug and release builds of a program leave the same state. *)
Theorem c82_builds : forall T C al most (p : list (act T C)) (c : C),
  al_machine al -> grants al most ->
  acts_ok p (mkRef [] c []) -> m_acts_ok p (mkRef [] c []) -> calm_acts p (mkRef [] c []) -> asks_most most p (mkRef [] c []) ->
  exists st, x_prog true al (map (x_code true) p) (start c) = Done tt st /\ x_prog false al (map (x_code false) p) (start c) = Done tt st /\
    seen st = r_run p (mkRef [] c []).
Proof.
  intros T C al most p c H1 H2 H3 H4 H5 H6.
  destruct (@c82_run T C al most p (start c) [] H1 H2 (start_consistent c) (Forall_nil _) H3 H4 H5 H6) as (st & _ & E1 & E2 & _ & _ & S).
  destruct (@c81_run T C al most p (start c) [] H1 H2 (start_consistent c) (Forall_nil _) H3 H4 H6) as (st' & _ & E1' & E2' & _).
  rewrite E2 in E2'. injection E2' as <-. exists st. auto.
Qed.
Print Assumptions c82_builds.

(** Views made without steps and diagonals never overflow. *)
Theorem c82_plain : forall T (t : tensor T) ops,
  tensor_ok t -> views (as_arr t) ops -> plain (as_arr t) ops -> calm (as_arr t) ops.
Proof. intros T t ops H1 H2 H3. exact (proj1 (plain_calm H1 H2 H3)). Qed.
Print Assumptions c82_plain.

Theorem c82_plain_run : forall T C al most (p : list (act T C)) (st : state T C) l,
  al_machine al -> grants al most -> consistent st l -> small_state true st ->
  acts_ok p (seen st) -> m_acts_ok p (seen st) -> plain_acts p (seen st) -> asks_most most p (seen st) ->
  exists st' more, x_prog true al (map (x_code true) p) st = Done tt st' /\
    consistent st' (l ++ more) /\ small_state true st' /\ seen st' = r_run p (seen st).
Proof.
  intros T C al most p st l HA HG. revert st l.
  induction p as [|k p IH]; intros st l HC HS HO HM HP HK; cbn [map x_prog r_run acts_ok m_acts_ok plain_acts asks_most] in *.
  - exists st, []. rewrite app_nil_r. auto.
  - destruct HO as [H1 H2]. destruct HM as [M1 M2]. destruct HK as [A1 A2]. destruct HP as [P1 P2].
    destruct (@c82_step T C al most k st l HA HG HC HS H1 M1 (plain_calm_act HC H1 P1) A1) as (st1 & m1 & E1 & C1 & S1 & R1).
    rewrite <- R1 in H2, M2, A2, P2 |- *.
    destruct (IH st1 _ C1 S1 H2 M2 P2 A2) as (st2 & m2 & E2 & C2 & S2 & R2). exists st2, (m1 ++ m2). unfold seqM. rewrite E1.
    split; [exact E2|]. split; [now rewrite app_assoc|auto].
Qed.
Print Assumptions c82_plain_run.

(** ** Examples *)
Local Ltac go_on := repeat (match goal with |- ?f (?k :: ?p) ?s => let s' := eval vm_compute in (r_do k s) in
  change (plain_act k s /\ f p (r_do k s)); replace (r_do k s) with s' by (vm_compute; reflexivity); split end).
Local Ltac calm_on := repeat (match goal with |- ?f (?k :: ?p) ?s => let s' := eval vm_compute in (r_do k s) in
  change (calm_act k s /\ f p (r_do k s)); replace (r_do k s) with s' by (vm_compute; reflexivity); split end).
Local Ltac ops_it := cbn [app]; match goal with
  | |- plain_ops _ [] => exact I
  | |- plain_ops _ _ => split; [try exact I; repeat constructor|intros _; split; [vm_compute; reflexivity|ops_it]]
  end.
Local Ltac plain_it := split; [repeat constructor|]; split; [vm_compute; discriminate|]; cbn [a_dims]; ops_it.
Local Ltac lent_it := intros b EB; injection EB as <-; plain_it.
Lemma ex_acts_plain : plain_acts ex_acts (mkRef [] 0 []).
Proof.
  unfold ex_acts. cbv zeta. go_on; try exact I; intros i a EI EA; try discriminate EI; injection EI as <-;
    vm_compute in EA; try discriminate EA; injection EA as <-; cbn [plain_one]; try exact I.
  - split; [plain_it|lent_it].
  - lent_it.
  - plain_it.
  - plain_it.
  - split; plain_it.
  - lent_it.
Qed.

(** A stepped view whose strides fit; [ex_wraps] (PropsReferMachine.v) has one whose strides do not. *)
Definition ex_steps : list (act Z Z) :=
  [ AFromVec [1; 2; 3; 4; 5; 6];
    AEach 0 [OpView [IxStep Unbounded Unbounded (-2)]] (fun x c => Edit (Some (10 * x)) (c + x) true);
    AResizeWith 0 [8] (fun c => Gives c (c + 1)) ].
Lemma ex_steps_calm : calm_acts ex_steps (mkRef [] 0 []).
Proof.
  unfold ex_steps. calm_on; try exact I; intros i a EI EA; try discriminate EI; injection EI as <-; vm_compute in EA; injection EA as <-; cbn [calm_one].
  - intros v E. vm_compute in E. injection E as <-. split; [vm_compute; reflexivity|]. repeat constructor; discriminate.
  - intros _ (x & y & E & P & _). destruct x as [|x0 [|? ?]]; discriminate E.
Qed.

Example c82_example :
  al_machine al_1000 /\ grants al_1000 1000 /\ acts_ok ex_acts (mkRef [] 0 []) /\ m_acts_ok ex_acts (mkRef [] 0 []) /\
  plain_acts ex_acts (mkRef [] 0 []) /\ calm_acts ex_steps (mkRef [] 0 []) /\
  exists st st', x_prog true al_1000 (map (x_code true) ex_acts) (start 0) = Done tt st /\ seen st = mkRef [None; None] 20 [5; 4; 120; -6; 1; 140; 3] /\
    x_prog true al_1000 (map (x_code true) ex_steps) (start 0) = Done tt st' /\
    seen st' = mkRef [Some (mkArr (STuple [DDyn]) [8] [1; 20; 3; 40; 5; 60; 12; 13])] 14 [].
Proof.
  split; [exact al_1000_machine|]. split; [exact al_1000_grants|]. split; [exact ex_acts_ok|]. split; [exact ex_acts_machine|].
  split; [exact ex_acts_plain|]. split; [exact ex_steps_calm|].
  do 2 eexists. split; [vm_compute; reflexivity|]. split; [vm_compute; reflexivity|]. split; [vm_compute; reflexivity|]. vm_compute. reflexivity.
Qed.

(** Without the condition on [resize] the stride behind the empty dimension overflows, although nothing is read with it. *)
Definition ex_behind : list (act Z Z) :=
  [ AFromVec []; AIntoShape 0 (STuple [DDyn; DDyn; DDyn]) [0; 2 ^ 33; 2 ^ 33]; AResizeWith 0 [1; 1; 1] (fun c => Gives 5 c) ].
Local Ltac all_on f g := unfold ex_behind; repeat (match goal with |- f (?k :: ?p) ?s => let s' := eval vm_compute in (r_do k s) in
  change (g k s /\ f p (r_do k s)); replace (r_do k s) with s' by (vm_compute; reflexivity); split end).
Theorem c82_resize_refuted :
  acts_ok ex_behind (mkRef [] 0 []) /\ m_acts_ok ex_behind (mkRef [] 0 []) /\ asks_most 1000 ex_behind (mkRef [] 0 []) /\
  exists st, x_prog true al_1000 (map (x_code true) ex_behind) (start 0) = Done tt st /\ seen st <> r_run ex_behind (mkRef [] 0 []) /\
    exists st', x_prog false al_1000 (map (x_code false) ex_behind) (start 0) = Done tt st' /\ seen st' = r_run ex_behind (mkRef [] 0 []).
Proof.
  split; [|split; [|split]].
  - all_on (@acts_ok Z Z) (@act_ok Z Z); try exact I; cbn [act_ok on rvar nth_error r_vars one_ok a_ty].
    + split; [repeat constructor; discriminate|]. split; [reflexivity|]. split; [repeat constructor|]. intros ds E. injection E as <-. intros [F|[F|[F|[]]]]; discriminate F.
    + split; [repeat constructor; discriminate|reflexivity].
  - all_on (@m_acts_ok Z Z) (@m_act_ok Z Z); try exact I; cbn [m_act_ok]; repeat constructor; vm_compute; discriminate.
  - unfold ex_behind. repeat (match goal with |- asks_most ?n (?k :: ?p) ?s => let s' := eval vm_compute in (r_do k s) in
      change (asks k s <= n /\ asks_most n p (r_do k s)); replace (r_do k s) with s' by (vm_compute; reflexivity); split end; [vm_compute; discriminate|]).
    exact I.
  - eexists. split; [vm_compute; reflexivity|]. split; [vm_compute; discriminate|]. eexists. split; vm_compute; reflexivity.
Qed.
Print Assumptions c82_resize_refuted.
