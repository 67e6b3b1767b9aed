(** Property C69: iterating with machine integers, with and without overflow checks. *)
From Verif Require Import Base Spec SpecFacts Shape Mapping Index View Wf MappingFacts MapOps ReshapeFacts.
From Verif Require Import IndexFacts ViewFacts ViewMore Expr ExprSpec ExprFacts IterFacts SourceFacts ExprTree ExprMore.
From Verif Require Import Machine MachineSpec MachineFacts MachineViews MachineReshape MachineRun MachineWrap MachineRelease MachineSteps MachineIter MachineIterFacts MachineSources MachineChecks PropsView PropsExpr PropsMachine PropsWrap.
Unset Strict Implicit.

(** ** Right results *)

(** Building an expression gives one of the tree's shape, or panics if shapes do not match. *)
Theorem c69_build : forall dbg size A (t : tree A), t_leaves t -> t_machine dbg size t ->
  (t_zips t -> exists e, x_build dbg t = Ok e /\ e_dims e = t_dims t) /\ (~ t_zips t -> x_build dbg t = Panic).
Proof.
  intros dbg size A t HL HM. destruct (x_build_cases HL HM) as [(HZ & e & E & B)|(HZ & E)]; split; intros H; try tauto.
  exists e. split; [exact E|apply (xb_dims B)].
Qed.
Print Assumptions c69_build.

(** Internal iteration computes the items at all indices in row-major order, in both build modes.  Counters and offsets do not overflow. *)
Theorem c69_fold : forall dbg size A T (t : tree A) e (f : T -> A -> outcome T) acc,
  t_leaves t -> t_machine dbg size t -> x_build dbg t = Ok e ->
  (t_need t <= length (t_dims t) - t_outer t)%nat ->
  x_fold dbg e f acc = run_value (t_act t) f (indices (t_dims t)) (t_init t) acc.
Proof.
  intros dbg size A T t e f acc HL HM HE HN.
  destruct (x_build_cases HL HM) as [(HZ & e' & E & B)|(HZ & E)]; rewrite HE in E; [|discriminate]. injection E as <-.
  exact (x_tree_fold HL HM B HN f acc).
Qed.
Print Assumptions c69_fold.

(** External iteration: [n] calls of [next] give the first [n] items; the size hint is exact; the rest can be folded;
    after the last item comes [None]. *)
Theorem c69_next : forall dbg size A (t : tree A) e n,
  t_leaves t -> t_machine dbg size t -> x_build dbg t = Ok e ->
  (t_need t <= length (t_dims t) - t_outer t)%nat -> (n <= Z.to_nat (prodZ (t_dims t)))%nat ->
  agree (fun x y =>
      fst x = map Some (fst y) /\
      x_size dbg (snd x) = Ok (prodZ (t_dims t) - Z.of_nat n) /\
      (forall T (f : T -> A -> outcome T) acc,
         x_it_fold dbg f (snd x) acc = run_value (t_act t) f (skipn n (indices (t_dims t))) (snd y) acc) /\
      (n = Z.to_nat (prodZ (t_dims t)) -> exists it', x_next dbg (snd x) = Ok (None, it')))
    (let* it := x_it_new dbg e in x_nexts dbg n it)
    (items (t_act t) (firstn n (indices (t_dims t))) (t_init t)).
Proof.
  intros dbg size A t e n HL HM HE HN Hn.
  destruct (x_build_cases HL HM) as [(HZ & e' & E & B)|(HZ & E)]; rewrite HE in E; [|discriminate]. injection E as <-.
  exact (x_tree_next HL HM B HN Hn).
Qed.
Print Assumptions c69_next.

(** ** Views *)
Lemma machine_walkable dbg n v : machine_view n v -> n <= isize_max -> positive (v_dims v) ->
  (dbg = true -> Forall (fun s => s <> isize_min) (m_strides (v_map v))) -> walkable dbg n v.
Proof.
  intros HM HN HP HS. pose proof (mv_valid HM) as HV. split; [exact HV|]. split; [exact HN|]. split; [exact HP|].
  assert (HI : Forall is_isize (m_strides (v_map v))).
  { destruct (v_layout v) eqn:EL; [|now apply (mv_strides HM)].
    assert (N0 : 0 <= n).
    { pose proof (vv_range HV (IterFacts.in_bounds_zeros HP)). lia. }
    pose proof (valid_len N0 HV) as VL. fold (v_dims v) in VL.
    assert (HR : roomy (m_dims (v_map v))) by (unfold roomy; rewrite mx_positive by exact HP; unfold v_dims in VL; lia).
    pose proof (dense_strides EL (wf_nonneg (vv_wf HV)) HR) as SS. unfold strides_small in SS.
    eapply Forall_impl; [|exact SS]. cbn beta. intros s Hs. unfold is_isize, isize_min, isize_max in *. lia. }
  apply Forall_forall. intros s Hs. rewrite Forall_forall in HI. split; [apply HI, Hs|].
  intros ->. specialize (HS eq_refl). rewrite Forall_forall in HS. now apply HS.
Qed.

Lemma walk_view dbg n rep v T (f : T -> Z -> outcome T) acc : walkable dbg n v ->
  x_fold dbg (x_e_view dbg n rep v) f acc = foldM f (map (v_addr v) (indices (v_dims v))) acc.
Proof.
  intros HW. pose proof HW as (HV & _).
  rewrite (@c69_fold dbg (fun _ => n) Z T (TView n rep v) _ f acc HV HW eq_refl); [|cbn; lia].
  cbn [t_act t_dims t_init]. apply run_pure.
Qed.

(** Without overflow checks, iterating over a view with elements visits its elements in row-major order, whatever its strides. *)
Theorem c69_release : forall n rep v T (f : T -> Z -> outcome T) acc,
  n <= isize_max -> machine_view n v -> positive (v_dims v) ->
  x_fold false (x_e_view false n rep v) f acc = foldM f (map (v_addr v) (indices (v_dims v))) acc.
Proof. intros n rep v T f acc HN HM HP. apply walk_view, machine_walkable; auto. discriminate. Qed.
Print Assumptions c69_release.

(** With overflow checks it does so as well, or panics: the latter exactly if a stride is [isize::MIN]. *)
Theorem c69_debug : forall n rep v T (f : T -> Z -> outcome T) acc,
  n <= isize_max -> machine_view n v -> positive (v_dims v) -> (forall t a, exists t', f t a = Ok t') ->
  (Forall (fun s => s <> isize_min) (m_strides (v_map v)) ->
     x_fold true (x_e_view true n rep v) f acc = foldM f (map (v_addr v) (indices (v_dims v))) acc) /\
  (In isize_min (m_strides (v_map v)) -> x_fold true (x_e_view true n rep v) f acc = Panic).
Proof.
  intros n rep v T f acc HN HM HP HF. split.
  - intros HS. apply walk_view, machine_walkable; auto.
  - intros HI. pose proof (sim_fold (sim_view n rep v) f acc) as S.
    rewrite c69_release in S by auto.
    assert (HO : exists r, foldM f (map (v_addr v) (indices (v_dims v))) acc = Ok r).
    { generalize (map (v_addr v) (indices (v_dims v))). intros l. revert acc S. clear - HF. intros acc _. revert acc.
      induction l as [|a l IH]; intros acc; cbn [foldM]; [eauto|]. destruct (HF acc a) as (t' & ->). cbn [bind]. apply IH. }
    destruct HO as (r & HO). rewrite HO in S.
    destruct (x_fold true (x_e_view true n rep v) f acc) as [r'| | |] eqn:E; cbn in S; try contradiction; auto. exfalso.
    pose proof (vv_wf (mv_valid HM)) as HW.
    destruct (In_nth _ _ 0 HI) as (d & Hd & ED).
    assert (HS : m_layout (v_map v) = Strided).
    { destruct (m_layout (v_map v)) eqn:EL; auto. exfalso.
      assert (HWK : walkable false n v) by (apply machine_walkable; auto; discriminate).
      pose proof (dense_strides EL (wf_nonneg HW) (wk_roomy HWK)) as SS. unfold strides_small in SS.
      rewrite Forall_forall in SS. specialize (SS _ HI). unfold isize_min, isize_max in SS. lia. }
    pose proof (wf_strides HW) as LS. fold (v_dims v) in LS.
    unfold x_fold in E. destruct (x_it_new true (x_e_view true n rep v)) as [it| | |]; cbn [bind] in E; try discriminate.
    assert (HR : exists c st st', e_reset (x_e_view true n rep v) d c st = Ok st').
    { apply (fold_resets E). unfold outer_rank, e_rank. cbn [x_e_view e_dims e_inner]. unfold map_inner_rank. rewrite HS.
      unfold m_rank. fold (v_dims v). destruct (Nat.ltb_spec 0 (length (v_dims v))); lia. }
    destruct HR as (c & st & st' & ER). rewrite reset_overflows in ER; auto; [discriminate|lia].
Qed.
Print Assumptions c69_debug.

(** ** Both build modes *)

(** Overflow checks only add panics: whatever the expression and the closure, iterating with checks panics or gives
    what iterating without them gives. *)
Theorem c69_checks : forall A T (t : tree A) (f : T -> A -> outcome T) acc,
  let go dbg := let* e := x_build dbg t in x_fold dbg e f acc in go true = Panic \/ go true = go false.
Proof.
  intros A T t f acc go.
  assert (H : ole eq (go true) (go false)).
  { unfold go. eapply ole_bind; [apply build_le|]. intros a b [R HR]. exact (sim_fold HR f acc). }
  destruct (go true), (go false); cbn in H; try contradiction; auto. right. congruence.
Qed.
Print Assumptions c69_checks.

Theorem c69_checks_next : forall A (t : tree A) n,
  let go dbg := let* e := x_build dbg t in let* it := x_it_new dbg e in
                let* (l, it) := x_nexts dbg n it in let* k := x_size dbg it in Ok (l, k) in
  go true = Panic \/ go true = go false.
Proof.
  intros A t n go.
  assert (H : ole eq (go true) (go false)).
  { unfold go. eapply ole_bind; [apply build_le|]. intros a b [R HR]. eapply ole_bind; [exact (sim_new HR)|].
    intros i j HI. eapply ole_bind; [exact (sim_nexts HR n HI)|]. intros [l i1] [l' j1] [E HI1]. cbn [fst snd] in *. subst l'.
    eapply ole_bind; [exact (sim_size HR HI1)|]. intros k ? <-. reflexivity. }
  destruct (go true), (go false); cbn in H; try contradiction; auto. right. congruence.
Qed.
Print Assumptions c69_checks_next.

(** ** Sizes that overflow *)

(** Lanes, the subarrays along an axis and [from_fn] panic in both build modes when the number of elements of the
    mapping they are to iterate over, or hand out, does not fit. *)
Theorem c69_refused : forall dbg,
  (forall rep v a m, x_ax_remove dbg a (v_map v) = Ok m -> ~ fits (m_dims m) -> x_lanes dbg rep v a = Panic) /\
  (forall rep v a m e i st, x_ax_remove dbg a (v_map v) = Ok m -> ~ fits (m_dims m) ->
     x_axis dbg rep v a = Ok e -> e_get e i st = Panic) /\
  (forall A F ty dims (f : list Z -> F -> outcome (A * F)) f0, ~ fits dims -> x_from_fn dbg ty dims f f0 = Panic).
Proof.
  intros dbg.
  assert (HN : forall dims, ~ fits dims -> sh_checked_len dims = None).
  { intros dims H. destruct (checked_len_cases dims); tauto. }
  split; [|split].
  - intros rep v a m E H. unfold x_lanes. rewrite E. cbn [bind]. now rewrite (HN _ H).
  - intros rep v a m e i st E H EX. unfold x_axis in EX.
    destruct (x_ax_get dbg a (v_map v)) as [g| | |]; cbn [bind] in EX; try discriminate.
    injection EX as <-. cbn [e_get e_st] in *. unfold i_res at 1.
    destruct (i_fits (inner_stride g * as_isize i)); [|destruct dbg; [reflexivity|]]; cbn [bind]; unfold i_res;
      (match goal with |- context [i_fits ?x] => destruct (i_fits x) end; [|try destruct dbg; try reflexivity]);
      cbn [bind]; rewrite E; cbn [bind]; now rewrite (HN _ H).
  - intros A F ty dims f f0 H. unfold x_from_fn. now rewrite (HN _ H).
Qed.
Print Assumptions c69_refused.
Example c69_refused_example : forall dbg,
  let v := mkView 0 (DenseM (STuple [DDyn; DDyn; DDyn]) [0; 2 ^ 63; 4]) in
  prodZ (v_dims v) = 0 /\ x_ax_remove dbg (AxConst 0) (v_map v) = Ok (DenseM (STuple [DDyn; DDyn]) [2 ^ 63; 4]) /\
  sh_checked_len [2 ^ 63; 4] = None /\ x_lanes dbg true v (AxConst 0) = Panic.
Proof. intros [|]; vm_compute; repeat split; reflexivity. Qed.

(** ** Programs *)

(** Iterating over the result of any view operations without checks, or with checks if no stride became [isize::MIN]:
    every element visited is one of the view it started from. *)
Theorem c69_run : forall dbg n rep v os v',
  0 <= n <= isize_max -> machine_view n v -> run_machine dbg v os -> x_run dbg v os = Ok v' -> positive (v_dims v') ->
  (dbg = true -> ~ In isize_min (m_strides (v_map v'))) ->
  exists f, shows v v' f /\
    forall T (g : T -> Z -> outcome T) acc,
      x_fold dbg (x_e_view dbg n rep v') g acc = foldM g (map (fun idx => v_addr v (f idx)) (indices (v_dims v'))) acc.
Proof.
  intros dbg n rep v os v' HN HM HR E HP HS.
  destruct (@x_run_safe dbg n os v HN HM HR) as [E'|(w & E' & M' & f & S)]; rewrite E in E'; [discriminate|]. injection E' as <-.
  exists f. split; [exact S|]. intros T g acc. rewrite walk_view.
  - f_equal. apply map_ext_in. intros idx Hidx. destruct (S idx) as [_ <-]; auto. now apply in_indices.
  - apply machine_walkable; auto; [lia|]. intros HD. apply Forall_forall. intros s Hs ->. now apply (HS HD).
Qed.
Print Assumptions c69_run.

(** ** What cannot be had *)
Definition collect (l : list Z) (a : Z) : outcome (list Z) := Ok (l ++ [a]).

(** A view of both elements of an array, made without overflow, that cannot be iterated with overflow checks: the step
    [-2^62] gives the unit dimension the stride [isize::MIN], and [reset_dim] negates it (view.rs:375). *)
Theorem c69_refuted : exists v os v',
  machine_view 2 v /\ run_machine true v os /\ x_run true v os = Ok v' /\ x_run false v os = Ok v' /\ v_dims v' = [1; 2] /\
  x_fold true (x_e_view true 2 true v') collect [] = Panic /\
  x_fold false (x_e_view false 2 true v') collect [] = Ok [0; 1] /\
  e_fold (e_view 2 true v') collect [] = Ok [0; 1].
Proof.
  exists (whole dyn2 [1; 2]), [OpView [IxStep Unbounded Unbounded (- 2 ^ 62); IxFull]].
  eexists. split.
  { constructor; [apply whole_valid; wf_tac|repeat constructor; vm_compute; discriminate|intros E; discriminate]. }
  split.
  { split; [|intros; exact I]. split; [|exact I]. split; [|reflexivity].
    constructor; [cbn [ix_arg bound_arg]; repeat split; discriminate|]. constructor; [exact I|constructor]. }
  split; [vm_compute; reflexivity|]. repeat (split; [vm_compute; reflexivity|]). vm_compute. reflexivity.
Qed.
Print Assumptions c69_refuted.

(** A view without elements whose other dimensions are large: with checks [Iter::new] panics (iter.rs:26). *)
Theorem c69_empty_refuted : exists n v, machine_view n v /\ prodZ (v_dims v) = 0 /\
  x_fold true (x_e_view true n true v) collect [] = Panic /\
  x_fold false (x_e_view false n true v) collect [] = Ok [] /\ e_fold (e_view n true v) collect [] = Ok [].
Proof.
  exists 0, (whole dyn3 [2 ^ 40; 2 ^ 40; 0]). split.
  { constructor; [apply PropsExpr.empty_valid; wf_tac|repeat constructor; vm_compute; discriminate|intros E; discriminate]. }
  repeat (split; [vm_compute; reflexivity|]). vm_compute. reflexivity.
Qed.
Print Assumptions c69_empty_refuted.

(** ** Examples *)

(** [edge]: two elements, [2 ^ 62 + 1] cells apart. *)
Example c69_release_example : positive (v_dims edge) /\ machine_view isize_max edge /\
  x_fold false (x_e_view false isize_max true edge) collect [] = Ok [0; 2 ^ 62 + 1] /\
  x_fold true (x_e_view true isize_max true edge) collect [] = Ok [0; 2 ^ 62 + 1].
Proof.
  split; [repeat constructor|]. split; [exact edge_machine|]. split; vm_compute; reflexivity.
Qed.

(** Rows of a matrix backwards, numbered, with an array made by a closure: in both build modes. *)
Definition walk : tree (Z * Z * Z) :=
  TZip (TEnumerate (TView 6 true (mkView 3 (StridedM dyn2 [2; 3] [-3; 1]))))
       (TFromFn dyn1 [3] (fun idx s => Ok (nth 0 idx 0 + s, s + 10)) 0).
Example walk_valid : valid_view 6 (mkView 3 (StridedM dyn2 [2; 3] [-3; 1])).
Proof.
  constructor.
  - wf_tac.
  - intros idx H. inb H. cbv [v_addr v_ptr v_map m_offset for_each_stride map seq length fold_left fst snd nth]. lia.
  - intros i j Hi Hj E. inb Hi. inb Hj. cbv [v_addr v_ptr v_map m_offset for_each_stride map seq length fold_left fst snd nth] in E.
    repeat f_equal; lia.
Qed.
Example c69_fold_example : forall dbg,
  t_leaves walk /\ t_machine dbg (fun _ => 0) walk /\ t_zips walk /\ t_outer walk = 1%nat /\
  exists e, x_build dbg walk = Ok e /\
    x_fold dbg e (fun l x => Ok (l ++ [x])) [] =
      Ok [(0, 3, 0); (1, 4, 11); (2, 5, 22); (3, 0, 30); (4, 1, 41); (5, 2, 52)] /\
    (let* it := x_it_new dbg e in let* (l, it) := x_nexts dbg 4 it in let* k := x_size dbg it in Ok (l, k)) =
      Ok ([Some (0, 3, 0); Some (1, 4, 11); Some (2, 5, 22); Some (3, 0, 30)], 2).
Proof.
  intros dbg. split; [|split; [|split; [|split]]].
  - split; [exact walk_valid|]. split; [constructor; [lia|constructor]|]. split; [repeat constructor|].
    split; [apply fits_positive; [repeat constructor|vm_compute; discriminate]|discriminate].
  - split.
    + split; [exact walk_valid|]. split; [vm_compute; discriminate|]. split; [repeat constructor|].
      constructor; [|constructor; [|constructor]]; (split; [split|intros _]; vm_compute; discriminate).
    + split; [repeat constructor|vm_compute; discriminate].
  - cbn. repeat split; auto.
  - reflexivity.
  - destruct dbg; eexists; (split; [reflexivity|]); split; vm_compute; reflexivity.
Qed.

(** With and without checks: the stride [isize::MIN] of [c69_refuted]. *)
Example c69_checks_example :
  let t := TView 2 true (mkView 0 (StridedM dyn2 [1; 2] [isize_min; 1])) in
  let go dbg := let* e := x_build dbg t in x_fold dbg e collect [] in go true = Panic /\ go false = Ok [0; 1].
Proof. split; vm_compute; reflexivity. Qed.
