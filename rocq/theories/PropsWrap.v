(** Theorems for C66: overflowing address arithmetic does no harm.

    The theorems for C45 say when nothing overflows.  Here there is no such condition: storage may have up
    to [isize::MAX] cells, ranges may have any step, dimensions of size one any stride, views may be empty.
    [machine_view n v] are the views of [n] cells that can exist at run time; [op_machine v o] the arguments
    that the Rust types admit, with permutations below rank 64 (C51 has the others).  [same_view a b]: same
    pointer, shape, layout and element addresses, so that only strides that no element depends on differ. *)
From Verif Require Import Base Spec SpecFacts Shape Mapping Index View Wf MappingFacts MapOps
  ReshapeFacts IndexFacts ViewFacts ViewMore PropsView PropsExpr
  Machine MachineSpec MachineFacts MachineViews MachineReshape MachineRun MachineWrap MachineRelease MachineSteps PropsMachine.
Unset Strict Implicit.

(** ** Single operations *)

(** Without overflow checks, an operation on a view with elements panics exactly when the exact operation
    does, and otherwise gives the same view. *)
Theorem c66_release_step : forall n v o,
  0 <= n <= isize_max -> machine_view n v -> 0 < prodZ (v_dims v) -> op_machine v o ->
  (v_step v o = Panic /\ x_step false v o = Panic) \/
  exists w v', v_step v o = Ok w /\ x_step false v o = Ok v' /\ machine_view n v' /\ same_view v' w.
Proof.
  intros n v o HN HM HP HO. rewrite (@x_step_exact n v o HN HM HP HO). pose proof (fine_step v o) as F.
  destruct (v_step v o) as [w| | |] eqn:E; try destruct F; [right|now left].
  assert (HU : 0 <= n <= usize_max) by (unfold isize_max, usize_max in *; lia).
  destruct (step_valid HU (mv_valid HM) (mv_dims HM) (proj1 HO) E) as (V & D & _).
  exists w, (wrapv w). split; [reflexivity|]. split; [reflexivity|].
  split; [apply wrap_machine; auto; lia|apply (@wrap_same n); auto; lia].
Qed.
Print Assumptions c66_release_step.

(** With or without checks, and for empty views too: an operation panics, or the result is the result of the
    exact operation.  It points into the storage, or, when it has no elements, to where the view pointed. *)
Theorem c66_step : forall dbg n v o,
  0 <= n <= isize_max -> machine_view n v -> op_machine v o ->
  x_step dbg v o = Panic \/
  exists v', x_step dbg v o = Ok v' /\ machine_view n v' /\
    (exists u w, valid_view n u /\ same_view u v /\ v_step u o = Ok w /\ same_view v' w) /\
    (exists f, shows v v' f) /\
    (prodZ (v_dims v') = 0 -> v_ptr v' = v_ptr v) /\ (prodZ (v_dims v') <> 0 -> 0 <= v_ptr v' < n).
Proof.
  intros dbg n v o HN HM HO. destruct (@x_step_safe dbg n v o HN HM HO) as [E|(v' & E & X)]; [now left|]. right. exists v'. split; [exact E|].
  pose proof X as [M' S']. split; [exact M'|]. split; [exact S'|]. split; [exact (@good_shows n v v' o HN (mv_dims HM) HO X)|].
  split; [exact (explained_ptr X)|]. intros NZ. apply (ptr_range (mv_valid M')). pose proof (wf_nonneg (vv_wf (mv_valid M'))) as NN.
  apply prodZ_pos_inv; [exact NN|]. pose proof (prodZ_nonneg NN). fold (v_dims v') in H. lia.
Qed.
Print Assumptions c66_step.

(** ** Runs *)

(** Overflow checks only add panics.  There is no condition at all. *)
Theorem c66_checks : forall v os,
  x_run true v os = Panic \/ exists v', x_run true v os = Ok v' /\ x_run false v os = Ok v'.
Proof. intros v os. exact (le_run true os v). Qed.
Print Assumptions c66_checks.

(** No run of operations reads outside the storage, whatever overflows: every element of the result is an
    element of the view it started from, distinct indices are distinct cells, and reading gives its value. *)
Theorem c66_safe : forall T (mem : list T) dbg v os,
  Z.of_nat (length mem) <= isize_max -> machine_view (Z.of_nat (length mem)) v -> run_machine dbg v os ->
  x_run dbg v os = Panic \/
  exists v', x_run dbg v os = Ok v' /\ machine_view (Z.of_nat (length mem)) v' /\
    exists f, shows v v' f /\
      forall idx, in_bounds (v_dims v') idx -> exists x, x_get dbg mem v' idx = Ok x /\ x_get dbg mem v (f idx) = Ok x.
Proof.
  intros T mem dbg v os HN HM HR. destruct (@x_run_safe dbg _ os v (conj (Nat2Z.is_nonneg _) HN) HM HR) as [E|(v' & E & M' & f & S)]; [now left|].
  right. exists v'. split; [exact E|]. split; [exact M'|]. exists f. split; [exact S|]. intros idx B. destruct (S idx B) as [Bf EA].
  assert (G : forall w i, machine_view (Z.of_nat (length mem)) w -> in_bounds (v_dims w) i -> x_get dbg mem w i = read mem (v_addr w i)).
  { intros w i M Bi. rewrite (@x_get_fit T dbg mem w i _ (mv_valid M) HN (bounds_nonneg Bi)). unfold v_get.
    pose proof (slice_index_multi_in (m := v_map w) Bi) as Q. rewrite Q. reflexivity. }
  rewrite !G, EA by assumption. pose proof (vv_range (mv_valid HM) Bf) as R. unfold read.
  destruct (Z.ltb_spec (v_addr v (f idx)) 0); [lia|]. destruct (nth_error mem (Z.to_nat (v_addr v (f idx)))) as [x|] eqn:EN; [eauto|].
  apply nth_error_None in EN. lia.
Qed.
Print Assumptions c66_safe.

(** Without checks nothing is lost: a run that succeeds exactly, with elements left, succeeds with the same view. *)
Theorem c66_release_run : forall n v os w,
  0 <= n <= isize_max -> machine_view n v -> run_wide v os -> v_run v os = Ok w -> 0 < prodZ (v_dims w) ->
  exists v', x_run false v os = Ok v' /\ machine_view n v' /\ same_view v' w.
Proof.
  intros n v os w HN HM HR E HP. destruct (@x_run_faithful n os v w HN (mv_valid HM) (mv_dims HM) HR E HP) as [X V].
  rewrite (machine_wrap HM) in X. exists (wrapv w). split; [exact X|]. split; [|apply (@wrap_same n); auto; lia].
  apply wrap_machine; auto; [lia|]. apply Forall_forall. intros d Hd. pose proof (valid_prod HN V) as B.
  assert (PP : positive (v_dims w)) by (apply prodZ_pos_inv; [apply V|exact HP]). pose proof (in_le_prod PP Hd). lia.
Qed.
Print Assumptions c66_release_run.

(** A view of [isize::MAX] cells whose elements are [2 ^ 62 + 1] cells apart. *)
Definition edge : view := mkView 0 (StridedM dyn1 [2] [2 ^ 62 + 1]).
Example edge_machine : machine_view isize_max edge.
Proof.
  constructor.
  2: { constructor; [vm_compute; discriminate|constructor]. }
  2: { intros _. constructor; [split; vm_compute; discriminate|constructor]. }
  constructor.
  - wf_tac.
  - intros idx H. inb H. unfold v_addr, edge, v_ptr, v_map, m_offset, for_each_stride, isize_max.
    cbv [map seq length fold_left fst snd nth]. change (2 ^ 62) with 4611686018427387904. lia.
  - intros i j Hi Hj E. inb Hi. inb Hj. unfold v_addr, edge, v_ptr, v_map, m_offset, for_each_stride in E.
    cbv [map seq length fold_left fst snd nth] in E. change (2 ^ 62) with 4611686018427387904 in E.
    repeat f_equal; lia.
Qed.

(** Every third element: the new stride overflows, and only index zero is left. *)
Example c66_step_example : let o := OpView [IxStep Unbounded Unbounded 3] in
  machine_view isize_max edge /\ op_machine edge o /\ x_step true edge o = Panic /\
  exists w v', v_step edge o = Ok w /\ x_step false edge o = Ok v' /\
    m_strides (v_map w) = [3 * 2 ^ 62 + 3] /\ m_strides (v_map v') = [- 2 ^ 62 + 3] /\ v_dims v' = [1] /\ same_view v' w.
Proof.
  cbv zeta. split; [exact edge_machine|].
  assert (HO : op_machine edge (OpView [IxStep Unbounded Unbounded 3])).
  { split; [|exact I]. split; [|reflexivity]. constructor; [|constructor]. cbn [ix_arg bound_arg]. repeat split; discriminate. }
  split; [exact HO|]. split; [vm_compute; reflexivity|].
  assert (HN : 0 <= isize_max <= isize_max) by (unfold isize_max; lia).
  destruct (c66_release_step HN edge_machine eq_refl HO) as [[E _]|(w & v' & E1 & E2 & _ & S)]; [vm_compute in E; discriminate|].
  exists w, v'. split; [exact E1|]. split; [exact E2|]. vm_compute in E1, E2. injection E1 as <-. injection E2 as <-.
  split; [reflexivity|]. split; [reflexivity|]. split; [reflexivity|exact S].
Qed.

(** An array without elements, taken apart and put together with overflowing strides. *)
Example c66_empty_example : let v := whole dyn3 [0; 2 ^ 40; 2 ^ 40] in
  let os := [OpPermute (PermTuple [PConst 1; PConst 2; PConst 0]) [1; 2; 0]; OpAxisAt (AxConst 0) 5] in
  machine_view 0 v /\ run_machine false v os /\ x_run true v os = Panic /\
  exists v', x_run false v os = Ok v' /\ v_dims v' = [2 ^ 40; 0] /\ v_ptr v' = 0 /\ machine_view 0 v'.
Proof.
  cbv zeta. assert (HM : machine_view 0 (whole dyn3 [0; 2 ^ 40; 2 ^ 40])).
  { constructor; [apply PropsExpr.empty_valid; wf_tac|repeat constructor; vm_compute; discriminate|intros E; discriminate]. }
  split; [exact HM|].
  assert (HR : run_machine false (whole dyn3 [0; 2 ^ 40; 2 ^ 40])
    [OpPermute (PermTuple [PConst 1; PConst 2; PConst 0]) [1; 2; 0]; OpAxisAt (AxConst 0) 5]).
  { split; [split; [split; [do 3 (constructor; [unfold usize, usize_max; lia|]); constructor|split; [repeat constructor|cbn; lia]]|cbn; lia]|]. intros v' E. vm_compute in E. injection E as <-.
    split; [split; [split; vm_compute; discriminate|exact I]|]. intros; exact I. }
  split; [exact HR|]. split; [vm_compute; reflexivity|].
  assert (HN : 0 <= 0 <= isize_max) by (unfold isize_max; lia).
  destruct (@x_run_safe false 0 _ _ HN HM HR) as [E|(v' & E & M' & _)]; [vm_compute in E; discriminate|].
  exists v'. split; [exact E|]. split; [|split; [|exact M']]; vm_compute in E; injection E as <-; reflexivity.
Qed.

(** A run of 64 doublings of a stride: the exact stride is [2 ^ 64], the machine's is zero. *)
Example c66_run_example : let os := repeat (OpView [IxStep Unbounded Unbounded 2]) 64 in
  machine_view 1 (whole dyn1 [1]) /\ run_wide (whole dyn1 [1]) os /\ x_run true (whole dyn1 [1]) os = Panic /\
  exists w v', v_run (whole dyn1 [1]) os = Ok w /\ x_run false (whole dyn1 [1]) os = Ok v' /\
    m_strides (v_map w) = [2 ^ 64] /\ m_strides (v_map v') = [0] /\ same_view v' w.
Proof.
  cbv zeta. assert (HM : machine_view 1 (whole dyn1 [1])).
  { constructor; [apply whole_valid; wf_tac|repeat constructor; vm_compute; discriminate|intros E; discriminate]. }
  split; [exact HM|].
  assert (HR : run_wide (whole dyn1 [1]) (repeat (OpView [IxStep Unbounded Unbounded 2]) 64)).
  { assert (G : forall k v, v_dims v = [1] -> run_wide v (repeat (OpView [IxStep Unbounded Unbounded 2]) k)).
    { induction k as [|k IH]; intros v D; [exact I|]. cbn [repeat run_wide]. split.
      - split; [|exact I]. unfold op_arg. rewrite D. split; [repeat constructor|reflexivity].
      - intros v' E. apply IH. change (v_view v [IxStep Unbounded Unbounded 2] = Ok v') in E. destruct v as [p [ty dims|ty dims st]]; unfold v_dims, m_dims in D; cbn in D; subst dims;
        vm_compute in E.
        + injection E as <-. reflexivity.
        + destruct st as [|s [|]]; vm_compute in E; try discriminate; injection E as <-; reflexivity. }
    apply G. reflexivity. }
  split; [exact HR|]. split; [vm_compute; reflexivity|].
  assert (HN : 0 <= 1 <= isize_max) by (unfold isize_max; lia).
  destruct (v_run (whole dyn1 [1]) (repeat (OpView [IxStep Unbounded Unbounded 2]) 64)) as [w| | |] eqn:E; try (vm_compute in E; discriminate).
  assert (HP : 0 < prodZ (v_dims w)) by (vm_compute in E; injection E as <-; reflexivity).
  destruct (c66_release_run HN HM HR E HP) as (v' & X & _ & S).
  exists w, v'. split; [reflexivity|]. split; [exact X|]. vm_compute in E. injection E as <-. vm_compute in X. injection X as <-.
  split; [reflexivity|]. split; [reflexivity|exact S].
Qed.
