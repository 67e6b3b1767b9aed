(** Theorems for C56: the pointers that views, subarrays and iteration compute.

    [p_move], [e_view_in], [e_inside], [p_build], [walks], [t_inside]: [Pointer.v].  The storage has [n] cells;
    a pointer may be anything from [0] to [n]. *)
From Verif Require Import Base Spec SpecFacts Shape Mapping Index View Wf MappingFacts MapOps
  ReshapeFacts IndexFacts ViewFacts ViewMore PropsView.
From Verif Require Import Expr ExprSpec ExprFacts IterFacts SourceFacts ExprTree ExprMore PropsExpr Pointer PointerFacts.
Unset Strict Implicit.

(** ** C56: view operations *)

(** An empty result keeps the pointer of the view it was made from; the pointer of any other result is that of
    a cell. *)
Theorem c56_step : forall n v o v',
  0 <= n <= usize_max -> valid_view n v -> Forall (fun d => d <= usize_max) (v_dims v) ->
  op_arg v o -> v_step v o = Ok v' ->
  (prodZ (v_dims v') = 0 -> v_ptr v' = v_ptr v) /\ (prodZ (v_dims v') <> 0 -> 0 <= v_ptr v' < n).
Proof. exact step_pointer. Qed.
Print Assumptions c56_step.

(** So no chain of view operations leaves the allocation. *)
Theorem c56_chain : forall n v os v',
  0 <= n <= usize_max -> valid_view n v -> Forall (fun d => d <= usize_max) (v_dims v) -> 0 <= v_ptr v <= n ->
  run_args v os -> v_run v os = Ok v' -> 0 <= v_ptr v' <= n.
Proof. exact run_pointer. Qed.
Print Assumptions c56_chain.

(** The rows behind the last one, their column 3: the pointer stays where it was. *)
Example c56_example : let os := [OpSplitSnd (AxConst 0) 3; OpReorder; OpAxisAt (AxConst 0) 3] in
  let v := whole ty2 [3; 4] in
  valid_view 12 v /\ run_args v os /\ exists v', v_run v os = Ok v' /\ v_dims v' = [0] /\ v_ptr v' = 0.
Proof.
  split; [apply whole_valid; repeat constructor; simpl; lia|]. split.
  - assert (U : forall n, 0 <= n < 10 -> usize n) by (intros; unfold usize, usize_max; lia).
    cbn [run_args op_arg]. split; [apply U; lia|]. intros v1 E. split; [exact I|]. intros v2 E2. split; [apply U; lia|].
    intros v3 E3. exact I.
  - eexists. split; [vm_compute; reflexivity|]. split; reflexivity.
Qed.
Example c56_example_nonempty : exists v',
  v_run (whole ty2 [3; 4]) [OpSplitSnd (AxConst 0) 2; OpView [IxUsize 0; IxStep Unbounded Unbounded (-1)]] = Ok v' /\
  v_dims v' = [4] /\ v_ptr v' = 11.
Proof. eexists. split; [vm_compute; reflexivity|]. split; reflexivity. Qed.
(** Without elements the pointer stays where it is. *)
Example c56_example_empty :
  (exists v', v_run (whole ty2 [0; 3]) [OpReshape ty2 [3; 0]] = Ok v' /\ v_dims v' = [3; 0] /\ v_ptr v' = 0) /\
  (exists v', v_run (whole ty2 [3; 4]) [OpView [IxFull; IxRange (Included 4) Unbounded]] = Ok v' /\ v_dims v' = [3; 0] /\ v_ptr v' = 0).
Proof. split; eexists; (split; [vm_compute; reflexivity|]); split; reflexivity. Qed.

(** ** C56: iteration *)

(** Any expression over non-empty views and over subarrays of arrays: when leaving the allocation counts as
    undefined, internal and external iteration give what they give when only reading outside does.  Missing:
    empty views along which walking leaves the allocation, see [c56_refuted]. *)
Theorem c56_iteration_partial : forall size A (t : tree A) e,
  t_leaves t -> t_inside size t -> t_build t = Ok e ->
  exists e', p_build size t = Ok e' /\
    (t_fine t -> forall T (f : T -> A -> outcome T) acc, e_fold e' f acc = e_fold e f acc) /\
    (t_next_fine t -> forall k, (k <= Z.to_nat (prodZ (t_dims t)))%nat ->
       (let* (l, _) := it_nexts k (it_new e') in Ok l) = (let* (l, _) := it_nexts k (it_new e) in Ok l)).
Proof.
  intros size A t e HL HI E.
  destruct (build_cases HL) as [(HZ & e0 & E0 & B)|(HZ & E0)]; [|congruence].
  assert (e0 = e) by congruence. subst e0.
  destruct (p_build_cases HL HI) as [(_ & e' & E' & B')|(HZ' & _)]; [|contradiction].
  exists e'. split; [exact E'|]. exact (built_same B B').
Qed.
Print Assumptions c56_iteration_partial.

(** Non-empty valid views satisfy the condition on views. *)
Theorem c56_nonempty : forall n v, valid_view n v -> positive (v_dims v) -> walks n v.
Proof. exact walks_full. Qed.
Print Assumptions c56_nonempty.

(** [for_each] over a view alone: dense views and vectors, empty or not, ... *)
Theorem c56_dense : forall n rep v T (f : T -> Z -> outcome T) acc,
  valid_view n v -> 0 <= v_ptr v <= n -> v_layout v = Dense \/ (length (v_dims v) <= 1)%nat ->
  e_fold (e_view_in n rep v) f acc = foldM f (map (v_addr v) (indices (v_dims v))) acc.
Proof.
  intros n rep v T f acc Hv HP HL. rewrite (flat_in rep f acc (vv_wf Hv) HP HL). apply view_fold; auto.
  unfold view_fine. destruct HL as [E|E]; [now left|].
  destruct (v_layout v); [now left|]. right.
  destruct (v_dims v) as [|d [|]]; cbn in E; try lia; [left; constructor|left; constructor].
Qed.
Print Assumptions c56_dense.
(** ... and all non-empty views. *)
Theorem c56_full : forall n rep v T (f : T -> Z -> outcome T) acc,
  valid_view n v -> positive (v_dims v) ->
  e_fold (e_view_in n rep v) f acc = foldM f (map (v_addr v) (indices (v_dims v))) acc.
Proof.
  intros n rep v T f acc Hv HP.
  assert (HI : t_inside (fun _ => 0) (TView n rep v)) by (apply walks_full; auto).
  destruct (@c56_iteration_partial (fun _ => 0) _ (TView n rep v) (e_view n rep v) Hv HI eq_refl) as (e' & E & H & _).
  injection E as <-. rewrite H.
  - apply view_fold; auto. unfold view_fine. destruct (v_layout v); [now left|]. right; left.
    pose proof HP as HP'. destruct (v_dims v) as [|d ds] eqn:ED; [constructor|].
    rewrite (app_removelast_last 0 (l := d :: ds)) in HP' by discriminate. apply positive_app in HP'. tauto.
  - apply view_tree_fine; [apply (vv_wf Hv)|]. unfold view_fine. destruct (v_layout v); [now left|]. right; left.
    pose proof HP as HP'. destruct (v_dims v) as [|d ds] eqn:ED; [constructor|].
    rewrite (app_removelast_last 0 (l := d :: ds)) in HP' by discriminate. apply positive_app in HP'. tauto.
Qed.
Print Assumptions c56_full.

Example c56_iteration_example :
  let t := TZip (TView 24 true ex_rev) (TView 6 true (whole ty2 [3; 2])) in
  t_leaves t /\ t_inside (fun _ => 0) t /\ t_fine t /\ exists e', p_build (fun _ => 0) t = Ok e' /\
  e_collect e' = Ok (combine [20; 22; 16; 18; 12; 14; 8; 10; 4; 6; 0; 2] [0; 1; 2; 3; 4; 5; 0; 1; 2; 3; 4; 5]).
Proof.
  assert (V : valid_view 6 (whole ty2 [3; 2])) by (apply whole_valid; repeat constructor; simpl; lia).
  split; [split; [exact ex_rev_valid|exact V]|].
  split; [split; apply walks_full; auto; [exact ex_rev_valid|repeat constructor|repeat constructor]|].
  split; [split; [vm_compute; lia|left; repeat constructor]|].
  eexists. split; [vm_compute; reflexivity|]. vm_compute. reflexivity.
Qed.
Example c56_axis_example :
  let t := TAxis true (whole ty2 [3; 0]) (AxConst 0) in
  t_leaves t /\ t_inside (fun _ => 0) t /\ exists e', p_build (fun _ => 0) t = Ok e' /\
  (let* l := e_collect e' in Ok (map v_ptr l)) = Ok [0; 0; 0].
Proof.
  assert (V : valid_view 0 (whole ty2 [3; 0])) by (apply whole_valid; repeat constructor; simpl; lia).
  split; [split; [apply (vv_wf V)|split; [repeat constructor; simpl; lia|]]|].
  - intros [|[|[|k]]]; vm_compute; discriminate.
  - split; [split; [exact V|cbn; lia]|]. eexists. split; [vm_compute; reflexivity|]. vm_compute. reflexivity.
Qed.

(** The subarrays of the transposed view of a [0;3] array. *)
Example c56_axis_example_transposed :
  let t := TAxis true (mkView 0 (StridedM ty2 [3; 0] [1; 3])) (AxConst 0) in
  t_leaves t /\ t_inside (fun _ => 0) t /\ exists e', p_build (fun _ => 0) t = Ok e' /\
  (let* l := e_collect e' in Ok (map v_ptr l)) = Ok [0; 0; 0].
Proof.
  assert (V : valid_view 0 (mkView 0 (StridedM ty2 [3; 0] [1; 3]))) by (apply empty_valid; [wf_tac|reflexivity]).
  split; [split; [apply (vv_wf V)|split; [repeat constructor; simpl; lia|]]|].
  - intros [|[|[|k]]]; vm_compute; discriminate.
  - split; [split; [exact V|cbn; lia]|]. eexists. split; [vm_compute; reflexivity|]. vm_compute. reflexivity.
Qed.

(** An empty view whose last dimension is zero is walked along its other dimensions.  The transposed view of a
    [0;3] array has no cells to walk over, and reversed rows of nothing walk to before the first cell. *)
Theorem c56_refuted : exists n os v,
  run_args (whole ty2 [3; 4]) os /\ v_run (whole ty2 [3; 4]) os = Ok v /\
  valid_view n v /\ 0 <= v_ptr v <= n /\ prodZ (v_dims v) = 0 /\
  (forall T (f : T -> Z -> outcome T) acc, e_fold (e_view n true v) f acc = Ok acc) /\
  (forall T (f : T -> Z -> outcome T) acc, e_fold (e_view_in n true v) f acc = UB).
Proof.
  exists 12, [OpView [IxStep Unbounded Unbounded (-1); IxRange (Included 2) (Excluded 2)]].
  eexists. split; [|split; [vm_compute; reflexivity|]].
  - assert (U : forall n, 0 <= n < 10 -> usize n) by (intros; unfold usize, usize_max; lia).
    cbn [run_args]. split; [|intros; exact I]. split; [|reflexivity].
    constructor; [|constructor; [|constructor]].
    + cbn. repeat split; unfold isize_max; lia.
    + cbn. split; apply U; lia.
  - split; [apply empty_valid; [wf_tac|reflexivity]|]. split; [cbn; lia|]. split; [reflexivity|].
    split; intros; reflexivity.
Qed.
Print Assumptions c56_refuted.
Theorem c56_refuted_transposed : exists v,
  v_permute (whole ty2 [0; 3]) PermDyn [1; 0] = Ok v /\ valid_view 0 v /\ v_ptr v = 0 /\
  (forall T (f : T -> Z -> outcome T) acc, e_fold (e_view 0 true v) f acc = Ok acc) /\
  (forall T (f : T -> Z -> outcome T) acc, e_fold (e_view_in 0 true v) f acc = UB).
Proof.
  eexists. split; [vm_compute; reflexivity|]. split; [apply empty_valid; [wf_tac|reflexivity]|].
  split; [reflexivity|]. split; intros; reflexivity.
Qed.
Print Assumptions c56_refuted_transposed.
