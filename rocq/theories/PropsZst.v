(** Property C75: arrays whose elements have no size. *)
From Verif Require Import Base Spec SpecFacts Shape Mapping Index View Wf Expr ExprSpec MappingFacts IterFacts.
From Verif Require Import Machine MachineSpec MachineFacts MachineWrap MachineSteps MachineIter MachineChecks Zst ZstFacts ZstRun.
Unset Strict Implicit.

(** ** Access *)

(** Without overflow checks an index is taken iff it is within bounds, however many elements there are and
    however the offset wraps.  With or without them one out of bounds panics. *)
Theorem c75_get : forall v idx, Forall (fun i => 0 <= i) idx ->
  (in_bounds (v_dims v) idx -> z_get false v idx = Ok tt) /\
  (~ in_bounds (v_dims v) idx -> forall dbg, z_get dbg v idx = Panic).
Proof. intros v idx HF. split; [apply z_get_in|]. intros HN dbg. now apply z_get_out. Qed.
Print Assumptions c75_get.

Theorem c75_get_linear : forall v k, zst_view v -> 0 <= k ->
  (k < prodZ (v_dims v) -> z_get_linear false v k = Ok tt /\ (v_layout v = Dense -> z_get_linear true v k = Ok tt)) /\
  (prodZ (v_dims v) <= k -> forall dbg, z_get_linear dbg v k = Panic).
Proof.
  intros v k HV HK. split.
  - intros H. split; [now apply z_linear_in|]. intros HD. now apply z_linear_dense.
  - intros H dbg. now apply z_linear_out.
Qed.
Print Assumptions c75_get_linear.

(** With overflow checks and the dense layout: exactly which indices within bounds panic. *)
Theorem c75_get_checked : forall v idx, zst_view v -> v_layout v = Dense -> in_bounds (v_dims v) idx ->
  (z_get true v idx = Ok tt <-> flat (v_dims v) idx <= isize_max \/ Exists (fun d => isize_max < d) (v_dims v)) /\
  (z_get true v idx = Panic <-> isize_max < flat (v_dims v) idx /\ Forall (fun d => d <= isize_max) (v_dims v)).
Proof.
  intros v idx HV HD HB. rewrite z_get_dense by auto.
  assert (HE : existsb (fun d => isize_max <? d) (v_dims v) = true <-> Exists (fun d => isize_max < d) (v_dims v)).
  { rewrite existsb_exists, Exists_exists. split; intros (x & Hx & H); exists x; split; auto; lia. }
  assert (HA : Forall (fun d => d <= isize_max) (v_dims v) <-> ~ Exists (fun d => isize_max < d) (v_dims v)).
  { rewrite <- Forall_Exists_neg, !Forall_forall. split; intros H x Hx; specialize (H x Hx); cbn in *; lia. }
  rewrite HA. destruct (Z.leb_spec (flat (v_dims v) idx) isize_max) as [L|L]; cbn [orb].
  - split; [tauto|]. split; [discriminate|lia].
  - destruct (existsb _ (v_dims v)).
    + split; [tauto|]. split; [discriminate|]. intros [_ H]. exfalso. apply H, HE. reflexivity.
    + split; split; try discriminate; auto.
      * intros [H|H]; [lia|]. apply HE in H. discriminate.
      * intros _. split; [exact L|]. intros H. apply HE in H. discriminate.
Qed.
Print Assumptions c75_get_checked.

(** Not every index within bounds is taken with overflow checks: the element that iteration and the linear index
    reach is denied to the index. *)
Theorem c75_refuted : exists v idx, zst_view v /\ v_layout v = Dense /\ in_bounds (v_dims v) idx /\
  z_get true v idx = Panic /\ z_get false v idx = Ok tt /\ z_get_linear true v (flat (v_dims v) idx) = Ok tt.
Proof.
  exists (mkView 0 (DenseM (STuple [DDyn; DDyn]) [2 ^ 62; 3])), [2 ^ 62 - 1; 2]. split; [|split; [reflexivity|]].
  - constructor; cbn.
    + constructor; cbn; repeat constructor; lia.
    + repeat constructor; unfold usize_max; lia.
    + unfold prodZ, usize_max. cbn. lia.
    + discriminate.
  - split; [repeat constructor; cbn; lia|]. vm_compute. auto.
Qed.
Print Assumptions c75_refuted.

(** ** Iteration *)

(** Iteration visits every element once: without overflow checks for every layout, with them for the dense one. *)
Theorem c75_fold : forall dbg rep v T (f : T -> unit -> outcome T) acc,
  zst_view v -> positive (v_dims v) -> dbg = false \/ v_layout v = Dense ->
  x_fold dbg (z_view dbg rep v) f acc = times (Z.to_nat (prodZ (v_dims v))) (fun a => f a tt) acc.
Proof. intros. now apply z_fold. Qed.
Print Assumptions c75_fold.

Theorem c75_next : forall dbg rep v n,
  zst_view v -> positive (v_dims v) -> dbg = false \/ v_layout v = Dense -> (n <= Z.to_nat (prodZ (v_dims v)))%nat ->
  exists it, (let* it := x_it_new dbg (z_view dbg rep v) in x_nexts dbg n it) = Ok (repeat (Some tt) n, it) /\
    x_size dbg it = Ok (prodZ (v_dims v) - Z.of_nat n) /\
    (n = Z.to_nat (prodZ (v_dims v)) -> exists it', x_next dbg it = Ok (None, it')).
Proof. intros. now apply z_next. Qed.
Print Assumptions c75_next.

(** For the other layout overflow checks only add panics. *)
Theorem c75_checks : forall rep v T (f : T -> unit -> outcome T) acc,
  zst_view v -> positive (v_dims v) ->
  x_fold true (z_view true rep v) f acc = Panic \/
  x_fold true (z_view true rep v) f acc = times (Z.to_nat (prodZ (v_dims v))) (fun a => f a tt) acc.
Proof.
  intros rep v T f acc HV HP. rewrite <- (@z_fold false rep v HV HP (or_introl eq_refl) T f acc).
  pose proof (@sim_fold _ _ _ _ (sim_z rep v) T f acc) as H. unfold ole in H.
  destruct (x_fold true (z_view true rep v) f acc), (x_fold false (z_view false rep v) f acc); auto; try contradiction. subst. now right.
Qed.
Print Assumptions c75_checks.

(** ** Programs *)

(** Whatever views a program makes, each has the shape that the operation describes and no more elements than the
    view before. *)
Theorem c75_run : forall dbg v os v', zst_view v -> run_machine dbg v os -> x_run dbg v os = Ok v' ->
  zst_view v' /\ shapes_after (v_dims v) os (v_dims v') /\ prodZ (v_dims v') <= prodZ (v_dims v).
Proof. intros dbg v os v' HV HR H. exact (z_run HV HR H). Qed.
Print Assumptions c75_run.

(** Without overflow checks no legal request panics, though strides and offsets wrap. *)
Theorem c75_accepts : forall v o d', zst_view v -> op_machine v o -> shape_after (v_dims v) o d' ->
  match o with
  | OpAxisAt _ _ | OpSplitFst _ _ | OpSplitSnd _ _ | OpView _ | OpPermute _ _ | OpReorder => True
  | OpFlatten => v_layout v = Dense
  | _ => False
  end -> exists v', x_step false v o = Ok v' /\ v_dims v' = d'.
Proof. intros v o d' HV HO HS H. exact (z_accept HV HO HS H). Qed.
Print Assumptions c75_accepts.

(** ** Examples *)

Definition z_ex : view := mkView 0 (DenseM (STuple [DDyn; DDyn]) [2 ^ 62; 3]).
Example c75_ex_view : zst_view z_ex.
Proof.
  constructor; cbn.
  - constructor; cbn; repeat constructor; lia.
  - repeat constructor; unfold usize_max; lia.
  - unfold prodZ, usize_max. cbn. lia.
  - discriminate.
Qed.
Example c75_ex_get : z_get false z_ex [2 ^ 62 - 1; 2] = Ok tt /\ z_get true z_ex [5; 2] = Ok tt /\ z_get false z_ex [2 ^ 62; 0] = Panic /\
  z_get_linear true z_ex (3 * 2 ^ 62 - 1) = Ok tt /\ z_get_linear true z_ex (3 * 2 ^ 62) = Panic.
Proof. vm_compute. auto. Qed.
(** One dimension beyond [isize::MAX]: the index wraps in a cast, which is not checked. *)
Example c75_ex_cast : z_get true (mkView 0 (DenseM (STuple [DDyn]) [2 ^ 64 - 1])) [2 ^ 64 - 2] = Ok tt.
Proof. vm_compute. reflexivity. Qed.
(** Every second row from the end, columns swapped with rows: a view of [3 * 2^61] elements whose strides wrap. *)
Definition z_ex_ops : list vop :=
  [OpView [IxStep Unbounded Unbounded (-2); IxFull]; OpPermute PermDyn [1; 0]; OpAxisAt (AxDyn 0) 2; OpSplitSnd (AxDyn 0) (2 ^ 61 - 4)].
Example c75_ex_machine : run_machine false z_ex z_ex_ops.
Proof.
  repeat (split; [split; cbn; try (unfold usize, usize_max, isize_max, is_isize, isize_min); repeat constructor; try lia; auto|
    let v := fresh in let E := fresh in intros v E; vm_compute in E; injection E as <-]). exact I.
Qed.
Example c75_ex_run : omap v_dims (x_run false z_ex z_ex_ops) = Ok [4].
Proof. vm_compute. reflexivity. Qed.
Example c75_ex_walk :
  (let* w := x_run false z_ex z_ex_ops in x_fold false (z_view false true w) (fun n _ => Ok (n + 1)) 0) = Ok 4.
Proof. vm_compute. reflexivity. Qed.
