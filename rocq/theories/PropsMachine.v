(** Theorems for C45 and C51: address arithmetic with machine integers.

    [x_…] are the functions of [Machine.v]: the first argument says whether the build has overflow
    checks (and debug assertions).  The functions without [x_] compute with unbounded integers and are
    the ones the other theorems are about; equality with them says that nothing overflows, and carries
    those theorems over to the machine.  [mx dims] is the product of the dimensions with zeros counted
    as one; it equals the length of an array that has elements. *)
From Verif Require Import Base Spec SpecFacts Shape Mapping Index View Wf MappingFacts MapOps
  ReshapeFacts IndexFacts ViewFacts ViewMore PropsView PropsExpr
  Machine MachineSpec MachineFacts MachineViews MachineReshape MachineRun.
Unset Strict Implicit.

Definition dyn1 : shty := STuple [DDyn].
Definition dyn2 : shty := STuple [DDyn; DDyn].
Definition dyn3 : shty := STuple [DDyn; DDyn; DDyn].

(** Running example: a view with elements 2^61 cells apart in a storage of 2^62 - 1 cells. *)
Definition far : view := mkView (2 ^ 61) (StridedM dyn2 [2; 3] [- 2 ^ 61; 5]).
Example far_valid : valid_view (2 ^ 62 - 1) far.
Proof.
  constructor.
  - wf_tac.
  - intros idx H. inb H. change (2 ^ 61) with 2305843009213693952. change (2 ^ 62) with 4611686018427387904.
    unfold v_addr, far, v_ptr, v_map, m_offset, for_each_stride.
    cbv [map seq length fold_left fst snd nth]. change (2 ^ 61) with 2305843009213693952. lia.
  - intros i j Hi Hj E. inb Hi. inb Hj.
    unfold v_addr, far, v_ptr, v_map, m_offset, for_each_stride in E.
    cbv [map seq length fold_left fst snd nth] in E. change (2 ^ 61) with 2305843009213693952 in E.
    repeat f_equal; lia.
Qed.

(** ** C45: lengths and strides *)

(** Arrays with elements. *)
Theorem c45_len : forall dbg dims,
  positive dims -> prodZ dims <= usize_max -> x_len dbg dims = Ok (prodZ dims).
Proof. intros dbg dims P H. apply x_len_fit; [now apply positive_nonneg|]. now rewrite mx_positive. Qed.
Print Assumptions c45_len.

Theorem c45_strides : forall dbg m,
  wf_map m -> positive (m_dims m) -> prodZ (m_dims m) <= isize_max ->
  (forall i, x_stride dbg m i = m_stride m i) /\
  x_calls dbg m = Ok (for_each_stride m) /\
  x_is_contiguous dbg m = Ok (is_contiguous m).
Proof.
  intros dbg m HW P H. assert (HR : roomy (m_dims m)) by (unfold roomy; now rewrite mx_positive).
  split; [intros; now apply x_stride_fit|]. split; [apply x_calls_fit|apply x_is_contiguous_fit]; auto using wf_nonneg.
Qed.
Print Assumptions c45_strides.

(** Arrays without elements, if no partial product of the other dimensions overflows. *)
Theorem c45_empty_partial : forall dbg m,
  wf_map m -> roomy (m_dims m) ->
  x_len dbg (m_dims m) = Ok (prodZ (m_dims m)) /\
  (forall i, x_stride dbg m i = m_stride m i) /\
  x_calls dbg m = Ok (for_each_stride m) /\
  x_is_contiguous dbg m = Ok (is_contiguous m).
Proof.
  intros dbg m HW HR. pose proof (wf_nonneg HW) as HN.
  split; [apply x_len_fit; auto; now apply roomy_usize|].
  split; [intros; now apply x_stride_fit|]. split; [apply x_calls_fit|apply x_is_contiguous_fit]; auto.
Qed.
Print Assumptions c45_empty_partial.

Example c45_len_example :
  x_len true [2 ^ 20; 2 ^ 43] = Ok (2 ^ 63) /\ x_len true [2 ^ 32; 2 ^ 32] = Panic /\ x_len false [2 ^ 32; 2 ^ 32] = Ok 0 /\
  (let m := DenseM dyn3 [2 ^ 20; 2 ^ 20; 2 ^ 22] in
   positive (m_dims m) /\ prodZ (m_dims m) <= isize_max /\ x_stride true m 0 = Ok (2 ^ 42)) /\
  (let m := DenseM dyn3 [0; 2 ^ 20; 2 ^ 42] in roomy (m_dims m) /\ x_stride true m 0 = Ok (2 ^ 62)).
Proof.
  split; [reflexivity|]. split; [reflexivity|]. split; [reflexivity|]. split.
  - split; [repeat constructor|]. split; [vm_compute; discriminate|reflexivity].
  - split; [vm_compute; discriminate|reflexivity].
Qed.

(** Without that condition it is false: an owned array with dimensions [0; 2^40; 2^40] can be created
    ([checked_len] is zero), but its first stride does not fit, and the length of its permuted view
    [2^40; 2^40; 0] is computed by a product that overflows. *)
Theorem c45_refuted : exists dims perm v',
  nonneg dims /\ sh_checked_len dims = Some 0 /\ valid_view 0 (whole dyn3 dims) /\
  x_stride true (DenseM dyn3 dims) 0 = Panic /\
  x_calls true (DenseM dyn3 dims) = Panic /\
  x_axis_at true (whole dyn3 dims) (AxConst 1) 5 = Panic /\
  (exists r, v_axis_at (whole dyn3 dims) (AxConst 1) 5 = Ok r) /\
  x_v_permute false (whole dyn3 dims) (PermTuple [PConst 1; PConst 2; PConst 0]) perm = Ok v' /\
  x_len true (v_dims v') = Panic /\ x_len false (v_dims v') = Ok 0.
Proof.
  exists [0; 2 ^ 40; 2 ^ 40], [1; 2; 0]. eexists.
  split; [repeat constructor; discriminate|]. split; [reflexivity|].
  split. { apply empty_valid; wf_tac. }
  split; [vm_compute; reflexivity|]. split; [vm_compute; reflexivity|]. split; [vm_compute; reflexivity|].
  split; [eexists; vm_compute; reflexivity|]. split; [vm_compute; reflexivity|]. split; vm_compute; reflexivity.
Qed.
Print Assumptions c45_refuted.

(** A build without overflow checks still gets every length right. *)
Theorem c45_len_release : forall dims, Forall is_usize dims -> prodZ dims <= usize_max -> x_len false dims = Ok (prodZ dims).
Proof. exact x_len_release. Qed.
Print Assumptions c45_len_release.

(** ** C45: element access *)

(** Any indices, of any view of a storage of at most [isize::MAX] cells (also an empty one). *)
Theorem c45_get : forall T dbg (mem : list T) v idx n,
  valid_view n v -> n <= isize_max -> Forall (fun i => 0 <= i) idx ->
  x_get dbg mem v idx = v_get mem v idx.
Proof. exact x_get_fit. Qed.
Print Assumptions c45_get.

Theorem c45_get_linear : forall T dbg (mem : list T) v k n,
  valid_view n v -> n <= isize_max -> 0 <= k ->
  x_get_linear dbg mem v k = v_get_linear mem v k.
Proof. exact x_get_linear_fit. Qed.
Print Assumptions c45_get_linear.

Theorem c45_offset : forall dbg n v idx,
  valid_view n v -> n <= isize_max -> in_bounds (v_dims v) idx ->
  x_offset dbg (v_map v) idx = Ok (m_offset (v_map v) idx).
Proof.
  intros dbg n v idx HV Hn HI. pose proof (in_bounds_positive HI) as P.
  apply x_offset_fit; auto; [apply (vv_wf HV)|apply (valid_roomy HV Hn (prodZ_pos P))|apply (valid_near HV Hn)].
Qed.
Print Assumptions c45_offset.

Theorem c45_linear_offset : forall dbg n v k,
  valid_view n v -> n <= isize_max -> 0 <= k < prodZ (v_dims v) ->
  x_linear_offset dbg (v_map v) k = Ok (m_linear_offset (v_map v) k).
Proof.
  intros dbg n v k HV Hn HI.
  assert (P : 0 < prodZ (v_dims v)) by lia.
  apply x_linear_offset_fit; auto; [apply (vv_wf HV)|apply (valid_roomy HV Hn P)|apply (valid_near HV Hn)|].
  unfold m_len. rewrite sh_len_prod. exact HI.
Qed.
Print Assumptions c45_linear_offset.

Example c45_get_example :
  valid_view (2 ^ 62 - 1) far /\ 2 ^ 62 - 1 <= isize_max /\
  x_offset true (v_map far) [1; 2] = Ok (- 2 ^ 61 + 10) /\ x_linear_offset true (v_map far) 5 = Ok (- 2 ^ 61 + 10) /\
  x_get true ex_mem far [1; 2] = Ok 110 /\ x_get_linear true ex_mem far 5 = Ok 110 /\
  x_get true ex_mem far [2; 0] = Panic.
Proof. split; [exact far_valid|]. split; [discriminate|]. vm_all. Qed.

(** ** C45: view operations *)

(** One operation on a view with elements.  The storage must be at most half of [isize::MAX] (any
    storage of elements of at least two bytes), and the strides and the operation must have room. *)
Theorem c45_step_partial : forall dbg n v o,
  valid_view n v -> 2 * n <= isize_max -> 0 < prodZ (v_dims v) -> strides_small (v_map v) ->
  op_arg v o -> op_room v o -> x_step dbg v o = v_step v o.
Proof. exact x_step_valid. Qed.
Print Assumptions c45_step_partial.

(** In particular reshaping. *)
Theorem c45_reshape_partial : forall dbg n v ty dims,
  valid_view n v -> 2 * n <= isize_max -> 0 < prodZ (v_dims v) -> strides_small (v_map v) ->
  Forall usize dims -> ty_of_len ty (length dims) ->
  x_v_reshape dbg v ty dims = v_reshape v ty dims.
Proof. intros dbg n v ty dims HV Hn P HS HA HT. exact (@x_step_valid dbg n v (OpReshape ty dims) HV Hn P HS (conj HA HT) I). Qed.
Print Assumptions c45_reshape_partial.

(** A whole array may use all of [isize::MAX] and may be empty (if [roomy]). *)
Theorem c45_whole : forall dbg ty dims,
  nonneg dims -> typed ty dims -> ty_wf ty -> roomy dims ->
  (forall a i, usize i -> x_axis_at dbg (whole ty dims) a i = v_axis_at (whole ty dims) a i) /\
  (forall a i, usize i -> x_split_axis_at dbg (whole ty dims) a i = v_split_axis_at (whole ty dims) a i) /\
  (forall p perm, (length dims < 64)%nat -> Forall usize perm -> x_v_permute dbg (whole ty dims) p perm = v_permute (whole ty dims) p perm) /\
  x_v_reorder dbg (whole ty dims) = v_reorder (whole ty dims) /\
  (forall l t, x_v_remap dbg (whole ty dims) l t = v_remap (whole ty dims) l t) /\
  (forall t req, 0 < prodZ dims -> Forall usize req -> ty_of_len t (length req) ->
     x_v_reshape dbg (whole ty dims) t req = v_reshape (whole ty dims) t req).
Proof. exact x_whole. Qed.
Print Assumptions c45_whole.

(** Programs. *)
Theorem c45_run_partial : forall dbg n v os,
  valid_view n v -> 2 * n <= isize_max -> 0 < prodZ (v_dims v) -> strides_small (v_map v) ->
  run_args v os -> run_room v os -> x_run dbg v os = v_run v os.
Proof. exact x_run_valid. Qed.
Print Assumptions c45_run_partial.

(** Programs that take no stepped ranges and no diagonals, and do not empty the view. *)
Theorem c45_plain_run : forall dbg n v os,
  valid_view n v -> 2 * n <= isize_max -> 0 < prodZ (v_dims v) -> strides_small (v_map v) ->
  run_args v os -> run_plain v os -> x_run dbg v os = v_run v os.
Proof. exact x_run_plain_valid. Qed.
Print Assumptions c45_plain_run.

(** Diagonals below the main one; the smallest index has no negation. *)
Example c45_diag_example :
  x_into_diag true (whole dyn2 [3; 4]) (-1) = Ok (mkView 4 (StridedM dyn1 [2] [5])) /\
  x_into_diag true (whole dyn2 [3; 4]) (-3) = Ok (mkView 0 (StridedM dyn1 [0] [5])) /\
  x_into_diag true (whole dyn2 [3; 4]) (-4) = Panic /\
  x_into_diag true (whole dyn2 [3; 4]) (- 2 ^ 63) = Panic /\
  x_into_diag false (whole dyn2 [3; 4]) (- 2 ^ 63) = Panic.
Proof. repeat split; vm_compute; reflexivity. Qed.

Example c45_run_example : let os :=
    [OpPermute PermDyn [1; 0]; OpView [IxRange (Included 1) Unbounded; IxFull]; OpReshape dyn3 [2; 1; usize_max];
     OpAxisAt AxRows 1] in
  valid_view (2 ^ 62 - 1) far /\ 2 * (2 ^ 62 - 1) <= isize_max /\ strides_small (v_map far) /\
  run_args far os /\ run_plain far os /\
  exists r, x_run true far os = Ok r /\ v_run far os = Ok r /\ v_dims r = [2; 1] /\ x_get true ex_mem r [1; 0] = Ok 110.
Proof.
  assert (U : forall n, 0 <= n < 10 -> usize n) by (intros; unfold usize, usize_max; lia).
  cbv zeta. split; [exact far_valid|]. split; [discriminate|].
  split. { repeat constructor; vm_compute; discriminate. }
  split.
  { cbn [run_args]. split; [split; [do 2 (constructor; [apply U; lia|]); constructor|exact I]|].
    intros v1 E. vm_compute in E. injection E as <-.
    split; [split; [do 2 (constructor; [simpl; try split; try exact I; apply U; lia|]); constructor|reflexivity]|].
    intros v2 E. vm_compute in E. injection E as <-.
    split. { split; [|split; [simpl; lia|reflexivity]]. constructor; [apply U; lia|]. constructor; [apply U; lia|].
             constructor; [unfold usize, usize_max; lia|constructor]. }
    intros v3 E. vm_compute in E. injection E as <-.
    split; [apply U; lia|]. intros; exact I. }
  split.
  { cbn [run_plain op_plain]. split; [simpl; lia|]. intros v1 E. vm_compute in E. injection E as <-. split; [reflexivity|].
    split; [repeat constructor|]. intros v2 E. vm_compute in E. injection E as <-. split; [reflexivity|].
    split; [exact I|]. intros v3 E. vm_compute in E. injection E as <-. split; [reflexivity|].
    split; [exact I|]. intros v4 E. vm_compute in E. injection E as <-. split; [reflexivity|exact I]. }
  eexists. split; [vm_compute; reflexivity|]. split; [vm_compute; reflexivity|]. split; vm_compute; reflexivity.
Qed.

(** The condition on the storage is needed: two bytes 2^62 + 1 apart fit in [isize::MAX] bytes, but
    splitting behind the second one multiplies the stride by two.  The product is only used for a half
    with elements, so a build without checks is right. *)
Theorem c45_bytes_refuted : exists n v, valid_view n v /\ n <= isize_max /\ 0 < prodZ (v_dims v) /\ strides_small (v_map v) /\
  x_split_axis_at true v (AxConst 0) 2 = Panic /\ (exists r, v_split_axis_at v (AxConst 0) 2 = Ok r) /\
  x_split_axis_at false v (AxConst 0) 2 = v_split_axis_at v (AxConst 0) 2.
Proof.
  exists isize_max, (mkView 0 (StridedM dyn1 [2] [2 ^ 62 + 1])).
  split.
  { constructor.
    - wf_tac.
    - intros idx H. inb H. unfold v_addr, v_ptr, v_map, m_offset, for_each_stride, isize_max.
      cbv [map seq length fold_left fst snd nth]. change (2 ^ 62) with 4611686018427387904. lia.
    - intros i j Hi Hj E. inb Hi. inb Hj.
      unfold v_addr, v_ptr, v_map, m_offset, for_each_stride in E.
      cbv [map seq length fold_left fst snd nth] in E. change (2 ^ 62) with 4611686018427387904 in E.
      repeat f_equal; lia. }
  split; [reflexivity|]. split; [reflexivity|]. split; [repeat constructor; vm_compute; discriminate|].
  split; [vm_compute; reflexivity|]. split; [eexists; vm_compute; reflexivity|]. vm_compute. reflexivity.
Qed.
Print Assumptions c45_bytes_refuted.

(** So is the room for stepped ranges and diagonals: on an array with one element, taking every second
    element 63 times doubles the stride until it overflows, and so does taking the diagonal of the array
    as a matrix.  A build without checks wraps around (harmlessly: the only index is zero). *)
Theorem c45_room_refuted :
  let steps := repeat (OpView [IxStep Unbounded Unbounded 2]) 63 in
  let diags := concat (repeat [OpReshape dyn2 [1; 1]; OpDiag 0] 63) in
  valid_view 1 (whole dyn1 [1]) /\
  x_run true (whole dyn1 [1]) steps = Panic /\ x_run true (whole dyn1 [1]) diags = Panic /\
  (exists a b, v_run (whole dyn1 [1]) steps = Ok a /\ v_run (whole dyn1 [1]) diags = Ok b) /\
  (exists a b, x_run false (whole dyn1 [1]) steps = Ok a /\ x_run false (whole dyn1 [1]) diags = Ok b /\
     m_strides (v_map a) = [isize_min] /\ m_strides (v_map b) = [isize_min] /\
     x_get false [7] a [0] = Ok 7 /\ x_get false [7] b [0] = Ok 7).
Proof.
  cbv zeta. split. { apply whole_valid; wf_tac. }
  split; [vm_compute; reflexivity|]. split; [vm_compute; reflexivity|].
  split; [do 2 eexists; split; vm_compute; reflexivity|].
  do 2 eexists. split; [vm_compute; reflexivity|]. split; [vm_compute; reflexivity|]. vm_all.
Qed.
Print Assumptions c45_room_refuted.

(** ** C51: permutations of any rank *)

(** A list that is no permutation is rejected: for ranks below 64, and for all ranks by builds with
    overflow checks (which also reject every permutation of rank 64 or more). *)
Theorem c51_partial : forall dbg v p perm,
  wf_map (v_map v) -> roomy (v_dims v) -> (length (v_dims v) < 64)%nat -> Forall usize perm -> perm_matches p perm ->
  (x_v_permute dbg v p perm = Panic <-> ~ perm_of (length (v_dims v)) perm).
Proof. exact x_permute_rejects. Qed.
Print Assumptions c51_partial.

Theorem c51_checked : forall v perm,
  (64 <= length (v_dims v))%nat -> x_v_permute true v PermDyn perm = Panic.
Proof. exact x_v_permute_debug. Qed.
Print Assumptions c51_checked.

(** Without overflow checks the list is accepted at ranks from 64 on exactly if all entries are below the
    rank and their residues modulo 64 are those below the residue of the rank ... *)
Theorem c51_exact : forall v perm,
  wf_map (v_map v) -> roomy (v_dims v) -> (64 <= length (v_dims v))%nat -> Forall usize perm ->
  let rank := Z.of_nat (length (v_dims v)) in
  let accepted := length perm = length (v_dims v) /\ Forall (fun p => p < rank) perm /\
    forall b, 0 <= b < 64 -> (In b (map (fun p => p mod 64) perm) <-> b < rank mod 64) in
  ((exists v', x_v_permute false v PermDyn perm = Ok v') <-> accepted) /\
  (x_v_permute false v PermDyn perm = Panic <-> ~ accepted).
Proof.
  intros v perm HW HR HK HU rank accepted.
  assert (A : wide_ok (length (v_dims v)) perm <-> accepted).
  { unfold wide_ok, accepted, rank. reflexivity. }
  rewrite <- A. destruct (x_v_permute_wide HW HR HK HU) as [[H (v' & E)]|[H E]]; rewrite E.
  - split; split; try tauto; try discriminate; eauto.
  - split; split; try tauto; try congruence. intros (v' & E'). discriminate.
Qed.
Print Assumptions c51_exact.

(** ... so that permutations are always refused there, in both modes. *)
Theorem c51_wide : forall dbg v perm,
  wf_map (v_map v) -> roomy (v_dims v) -> (64 <= length (v_dims v))%nat -> Forall usize perm ->
  perm_of (length (v_dims v)) perm -> x_v_permute dbg v PermDyn perm = Panic.
Proof.
  intros [|] v perm HW HR HK HU HP; [now apply x_v_permute_debug|].
  destruct (x_v_permute_wide HW HR HK HU) as [[H _]|[_ E]]; [|exact E]. now apply wide_no_perm in H.
Qed.
Print Assumptions c51_wide.

(** Without overflow checks the mask of rank 65 has the single bit 0, and a list of zeros passes:
    the result has 65 dimensions of size 2 over a storage of two cells, and reading it leaves the
    storage. *)
Theorem c51_refuted : exists dims perm v' idx,
  length dims = 65%nat /\ valid_view 2 (whole SDynRank dims) /\
  Forall usize perm /\ ~ perm_of 65 perm /\
  x_v_permute false (whole SDynRank dims) PermDyn perm = Ok v' /\
  in_bounds (v_dims v') idx /\ v_addr v' idx = 2 /\
  x_get false [7; 8] v' idx = UB.
Proof.
  exists (2 :: repeat 1 64), (repeat 0 65). eexists. exists ([1] ++ repeat 0 63 ++ [1]).
  split; [reflexivity|].
  split. { apply whole_valid; wf_tac. }
  split. { apply Forall_forall. intros x Hx. apply repeat_spec in Hx. subst. vm_compute. split; discriminate. }
  split. { intros H. assert (H1 : In 1 (repeat 0 65)).
           { apply (Permutation_in 1 (Permutation_sym H)). simpl. auto. }
           apply repeat_spec in H1. discriminate. }
  split; [vm_compute; reflexivity|].
  split; [|split; vm_compute; reflexivity].
  repeat constructor; vm_compute; try discriminate; reflexivity.
Qed.
Print Assumptions c51_refuted.

(** The permutations of rank 64 and 65 themselves are rejected. *)
Example c51_example :
  x_v_permute false (whole SDynRank (2 :: repeat 1 64)) PermDyn (map Z.of_nat (seq 0 65)) = Panic /\
  x_v_permute false (whole SDynRank (2 :: repeat 1 63)) PermDyn (map Z.of_nat (seq 0 64)) = Panic /\
  x_v_permute true (whole SDynRank (2 :: repeat 1 64)) PermDyn (repeat 0 65) = Panic /\
  (exists r, x_v_permute true (whole SDynRank (2 :: repeat 1 62)) PermDyn (map Z.of_nat (rev (seq 0 63))) = Ok r /\
     v_dims r = repeat 1 62 ++ [2]).
Proof. do 3 (split; [vm_compute; reflexivity|]). eexists. split; vm_compute; reflexivity. Qed.
