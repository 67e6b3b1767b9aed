(** Theorems for C20-C28, C30 and the zip part of C46: expressions, iteration and assignment.

    Vocabulary: [ExprSpec.v].  A view's items are the addresses of its elements ([v_addr]), so
    [map (v_addr v) (indices (v_dims v))] is its element list in row-major order, and
    [foldM f l acc] calls the closure [f] on the members of [l] in order until it panics.
    [tree] is any combination of sources and adapters, [t_build] what the code makes of it and
    [t_dims], [t_act] what it means. *)
From Verif Require Import Base Spec SpecFacts Shape Mapping Index View Wf MappingFacts MapOps
  ReshapeFacts IndexFacts ViewFacts ViewMore PropsView.
From Verif Require Import Expr ExprSpec ExprFacts IterFacts SourceFacts ExprTree ExprMore NextFacts.
Unset Strict Implicit.

(** Running examples.  [ex_rev] (PropsView) is a strided view with dimensions [2;3;2].
    [ex_cols0] is the view [.., 0..0] of a [2;3] array: dimensions [2;0].  [ex_0x3] is the
    transposed view of a [3;0] array: dimensions [0;3].  [ex_2x2] is the transposed view of a
    [2;2] array. *)
Definition ty2 : shty := STuple [DDyn; DDyn].
Definition ty3 : shty := STuple [DDyn; DDyn; DDyn].
Definition ty4 : shty := STuple [DDyn; DDyn; DDyn; DDyn].
Definition ex_cols0 : view := mkView 0 (StridedM ty2 [2; 0] [3; 1]).
Definition ex_0x3 : view := mkView 0 (StridedM ty2 [0; 3] [1; 0]).
Definition ex_2x2 : view := mkView 0 (StridedM ty2 [2; 2] [1; 2]).
Definition ex_222 : view := whole ty3 [2; 2; 2].
Definition big : Z := 2 ^ 33.
Definition ex_big : view := mkView 0 (StridedM ty4 [2; big; big; 0] [1; 0; 2; 2 * big]).

Example ex_cols0_made : v_run (whole ty2 [2; 3]) [OpView [IxFull; IxRange (Included 0) (Excluded 0)]] = Ok ex_cols0.
Proof. vm_compute. reflexivity. Qed.
Example ex_0x3_made : v_run (whole ty2 [3; 0]) [OpReorder] = Ok ex_0x3.
Proof. vm_compute. reflexivity. Qed.
Example ex_2x2_made : v_run (whole ty2 [2; 2]) [OpReorder] = Ok ex_2x2.
Proof. vm_compute. reflexivity. Qed.
Example ex_big_made : v_run (whole ty4 [big; 0; big; 2]) [OpPermute PermDyn [3; 0; 2; 1]] = Ok ex_big.
Proof. vm_compute. reflexivity. Qed.

Ltac inb H := repeat (inversion H as [|? ? ? ? ? H']; subst; clear H; rename H' into H); try (inversion H; subst).
Lemma empty_valid n v : wf_map (v_map v) -> prodZ (v_dims v) = 0 -> valid_view n v.
Proof.
  intros Hw HZ. constructor; auto; intros i; intros.
  - apply in_bounds_positive, prodZ_pos in H. lia.
  - apply in_bounds_positive, prodZ_pos in H. lia.
Qed.
Ltac inb_tac := repeat (constructor; [simpl; lia|]); constructor.
Ltac vm_all := match goal with |- _ /\ _ => split; [vm_all|vm_all] | _ => vm_compute; reflexivity end.
Ltac wf_tac := repeat constructor; simpl; try lia.

Example ex_cols0_valid : valid_view 6 ex_cols0.
Proof. apply empty_valid; [wf_tac|reflexivity]. Qed.
Example ex_0x3_valid : valid_view 0 ex_0x3.
Proof. apply empty_valid; [wf_tac|reflexivity]. Qed.
Example ex_2x2_valid : valid_view 4 ex_2x2.
Proof.
  constructor.
  - wf_tac.
  - intros idx H. inb H.
    cbv [v_addr ex_2x2 v_ptr v_map m_offset for_each_stride map seq length fold_left fst snd nth]. lia.
  - intros i j Hi Hj E. inb Hi. inb Hj.
    cbv [v_addr ex_2x2 v_ptr v_map m_offset for_each_stride map seq length fold_left fst snd nth] in E.
    repeat f_equal; lia.
Qed.
Definition ex_1x3 : view := mkView 1 (StridedM ty2 [1; 3] [7; 2]).
Definition ex_3x2 : view := mkView 0 (StridedM ty2 [3; 2] [1; 3]).
Example ex_1x3_valid : valid_view 6 ex_1x3.
Proof.
  constructor.
  - wf_tac.
  - intros idx H. inb H.
    cbv [v_addr ex_1x3 v_ptr v_map m_offset for_each_stride map seq length fold_left fst snd nth]. lia.
  - intros i j Hi Hj E. inb Hi. inb Hj.
    cbv [v_addr ex_1x3 v_ptr v_map m_offset for_each_stride map seq length fold_left fst snd nth] in E.
    repeat f_equal; lia.
Qed.
Example ex_3x2_valid : valid_view 6 ex_3x2.
Proof.
  constructor.
  - wf_tac.
  - intros idx H. inb H.
    cbv [v_addr ex_3x2 v_ptr v_map m_offset for_each_stride map seq length fold_left fst snd nth]. lia.
  - intros i j Hi Hj E. inb Hi. inb Hj.
    cbv [v_addr ex_3x2 v_ptr v_map m_offset for_each_stride map seq length fold_left fst snd nth] in E.
    repeat f_equal; lia.
Qed.
Example ex_222_valid : valid_view 8 ex_222.
Proof. apply whole_valid; wf_tac. Qed.
Example ex_big_valid : valid_view 0 ex_big.
Proof.
  apply empty_valid; [|reflexivity].
  assert (0 <= big) by (unfold big; lia). wf_tac.
Qed.

(** ** C20 *)

(** [axis_expr(a)] yields [dim(a)] views, the k-th being [axis_at(a, k)], by both kinds of
    iteration; no two share an element.  The guard excludes the views of [c20_refuted]. *)
Theorem c20_axis_expr_partial : forall n rep v a i,
  valid_view n v -> is_axis a (length (v_dims v)) i ->
  (0 < nth i (v_dims v) 0 -> fits (remove_at i (v_dims v))) ->
  exists e ws, e_axis rep v a = Ok e /\ e_dims e = [nth i (v_dims v) 0] /\ e_rep e = rep /\
    e_collect e = Ok ws /\ Z.of_nat (length ws) = nth i (v_dims v) 0 /\
    (exists it it', it_nexts (length ws) (it_new e) = Ok (map Some ws, it) /\ it_next it = Ok (None, it')) /\
    (forall k, 0 <= k < nth i (v_dims v) 0 ->
       exists w, nth_error ws (Z.to_nat k) = Some w /\ v_axis_at v a k = Ok w /\
         v_dims w = remove_at i (v_dims v) /\ valid_view n w /\ shows v w (insert_at i k)) /\
    (forall k1 k2 w1 w2 j1 j2, k1 <> k2 ->
       nth_error ws k1 = Some w1 -> nth_error ws k2 = Some w2 ->
       in_bounds (v_dims w1) j1 -> in_bounds (v_dims w2) j2 -> v_addr w1 j1 <> v_addr w2 j2).
Proof. exact axis_expr_ok. Qed.
Print Assumptions c20_axis_expr_partial.

(** For arrays with at least one element the guard holds, as their length fits a [usize]. *)
Theorem c20_nonempty : forall dims i, (i < length dims)%nat ->
  nonneg dims -> fits dims -> 0 < nth i dims 0 -> fits (remove_at i dims).
Proof. intros dims i _ Hn Hf Hp. now apply remove_fits. Qed.
Print Assumptions c20_nonempty.

Example c20_example : valid_view 24 ex_rev /\ is_axis (AxConst 1) 3 1 /\ fits (remove_at 1 (v_dims ex_rev)) /\
  exists e ws, e_axis true ex_rev (AxConst 1) = Ok e /\ e_collect e = Ok ws /\
    map (fun w => map (v_addr w) (indices (v_dims w))) ws =
      [[20; 22; 8; 10]; [16; 18; 4; 6]; [12; 14; 0; 2]].
Proof.
  split; [exact ex_rev_valid|]. split; [split; [lia|reflexivity]|]. split.
  - intros [|[|[|k]]]; vm_compute; discriminate.
  - eexists _, _. split; [vm_compute; reflexivity|]. split; vm_compute; reflexivity.
Qed.

(** An empty view whose remaining dimensions have an overflowing product: [axis_at] works for
    every index but [axis_expr] panics at its first item. *)
Theorem c20_refuted : exists n v a w e,
  valid_view n v /\ is_axis a (length (v_dims v)) 0 /\ 0 < nth 0 (v_dims v) 0 /\
  v_axis_at v a 0 = Ok w /\ e_axis true v a = Ok e /\ e_collect e = Panic.
Proof.
  exists 0, ex_big, (AxConst 0). eexists _, _. split; [exact ex_big_valid|].
  split; [split; [simpl; lia|reflexivity]|]. split; [reflexivity|].
  split; [vm_compute; reflexivity|]. split; vm_compute; reflexivity.
Qed.
Print Assumptions c20_refuted.

(** Exactly for which views: [axis_expr] itself never panics.  Both kinds of iteration deliver
    every item when the axis is empty or the product of the other nonzero dimensions fits a
    [usize]; otherwise both panic at the first item. *)
Theorem c20_exact : forall n rep v a i,
  valid_view n v -> is_axis a (length (v_dims v)) i ->
  exists e, e_axis rep v a = Ok e /\
    ((exists ws, e_collect e = Ok ws) <-> (0 < nth i (v_dims v) 0 -> fits (remove_at i (v_dims v)))) /\
    ((exists x it, it_next (it_new e) = Ok (x, it)) <-> (0 < nth i (v_dims v) 0 -> fits (remove_at i (v_dims v)))) /\
    (~ (0 < nth i (v_dims v) 0 -> fits (remove_at i (v_dims v))) ->
       e_collect e = Panic /\ it_next (it_new e) = Panic).
Proof.
  intros n rep v a i HV HA.
  assert (HD : (0 < nth i (v_dims v) 0 -> fits (remove_at i (v_dims v))) \/
    (0 < nth i (v_dims v) 0 /\ ~ fits (remove_at i (v_dims v)))).
  { destruct (checked_len_cases (remove_at i (v_dims v))) as [F|F]; [now left|].
    destruct (Z.ltb_spec 0 (nth i (v_dims v) 0)); [right; split; auto; intros G; apply checked_len_fits in G; congruence|left; lia]. }
  destruct HD as [HG|[HP HF]].
  - destruct (axis_expr_ok rep HV HA HG) as (e & ws & Ee & _ & _ & Ec & _ & (it & it' & En & El) & _).
    exists e. split; [exact Ee|]. split; [split; eauto|]. split; [|contradiction].
    split; [auto|intros _]. destruct ws as [|w ws]; cbn [length map it_nexts] in En.
    + injection En as ->. eauto.
    + destruct (it_next (it_new e)) as [[x it1]| | |] eqn:E1; cbn [bind] in En; try discriminate. eauto.
  - destruct (axis_overflow rep (vv_wf HV) HA HP HF) as (e & Ee & En & Ec).
    assert (EC : e_collect e = Panic) by (unfold e_collect; now rewrite Ec).
    exists e. split; [exact Ee|]. rewrite EC, En. repeat split; auto; try (intros [? E]; discriminate);
      try (intros HG; contradiction (HF (HG HP))). intros (? & ? & E). discriminate.
Qed.
Print Assumptions c20_exact.

(** Both sides occur, the second also beside an empty axis that is not the one iterated. *)
Example c20_exact_example :
  (exists e ws, e_axis true ex_rev (AxConst 1) = Ok e /\ e_collect e = Ok ws /\ length ws = 3%nat) /\
  (valid_view 0 ex_big /\ is_axis (AxConst 0) (length (v_dims ex_big)) 0 /\ 0 < nth 0 (v_dims ex_big) 0 /\
   ~ fits (remove_at 0 (v_dims ex_big))).
Proof.
  split; [eexists _, _; split; [vm_compute; reflexivity|]; split; vm_compute; reflexivity|].
  split; [exact ex_big_valid|]. split; [split; [simpl; lia|reflexivity]|]. split; [reflexivity|].
  intros F. apply checked_len_fits in F. vm_compute in F. discriminate.
Qed.

(** ** C21 *)

(** [lanes(a)] yields the lane of every index of the other dimensions in row-major order, and no
    two share an element, provided that the remaining dimensions are iterated with one index
    (dense layout after removing the axis, or rank at most 2). *)
Theorem c21_lanes_partial : forall n rep v a i,
  valid_view n v -> is_axis a (length (v_dims v)) i -> fits (remove_at i (v_dims v)) ->
  ax_split a (v_ty v) (v_layout v) = Dense \/ (length (v_dims v) <= 2)%nat ->
  exists e ws, e_lanes rep v a = Ok e /\ e_dims e = remove_at i (v_dims v) /\ e_rep e = rep /\
    e_collect e = Ok ws /\ length ws = length (indices (remove_at i (v_dims v))) /\
    (exists it it', it_nexts (length ws) (it_new e) = Ok (map Some ws, it) /\ it_next it = Ok (None, it')) /\
    (forall idx, in_bounds (remove_at i (v_dims v)) idx ->
       exists w, nth_error ws (Z.to_nat (flat (remove_at i (v_dims v)) idx)) = Some w /\
         v_dims w = [nth i (v_dims v) 0] /\ valid_view n w /\
         shows v w (fun j => insert_at i (nth 0 j 0) idx)) /\
    (forall k1 k2 w1 w2 j1 j2, k1 <> k2 ->
       nth_error ws k1 = Some w1 -> nth_error ws k2 = Some w2 ->
       in_bounds (v_dims w1) j1 -> in_bounds (v_dims w2) j2 -> v_addr w1 j1 <> v_addr w2 j2).
Proof. exact lanes_expr_ok. Qed.
Print Assumptions c21_lanes_partial.

Example c21_example : valid_view 24 ex_whole /\ is_axis (AxConst 0) 3 0 /\
  fits (remove_at 0 (v_dims ex_whole)) /\ ax_split (AxConst 0) (v_ty ex_whole) (v_layout ex_whole) = Dense /\
  exists e ws, e_lanes true ex_whole (AxConst 0) = Ok e /\ e_collect e = Ok ws /\ length ws = 12%nat /\
    map (fun w => map (v_addr w) (indices (v_dims w))) (firstn 6 ws) =
      [[0; 12]; [1; 13]; [2; 14]; [3; 15]; [4; 16]; [5; 17]].
Proof.
  split; [exact ex_whole_valid|]. split; [split; [lia|reflexivity]|]. split.
  - intros [|[|[|k]]]; vm_compute; discriminate.
  - split; [reflexivity|]. eexists _, _. split; [vm_compute; reflexivity|]. vm_all.
Qed.
Example c21_example_strided : ax_split AxCols (v_ty ex_2x2) (v_layout ex_2x2) = Strided /\
  exists e ws, e_lanes true ex_2x2 AxCols = Ok e /\ e_collect e = Ok ws /\
    map (fun w => map (v_addr w) (indices (v_dims w))) ws = [[0; 1]; [2; 3]].
Proof. split; [reflexivity|]. eexists _, _. vm_all. Qed.

(** The rows of a [2;2;2] array: the third lane is the first one again, and two lanes of the
    mutable form share every element. *)
Theorem c21_refuted : exists n v a e ws,
  valid_view n v /\ is_axis a (length (v_dims v)) 2 /\ fits (v_dims v) /\
  e_lanes false v a = Ok e /\ e_collect e = Ok ws /\
  (exists idx w, in_bounds (remove_at 2 (v_dims v)) idx /\
     nth_error ws (Z.to_nat (flat (remove_at 2 (v_dims v)) idx)) = Some w /\
     v_addr w [0] <> v_addr v (idx ++ [0])) /\
  (exists k1 k2 w1 w2, k1 <> k2 /\ nth_error ws k1 = Some w1 /\ nth_error ws k2 = Some w2 /\
     in_bounds (v_dims w1) [0] /\ in_bounds (v_dims w2) [0] /\ v_addr w1 [0] = v_addr w2 [0]).
Proof.
  exists 8, ex_222, AxRows. eexists _, _. split; [exact ex_222_valid|].
  split; [split; simpl; lia|]. split; [intros [|[|[|[|k]]]]; vm_compute; discriminate|].
  split; [vm_compute; reflexivity|]. split; [vm_compute; reflexivity|]. split.
  - exists [1; 0]. eexists. split; [inb_tac|]. split; [vm_compute; reflexivity|].
    vm_compute. discriminate.
  - exists 0%nat, 2%nat. eexists _, _. split; [discriminate|]. split; [vm_compute; reflexivity|].
    split; [vm_compute; reflexivity|]. split; [inb_tac|]. split; [inb_tac|].
    vm_compute. reflexivity.
Qed.
Print Assumptions c21_refuted.

(** ** C22 *)

(** [fold]/[for_each] over a view. *)
Theorem c22_fold_partial : forall T n rep v (f : T -> Z -> outcome T) acc,
  valid_view n v -> view_fine v ->
  e_fold (e_view n rep v) f acc = foldM f (map (v_addr v) (indices (v_dims v))) acc.
Proof. exact @view_fold. Qed.
Print Assumptions c22_fold_partial.

(** The condition is exact: all dense views, and the strided ones without a zero before a
    non-zero last dimension. *)
Theorem c22_exact : forall n rep v,
  valid_view n v ->
  (e_collect (e_view n rep v) = Ok (map (v_addr v) (indices (v_dims v))) <-> view_fine v).
Proof. exact view_collect_iff. Qed.
Print Assumptions c22_exact.

(** Number of visits: the length. *)
Theorem c22_count : forall v, wf_map (v_map v) ->
  Z.of_nat (length (map (v_addr v) (indices (v_dims v)))) = prodZ (v_dims v).
Proof.
  intros v Hw. rewrite map_length. pose proof (wf_nonneg Hw) as Hn. rewrite indices_length by exact Hn.
  pose proof (prodZ_nonneg Hn). unfold v_dims in *. lia.
Qed.
Print Assumptions c22_count.

Example c22_example : valid_view 24 ex_rev /\ view_fine ex_rev /\
  e_fold (e_view 24 true ex_rev) (fun l a => Ok (l ++ [a])) [] =
    Ok [20; 22; 16; 18; 12; 14; 8; 10; 4; 6; 0; 2].
Proof.
  split; [exact ex_rev_valid|]. split; [right; left; repeat constructor|]. vm_compute. reflexivity.
Qed.
Example c22_example_empty : valid_view 6 ex_cols0 /\ view_fine ex_cols0 /\
  e_fold (e_view 6 true ex_cols0) (fun (l : list Z) a => Panic) [] = Ok [].
Proof. split; [exact ex_cols0_valid|]. split; [right; right; reflexivity|]. vm_compute. reflexivity. Qed.

(** The transposed view of a [3;0] array is empty, but the closure is called (on a reference
    outside the storage). *)
Theorem c22_refuted : exists v,
  valid_view 0 v /\ prodZ (v_dims v) = 0 /\
  (forall (f : unit -> Z -> outcome unit), e_fold (e_view 0 true v) f tt = UB) /\
  (exists n l, valid_view n v /\ l <> [] /\ e_collect (e_view n true v) = Ok l).
Proof.
  exists ex_0x3. split; [exact ex_0x3_valid|]. split; [reflexivity|]. split; [reflexivity|].
  exists 5, [0; 0; 0]. split; [apply empty_valid; [wf_tac|reflexivity]|].
  split; [discriminate|]. vm_compute. reflexivity.
Qed.
Print Assumptions c22_refuted.

(** ** C23, C24, C25 *)

(** After [k] calls of [next]: the first [k] elements have been yielded, [size_hint] is the number
    of remaining ones and [fold] visits exactly those; after the last one [next] gives [None],
    and, without outer dimensions, [None] for ever with [size_hint] 0. *)
Theorem c23_next_partial : forall n rep v k,
  valid_view n v -> view_next_fine v -> (k <= Z.to_nat (prodZ (v_dims v)))%nat ->
  exists it, it_nexts k (it_new (e_view n rep v)) = Ok (map Some (map (v_addr v) (firstn k (indices (v_dims v)))), it) /\
    it_size it = prodZ (v_dims v) - Z.of_nat k /\
    (forall T (f : T -> Z -> outcome T) acc,
       it_fold f it acc = foldM f (map (v_addr v) (skipn k (indices (v_dims v)))) acc) /\
    (k = Z.to_nat (prodZ (v_dims v)) -> exists it', it_next it = Ok (None, it') /\
       (v_layout v = Dense \/ (length (v_dims v) <= 1)%nat -> forall m, exists it'',
            it_nexts m it' = Ok (repeat None m, it'') /\ it_size it'' = 0)).
Proof. exact view_nexts. Qed.
Print Assumptions c23_next_partial.

Theorem c24_size_partial : forall n rep v k,
  valid_view n v -> view_next_fine v -> (k <= Z.to_nat (prodZ (v_dims v)))%nat ->
  exists xs it, it_nexts k (it_new (e_view n rep v)) = Ok (xs, it) /\
    it_size it = prodZ (v_dims v) - Z.of_nat k.
Proof. intros n rep v k Hv HF Hk. destruct (view_nexts rep Hv HF Hk) as (it & E & S & _). eauto. Qed.
Print Assumptions c24_size_partial.

Theorem c25_fused_partial : forall n rep v m,
  valid_view n v -> v_layout v = Dense \/ (length (v_dims v) <= 1)%nat ->
  let len := Z.to_nat (prodZ (v_dims v)) in
  exists it, it_nexts (len + m) (it_new (e_view n rep v)) =
    Ok (map Some (map (v_addr v) (indices (v_dims v))) ++ repeat None m, it) /\
    it_size it = 0.
Proof. exact view_fused. Qed.
Print Assumptions c25_fused_partial.

Example c23_example : valid_view 24 ex_rev /\ view_next_fine ex_rev /\
  exists it, it_nexts 5 (it_new (e_view 24 true ex_rev)) =
    Ok ([Some 20; Some 22; Some 16; Some 18; Some 12], it) /\ it_size it = 7 /\
    it_fold (fun l a => Ok (l ++ [a])) it [] = Ok [14; 8; 10; 4; 6; 0; 2].
Proof.
  split; [exact ex_rev_valid|]. split; [right; right; repeat constructor|].
  eexists. vm_all.
Qed.
Example c25_example : valid_view 24 ex_whole /\ v_layout ex_whole = Dense /\
  exists it, it_nexts 27 (it_new (e_view 24 true ex_whole)) =
    Ok (map Some (zrange 24) ++ [None; None; None], it).
Proof. split; [exact ex_whole_valid|]. split; [reflexivity|]. eexists. vm_compute. reflexivity. Qed.

(** The view [.., 0..0] of a [2;3] array has no elements and [fold] visits none, but [next] yields
    elements of the second row and goes on past the end of the storage. *)
Theorem c23_refuted : exists n v,
  valid_view n v /\ prodZ (v_dims v) = 0 /\ e_collect (e_view n true v) = Ok [] /\
  (exists it, it_nexts 3 (it_new (e_view n true v)) = Ok ([Some 3; Some 4; Some 5], it)) /\
  it_nexts 4 (it_new (e_view n true v)) = UB.
Proof.
  exists 6, ex_cols0. split; [exact ex_cols0_valid|]. split; [reflexivity|]. split; [vm_compute; reflexivity|].
  split; [eexists|]; vm_compute; reflexivity.
Qed.
Print Assumptions c23_refuted.

(** The transposed view of a [2;2] array: after the four elements and [None], [size_hint] is 2
    ... *)
Theorem c24_refuted : exists n v xs it it' it'',
  valid_view n v /\ prodZ (v_dims v) = 4 /\
  it_nexts 4 (it_new (e_view n true v)) = Ok (map Some xs, it) /\ it_size it = 0 /\
  it_next it = Ok (None, it') /\ it_size it' = 2 /\
  (* a second None-free run starts, and in between the hint is wrong *)
  it_next it' = Ok (Some 1, it'') /\ it_size it'' = 1.
Proof.
  exists 4, ex_2x2, [0; 2; 1; 3]. eexists _, _, _. split; [exact ex_2x2_valid|]. split; [reflexivity|].
  vm_all.
Qed.
Print Assumptions c24_refuted.

(** ... and the following call of [next] yields the second row again. *)
Theorem c25_refuted : exists n v it,
  valid_view n v /\ prodZ (v_dims v) = 4 /\
  it_nexts 7 (it_new (e_view n true v)) =
    Ok ([Some 0; Some 2; Some 1; Some 3; None; Some 1; Some 3], it).
Proof.
  exists 4, ex_2x2. eexists. split; [exact ex_2x2_valid|]. split; [reflexivity|]. vm_compute. reflexivity.
Qed.
Print Assumptions c25_refuted.

(** Exactly when the properties hold, for all views.

    C23: [next] yields the elements and then [None], unless a strided view has several dimensions, one of
    which is 0, and either the last one is not 0 or another one exceeds 1. *)
Theorem c23_exact : forall n rep v, valid_view n v ->
  let len := Z.to_nat (prodZ (v_dims v)) in
  (exists it, it_nexts (len + 1) (it_new (e_view n rep v)) = Ok (map Some (map (v_addr v) (indices (v_dims v))) ++ [None], it)) <->
  v_layout v = Dense \/ (length (v_dims v) <= 1)%nat \/ positive (v_dims v) \/
  last (v_dims v) 1 = 0 /\ Forall (fun d => d <= 1) (removelast (v_dims v)).
Proof. intros n rep v Hv. exact (next_exact rep Hv). Qed.
Print Assumptions c23_exact.

(** C24: [size_hint] is right for ever exactly for dense views and those that have a single row. *)
Theorem c24_exact : forall n rep v, valid_view n v ->
  (forall m, exists xs it, it_nexts m (it_new (e_view n rep v)) = Ok (xs, it) /\
     it_size it = Z.max 0 (prodZ (v_dims v) - Z.of_nat m)) <->
  v_layout v = Dense \/ (length (v_dims v) <= 1)%nat \/ Forall (eq 1) (removelast (v_dims v)) \/
  last (v_dims v) 1 = 0 /\ Forall (fun d => d <= 1) (removelast (v_dims v)).
Proof. intros n rep v Hv. exact (size_exact rep Hv). Qed.
Print Assumptions c24_exact.

(** C25: likewise [None] for ever. *)
Theorem c25_exact : forall n rep v, valid_view n v ->
  let len := Z.to_nat (prodZ (v_dims v)) in
  (forall m, exists it, it_nexts (len + m) (it_new (e_view n rep v)) =
     Ok (map Some (map (v_addr v) (indices (v_dims v))) ++ repeat None m, it)) <->
  v_layout v = Dense \/ (length (v_dims v) <= 1)%nat \/ Forall (eq 1) (removelast (v_dims v)) \/
  last (v_dims v) 1 = 0 /\ Forall (fun d => d <= 1) (removelast (v_dims v)).
Proof. intros n rep v Hv. exact (fused_exact rep Hv). Qed.
Print Assumptions c25_exact.

(** What happens instead: all rows but the first are visited again and again, with one [None] in between. *)
Theorem c25_cycle : forall n rep v,
  valid_view n v -> v_layout v = Strided -> (2 <= length (v_dims v))%nat -> positive (v_dims v) ->
  let len := Z.to_nat (prodZ (v_dims v)) in
  let row := Z.to_nat (last (v_dims v) 0) in
  let items := map (v_addr v) (indices (v_dims v)) in
  exists it, it_nexts (len + 1) (it_new (e_view n rep v)) = Ok (map Some items ++ [None], it) /\
    it_size it = prodZ (v_dims v) - last (v_dims v) 0 /\
    forall k, it_nexts (k * (len - row + 1)) it = Ok (concat (repeat (map Some (skipn row items) ++ [None]) k), it).
Proof.
  intros n rep v Hv Hs Hr HP. cbv zeta. destruct (@view_cycle n rep v Hv Hs Hr HP) as (it & E & SZ & C).
  exists it. split; [exact E|]. split; [exact SZ|]. induction k as [|k IH]; [reflexivity|]. cbn [Nat.mul repeat concat].
  rewrite it_nexts_app, C. cbn [bind]. rewrite IH. reflexivity.
Qed.
Print Assumptions c25_cycle.

(** A single row and a transposed [2;3] array. *)
Example c25_exact_example :
  valid_view 6 ex_1x3 /\ Forall (eq 1) (removelast (v_dims ex_1x3)) /\
  (exists it, it_nexts 6 (it_new (e_view 6 true ex_1x3)) = Ok ([Some 1; Some 3; Some 5; None; None; None], it) /\ it_size it = 0) /\
  valid_view 6 ex_3x2 /\ positive (v_dims ex_3x2) /\
  (exists it, it_nexts 17 (it_new (e_view 6 true ex_3x2)) =
    Ok ([Some 0; Some 3; Some 1; Some 4; Some 2; Some 5; None; Some 1; Some 4; Some 2; Some 5; None; Some 1; Some 4; Some 2; Some 5; None], it) /\
    it_size it = 4).
Proof.
  split; [exact ex_1x3_valid|]. split; [repeat constructor|].
  split; [eexists; split; vm_compute; reflexivity|]. split; [exact ex_3x2_valid|]. split; [repeat constructor|].
  eexists. split; vm_compute; reflexivity.
Qed.

(** ** C26 *)

(** [zip] of any two expressions whose shapes have their types. *)
Theorem c26_zip : forall A B (a : expression A) (b : expression B),
  typed (e_ty a) (e_dims a) -> typed (e_ty b) (e_dims b) ->
  let ok := trailing_eq (e_dims a) (e_dims b) /\
            (e_rep a = true \/ (e_rank b <= e_rank a)%nat) /\
            (e_rep b = true \/ (e_rank a <= e_rank b)%nat) in
  (ok /\ exists z, e_zip a b = Ok z /\ e_dims z = longer (e_dims a) (e_dims b)) \/
  (~ ok /\ e_zip a b = Panic).
Proof.
  intros A B a b Ta Tb. destruct (zip_cases Ta Tb) as [[H E]|H]; [left|right; exact H].
  split; [exact H|]. eexists. split; [exact E|reflexivity].
Qed.
Print Assumptions c26_zip.

(** A whole tree is built exactly when all its zips are compatible, and then has the shape of
    its meaning; nothing but [Panic] can happen otherwise. *)
Theorem c26_build : forall A (t : tree A),
  t_leaves t ->
  (t_zips t /\ exists e, t_build t = Ok e /\ e_dims e = t_dims t /\ e_rep e = t_rep t) \/
  (~ t_zips t /\ t_build t = Panic).
Proof.
  intros A t HL. destruct (build_cases HL) as [(HZ & e & E & B)|H]; [left|right; exact H].
  split; auto. exists e. split; [exact E|]. split; [apply (bu_dims B)|apply (bu_rep B)].
Qed.
Print Assumptions c26_build.

(** The elements of a zip: pairs of the operands' elements at the trailing coordinates. *)
Theorem c26_zip_items_partial : forall A B (a : tree A) (b : tree B) e xs ys sa sb,
  t_leaves (TZip a b) -> t_build (TZip a b) = Ok e -> t_fine (TZip a b) ->
  items (t_act a) (map (lastn (length (t_dims a))) (indices (longer (t_dims a) (t_dims b)))) (t_init a) = Ok (xs, sa) ->
  items (t_act b) (map (lastn (length (t_dims b))) (indices (longer (t_dims a) (t_dims b)))) (t_init b) = Ok (ys, sb) ->
  e_dims e = longer (t_dims a) (t_dims b) /\ e_collect e = Ok (combine xs ys).
Proof. exact @zip_items. Qed.
Print Assumptions c26_zip_items_partial.

(** The guard [t_fine] only matters for empty arrays (C22) and for lanes (C21), so: every
    non-empty zip. *)
Theorem c26_zip_items : forall A B (a : tree A) (b : tree B) e xs ys sa sb,
  t_leaves (TZip a b) -> t_build (TZip a b) = Ok e ->
  positive (longer (t_dims a) (t_dims b)) -> t_need (TZip a b) = 0%nat ->
  items (t_act a) (map (lastn (length (t_dims a))) (indices (longer (t_dims a) (t_dims b)))) (t_init a) = Ok (xs, sa) ->
  items (t_act b) (map (lastn (length (t_dims b))) (indices (longer (t_dims a) (t_dims b)))) (t_init b) = Ok (ys, sb) ->
  e_dims e = longer (t_dims a) (t_dims b) /\ e_collect e = Ok (combine xs ys).
Proof. intros A B a b e xs ys sa sb HL E HP HN. apply zip_items; auto. now apply (nonempty_fine (t := TZip a b)). Qed.
Print Assumptions c26_zip_items.

(** A [2;3;2] strided view zipped with a dense [3;2] array of another storage. *)
Definition ex_zip : tree (Z * Z) := TZip (TView 24 true ex_rev) (TView 6 true (whole ty2 [3; 2])).
Example c26_example : t_leaves ex_zip /\ t_zips ex_zip /\ t_fine ex_zip /\
  exists e, t_build ex_zip = Ok e /\ e_dims e = [2; 3; 2] /\
    e_collect e = Ok [(20, 0); (22, 1); (16, 2); (18, 3); (12, 4); (14, 5);
                      (8, 0); (10, 1); (4, 2); (6, 3); (0, 4); (2, 5)].
Proof.
  split; [split; [exact ex_rev_valid|apply whole_valid; wf_tac]|].
  split; [repeat split; left; reflexivity|]. split; [split; [vm_compute; lia|left; vm_compute; repeat constructor]|].
  eexists. vm_all.
Qed.
(** Operands that are expressions themselves, inside one of higher rank: a strided one is set back at
    the end of each repetition; one that can be used only once cannot be repeated. *)
Example c26_nested :
  let rows := mkView 0 (StridedM ty2 [2; 2] [4; 1]) in let sq := whole ty2 [2; 2] in
  let collect A (t : tree A) := (let* e := t_build t in e_collect e) in
  collect _ (TZip (TView 8 true (whole ty3 [2; 2; 2])) (TZip (TView 8 true rows) (TView 4 true sq))) =
    Ok [(0, (0, 0)); (1, (1, 1)); (2, (4, 2)); (3, (5, 3)); (4, (0, 0)); (5, (1, 1)); (6, (4, 2)); (7, (5, 3))] /\
  collect _ (TZip (TView 8 true (whole ty3 [2; 2; 2])) (TZip (TView 4 true sq) (TView 8 true rows))) =
    Ok [(0, (0, 0)); (1, (1, 1)); (2, (2, 4)); (3, (3, 5)); (4, (0, 0)); (5, (1, 1)); (6, (2, 4)); (7, (3, 5))] /\
  collect _ (TZip (TView 8 true (whole ty3 [2; 2; 2])) (TMap (fun x (s : unit) => Ok (x + 100, s)) tt (TView 8 true rows))) =
    Ok [(0, 100); (1, 101); (2, 104); (3, 105); (4, 100); (5, 101); (6, 104); (7, 105)] /\
  collect _ (TZip (TZip (TView 4 true sq) (TView 4 false sq)) (TView 8 true (whole ty3 [2; 2; 2]))) = Panic /\
  v_assign (fun x (c : Z) => Ok (x, c)) sq (e_view 8 true (whole ty3 [2; 2; 2])) [1; 2; 3; 4] 0 = Panic.
Proof. cbv zeta. vm_all. Qed.
Example c26_example_panic : let t := TZip (TView 24 true ex_rev) (TView 6 true (whole ty2 [2; 3])) in
  t_leaves t /\ ~ t_zips t /\ t_build t = Panic.
Proof.
  split; [split; [exact ex_rev_valid|apply whole_valid; wf_tac]|]. split; [|vm_compute; reflexivity].
  intros (_ & _ & H & _). vm_compute in H. discriminate.
Qed.
(** A mutable view cannot be repeated. *)
Example c26_example_mut : let t := TZip (TView 24 true ex_rev) (TView 6 false (whole ty2 [3; 2])) in
  t_leaves t /\ t_build t = Panic.
Proof. split; [split; [exact ex_rev_valid|apply whole_valid; wf_tac]|vm_compute; reflexivity]. Qed.

(** ** C27 *)

(** Internal iteration of any tree computes the items at the indices in row-major order, threading
    the captured states, and gives each to the closure as soon as it is computed. *)
Theorem c27_tree_fold_partial : forall A T (t : tree A) e (f : T -> A -> outcome T) acc,
  t_leaves t -> t_build t = Ok e -> t_fine t ->
  e_fold e f acc = run_value (t_act t) f (indices (t_dims t)) (t_init t) acc.
Proof. exact @tree_fold_built. Qed.
Print Assumptions c27_tree_fold_partial.

(** The guards hold for every non-empty tree without lanes. *)
Theorem c27_nonempty : forall A (t : tree A),
  positive (t_dims t) -> t_need t = 0%nat -> t_fine t /\ t_next_fine t.
Proof. exact @nonempty_fine. Qed.
Print Assumptions c27_nonempty.

(** External iteration of any tree: after [n] calls of [next] the first [n] items have been
    computed, and the rest behaves as the rest of the items. *)
Theorem c27_tree_next_partial : forall A (t : tree A) e n xs s,
  t_leaves t -> t_build t = Ok e -> t_next_fine t -> (n <= Z.to_nat (prodZ (t_dims t)))%nat ->
  items (t_act t) (firstn n (indices (t_dims t))) (t_init t) = Ok (xs, s) ->
  exists it, it_nexts n (it_new e) = Ok (map Some xs, it) /\
    it_size it = prodZ (t_dims t) - Z.of_nat n /\
    (forall T (f : T -> A -> outcome T) acc,
       it_fold f it acc = run_value (t_act t) f (skipn n (indices (t_dims t))) s acc) /\
    (n = Z.to_nat (prodZ (t_dims t)) ->
       exists it', it_next it = Ok (None, it') /\
         (t_outer t = 0%nat -> forall k, exists it'', it_nexts k it' = Ok (repeat None k, it'') /\ it_size it'' = 0)).
Proof. exact @tree_next_built. Qed.
Print Assumptions c27_tree_next_partial.

(** What the meanings are, as lists. *)
Theorem c27_map : forall A B S F (f : A -> F -> outcome (B * F)) (act : action A S) l s f0 xs s',
  items act l s = Ok (xs, s') ->
  items (map_action f act) l (s, f0) = let* (ys, f') := traverse f xs f0 in Ok (ys, (s', f')).
Proof. exact @items_map. Qed.
Print Assumptions c27_map.
Theorem c27_enumerate : forall A S (act : action A S) l s xs s',
  items act l s = Ok (xs, s') ->
  exists st, items (enum_action act) l (s, 0) = Ok (combine (zrange (Z.of_nat (length xs))) xs, st).
Proof.
  intros A S act l s xs s' H. eexists. rewrite (items_enum _ H).
  rewrite (map_ext (Z.add 0) (fun x => x)) by reflexivity. rewrite map_id. reflexivity.
Qed.
Print Assumptions c27_enumerate.
Theorem c27_copied : forall A B S (f : A -> outcome B) (act : action A S) l s xs s',
  items act l s = Ok (xs, s') ->
  items (fun_action f act) l s =
    let* (ys, _) := traverse (fun a (_ : unit) => let* b := f a in Ok (b, tt)) xs tt in Ok (ys, s').
Proof. exact @items_fun. Qed.
Print Assumptions c27_copied.
Theorem c27_fill : forall A F (f : F -> outcome (A * F)) l s,
  items (call_action f) l s = traverse (fun _ s => f s) l s.
Proof. exact @items_call. Qed.
Print Assumptions c27_fill.

(** Enumerating and mapping a zip with a stateful closure. *)
Definition ex_tree : tree Z :=
  TMap (fun (p : Z * (Z * Z)) (s : Z) => Ok (s + fst p * 100 + fst (snd p) + snd (snd p), s + 1)) 1000
    (TEnumerate (TZip (TView 4 true ex_2x2) (TFillWith (fun s : Z => Ok (s * s, s + 1)) 3))).
Example c27_example : t_leaves ex_tree /\ t_zips ex_tree /\ t_fine ex_tree /\ t_next_fine ex_tree /\
  exists e, t_build ex_tree = Ok e /\
    e_collect e = Ok [1000 + 0 + 0 + 9; 1001 + 100 + 2 + 16; 1002 + 200 + 1 + 25; 1003 + 300 + 3 + 36].
Proof.
  split; [split; [exact ex_2x2_valid|exact I]|]. split; [repeat split; (right; simpl; lia) || (left; reflexivity)|].
  split; [split; [vm_compute; lia|left; vm_compute; repeat constructor]|].
  split; [split; [vm_compute; lia|right; vm_compute; repeat constructor]|].
  eexists. split; vm_compute; reflexivity.
Qed.

(** [from_elem] and [from_fn] panic exactly when the number of elements overflows. *)
Theorem c27_from_elem_panics : forall A F ty dims (cl : F -> outcome (A * F)) f0,
  e_from_elem ty dims cl f0 = Panic <-> ~ fits dims.
Proof. exact @from_elem_panics_iff. Qed.
Print Assumptions c27_from_elem_panics.

(** ** C28, for expressions *)

(** [from_fn] with static rank calls the closure with every index in row-major order, once. *)
Theorem c28_from_fn_partial : forall A F ty dims (f : list Z -> F -> outcome (A * F)) f0 e,
  nonneg dims -> typed ty dims -> (ty = SDynRank -> dims = []) ->
  e_from_fn ty dims f f0 = Ok e -> positive (removelast dims) \/ last dims 1 = 0 ->
  e_dims e = dims /\
  e_collect e = (let* (xs, _) := traverse f (indices dims) f0 in Ok xs).
Proof. exact @from_fn_collect. Qed.
Print Assumptions c28_from_fn_partial.

Example c28_example : exists e,
  e_from_fn ty3 [2; 1; 3] (fun idx (n : Z) => Ok ((idx, n), n + 1)) 0 = Ok e /\
  e_collect e = Ok [([0; 0; 0], 0); ([0; 0; 1], 1); ([0; 0; 2], 2); ([1; 0; 0], 3); ([1; 0; 1], 4); ([1; 0; 2], 5)].
Proof. eexists. split; vm_compute; reflexivity. Qed.

(** With dynamic rank the closure is called with an empty index and the first step panics. *)
Theorem c28_dyn_refuted : exists (f : list Z -> list (list Z) -> outcome (Z * list (list Z))) e,
  e_from_fn SDynRank [2] f [] = Ok e /\ e_collect e = Panic /\
  (forall l s, exists r, f l s = Ok r).
Proof.
  exists (fun idx s => Ok (0, idx :: s)). eexists. split; [vm_compute; reflexivity|].
  split; [vm_compute; reflexivity|]. eauto.
Qed.
Print Assumptions c28_dyn_refuted.

(** With a zero outer dimension it is called although there is no index. *)
Theorem c28_zero_refuted : exists e,
  e_from_fn ty2 [0; 3] (fun idx (n : unit) => Ok (idx, n)) tt = Ok e /\
  e_collect e = Ok [[0; 0]; [0; 1]; [0; 2]].
Proof. eexists. split; vm_compute; reflexivity. Qed.
Print Assumptions c28_zero_refuted.

(** ** C30 *)

(** [v.assign(e)] for any source tree that broadcasts to [v]: the source items are computed in
    row-major order (of [v]) and converted, and are then exactly the new contents of the cells of
    [v]; no other cell changes. *)
Theorem c30_assign_partial : forall T Y C (cl : Y -> C -> outcome (T * C)) v (t : tree Y) e mem c,
  let n := Z.of_nat (length mem) in
  valid_view n v -> t_leaves t -> t_build t = Ok e ->
  trailing_eq (v_dims v) (t_dims t) -> (length (t_dims t) <= length (v_dims v))%nat ->
  (t_rep t = true \/ length (t_dims t) = length (v_dims v)) ->
  t_fine (with_target n v t) ->
  match items (map_action cl (bcast (length (t_dims t)) (t_act t))) (indices (v_dims v)) (t_init t, c) with
  | Ok (xs, s) => exists mem', v_assign cl v e mem c = Ok (mem', snd s) /\
                    stored (v_dims v) (v_addr v) xs mem mem'
  | Panic => v_assign cl v e mem c = Panic
  | UB => v_assign cl v e mem c = UB
  | NoFuel => v_assign cl v e mem c = NoFuel
  end.
Proof. exact @assign_ok. Qed.
Print Assumptions c30_assign_partial.

(** Otherwise it panics (before writing anything). *)
Theorem c30_assign_panics : forall T Y C (cl : Y -> C -> outcome (T * C)) v (t : tree Y) e mem c,
  valid_view (Z.of_nat (length mem)) v -> t_leaves t -> t_build t = Ok e ->
  ~ (trailing_eq (v_dims v) (t_dims t) /\ (length (t_dims t) <= length (v_dims v))%nat /\
     (t_rep t = true \/ length (t_dims t) = length (v_dims v))) ->
  v_assign cl v e mem c = Panic.
Proof. exact @assign_panic. Qed.
Print Assumptions c30_assign_panics.

(** [fill_with] and [fill] (with [f] cloning the value). *)
Theorem c30_fill_partial : forall T C (f : C -> outcome (T * C)) v mem c,
  valid_view (Z.of_nat (length mem)) v -> view_fine v ->
  match items (call_action f) (indices (v_dims v)) c with
  | Ok (xs, s) => exists mem', v_fill_with f v mem c = Ok (mem', s) /\
                    stored (v_dims v) (v_addr v) xs mem mem'
  | Panic => v_fill_with f v mem c = Panic
  | UB => v_fill_with f v mem c = UB
  | NoFuel => v_fill_with f v mem c = NoFuel
  end.
Proof. exact @fill_with_ok. Qed.
Print Assumptions c30_fill_partial.

(** Assigning the row [7;8] (broadcast) to every second column of a [2;4] array. *)
Definition ex_cols2 : view := mkView 1 (StridedM ty2 [2; 2] [4; 2]).
Example ex_cols2_made : v_run (whole ty2 [2; 4]) [OpView [IxFull; IxStep (Included 1) Unbounded 2]] = Ok ex_cols2.
Proof. vm_compute. reflexivity. Qed.
Definition ex_row : tree Z := TFromFn (STuple [DDyn]) [2] (fun idx (s : unit) => Ok (7 + nth 0 idx 0, s)) tt.
Definition id_cl (y : Z) (s : unit) : outcome (Z * unit) := Ok (y, s).
Example c30_example : exists e, t_build ex_row = Ok e /\
  v_assign id_cl ex_cols2 e (repeat 0 8) tt = Ok ([0; 7; 0; 8; 0; 7; 0; 8], tt).
Proof. eexists. split; [vm_compute; reflexivity|]. vm_compute. reflexivity. Qed.
Example c30_example_hyps : valid_view 8 ex_cols2 /\ t_leaves ex_row /\
  trailing_eq (v_dims ex_cols2) (t_dims ex_row) /\ t_rep ex_row = true /\ t_fine (with_target 8 ex_cols2 ex_row).
Proof.
  split.
  { constructor.
    - wf_tac.
    - intros idx H. inb H.
      cbv [v_addr ex_cols2 v_ptr v_map m_offset for_each_stride map seq length fold_left fst snd nth]. lia.
    - intros i j Hi Hj E. inb Hi. inb Hj.
      cbv [v_addr ex_cols2 v_ptr v_map m_offset for_each_stride map seq length fold_left fst snd nth] in E.
      repeat f_equal; lia. }
  split; [repeat split; [wf_tac|wf_tac| |discriminate]|].
  { intros [|[|k]]; vm_compute; discriminate. }
  split; [reflexivity|]. split; [reflexivity|]. split; [vm_compute; lia|left; vm_compute; repeat constructor].
Qed.
Example c30_example_fill :
  v_fill_with (fun s : Z => Ok (s, s + 1)) ex_cols2 (repeat 0 8) 5 = Ok ([0; 5; 0; 6; 0; 7; 0; 8], 9).
Proof. vm_compute. reflexivity. Qed.

(** Filling the empty transposed view of a [3;0] array writes outside the storage; when the
    storage has cells (the view [0..0, ..] of a [3;2] array, transposed back and forth) it
    overwrites elements that the view does not have. *)
Definition ex_0x2 : view := mkView 0 (StridedM ty2 [0; 2] [2; 1]).
Example ex_0x2_made : v_run (whole ty2 [3; 2])
  [OpReorder; OpView [IxFull; IxRange (Included 0) (Excluded 0)]; OpReorder] = Ok ex_0x2.
Proof. vm_compute. reflexivity. Qed.
Theorem c30_refuted : exists v mem,
  valid_view (Z.of_nat (length mem)) v /\ prodZ (v_dims v) = 0 /\
  exists mem' s, v_fill_with (fun s : unit => Ok (9, s)) v mem tt = Ok (mem', s) /\ mem' <> mem.
Proof.
  exists ex_0x2, [1; 2; 3; 4; 5; 6]. split; [apply empty_valid; [wf_tac|reflexivity]|]. split; [reflexivity|].
  eexists _, _. split; [vm_compute; reflexivity|discriminate].
Qed.
Print Assumptions c30_refuted.
Theorem c30_ub_refuted : exists v,
  valid_view 0 v /\ prodZ (v_dims v) = 0 /\
  v_fill_with (fun s : unit => Ok (9, s)) v [] tt = UB.
Proof. exists ex_0x3. split; [exact ex_0x3_valid|]. split; [reflexivity|]. vm_compute. reflexivity. Qed.
Print Assumptions c30_ub_refuted.

(** ** C46, for zip *)
Theorem c46_zip_type : forall A B (a b : list Z),
  typed A a -> typed B b -> trailing_eq a b -> typed (zip_ty A B) (longer a b).
Proof. exact zip_typed. Qed.
Print Assumptions c46_zip_type.

(** ... and a size that either operand knows statically stays known ([rev]: the dimensions are
    matched from the last one). *)
Theorem c46_zip_keeps_constants : forall ds es,
  ty_wf (STuple ds) -> ty_wf (STuple es) ->
  exists rs, zip_ty (STuple ds) (STuple es) = STuple rs /\ length rs = Nat.max (length ds) (length es) /\
    forall k n, nth_error (rev ds) k = Some (DConst n) \/ nth_error (rev es) k = Some (DConst n) ->
      exists m, nth_error (rev rs) k = Some (DConst m).
Proof. exact zip_knows. Qed.
Print Assumptions c46_zip_keeps_constants.

Example c46_zip_example : let A := STuple [DDyn; DConst 3; DDyn] in let B := STuple [DDyn; DConst 2] in
  typed A [2; 3; 2] /\ typed B [3; 2] /\ trailing_eq [2; 3; 2] [3; 2] /\
  zip_ty A B = STuple [DDyn; DConst 3; DConst 2] /\ typed (zip_ty A B) [2; 3; 2].
Proof. repeat split; simpl; repeat constructor. Qed.
