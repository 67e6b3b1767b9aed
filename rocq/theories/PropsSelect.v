(** Theorems for C77: what chains of view operations select, in terms of indices alone.

    Select.v has the meaning of the operations: [chain_dims dims ops] are the sizes of the result,
    [chain_index dims ops idx] is the index of the original array whose element is at [idx] in the result, and
    [chain_fits dims ops] says that every operation makes sense for the sizes it meets.  No strides, offsets or
    layouts occur in it. *)
From Verif Require Import Base Spec SpecFacts Shape Mapping Index View Wf MappingFacts MapOps
  ReshapeFacts IndexFacts ViewFacts ViewMore PropsView.
From Verif Require Import Expr ExprSpec ExprFacts IterFacts SourceFacts ExprTree ExprMore PropsExpr.
From Verif Require Import Machine MachineSpec MachineIter MachineTensor MachineProgram MachineProgramFacts PropsMachineProgram.
From Verif Require Import Tensor TraceFacts TensorSpec TensorFacts ResizeFacts TensorOps DrainFacts OwnFacts
  ZipFacts OwnMore OpsFacts History HistoryFacts OwnProps PropsTensor Program ProgramFacts PropsProgram.
From Verif Require Import Select SelectFacts.
Unset Strict Implicit.

(** The element at [idx] of the array of sizes [dims] whose elements are [mem], in row-major order. *)
Definition elem {T} (dims : list Z) (mem : list T) (idx : list Z) : option T := nth_error mem (Z.to_nat (flat dims idx)).

(** ** One operation, on any valid view *)

Theorem c77_step : forall v o v',
  wf_map (v_map v) -> Forall (fun d => d <= usize_max) (v_dims v) -> op_given (v_dims v) o -> v_step v o = Ok v' ->
  op_fits (v_dims v) o /\ v_dims v' = op_dims (v_dims v) o /\ shows v v' (op_index (v_dims v) o).
Proof. intros v o v' HW HS HA E. destruct (step_index HW HS HA E) as (A & B & _ & C). auto. Qed.
Print Assumptions c77_step.

(** Operations that work on every layout panic exactly when they do not make sense for the sizes. *)
Theorem c77_panics : forall n v o,
  0 <= n <= usize_max -> valid_view n v -> Forall (fun d => d < usize_max) (v_dims v) -> (length (v_dims v) < 64)%nat ->
  op_given (v_dims v) o -> any_layout o = true ->
  (v_step v o = Panic <-> ~ op_fits (v_dims v) o) /\ ((exists v', v_step v o = Ok v') <-> op_fits (v_dims v) o).
Proof.
  intros n v o Hn HV HS HR HA HO. destruct (@run_panics n [o] v Hn HV HS HR) as [[P N]|[(v' & P) N]].
  - cbn [chain_given]. auto.
  - cbn [forallb]. now rewrite HO.
  - cbn [v_run chain_fits] in *. assert (N' : ~ op_fits (v_dims v) o) by tauto.
    assert (E : v_step v o = Panic) by (destruct (v_step v o); try discriminate P; reflexivity). rewrite E.
    split; split; auto; [intros (? & X); discriminate X|contradiction].
  - cbn [v_run chain_fits] in *. destruct N as [N _]. apply bind_ok in P as (w & E & _). rewrite E.
    split; split; auto; [discriminate|contradiction|eauto].
Qed.
Print Assumptions c77_panics.

(** ** Chains on an owned array *)

Lemma given_view_arg {T} (t : tensor T) ops : tensor_ok t -> Forall (fun d => d <= usize_max) (tn_dims t) ->
  zlen (tn_mem t) <= usize_max -> chain_given (tn_dims t) ops -> view_arg t ops.
Proof.
  intros Ht HD HL HG. split; [exact HD|]. split; [exact HL|]. eapply given_args with (n := zlen (tn_mem t)); auto.
  - unfold zlen in *. lia.
  - apply whole_valid; try apply Ht. unfold zlen. rewrite (to_len Ht). lia.
Qed.

Theorem c77_chain : forall T (t : tensor T) ops v,
  tensor_ok t -> Forall (fun d => d <= usize_max) (tn_dims t) -> zlen (tn_mem t) <= usize_max -> chain_given (tn_dims t) ops ->
  v_run (whole (tn_ty t) (tn_dims t)) ops = Ok v ->
  chain_fits (tn_dims t) ops /\ v_dims v = chain_dims (tn_dims t) ops /\
  (* the elements are elements of the array, each at one place *)
  (forall idx, in_bounds (v_dims v) idx -> in_bounds (tn_dims t) (chain_index (tn_dims t) ops idx)) /\
  (forall i j, in_bounds (v_dims v) i -> in_bounds (v_dims v) j ->
     chain_index (tn_dims t) ops i = chain_index (tn_dims t) ops j -> i = j) /\
  (* and are found there *)
  (forall idx, in_bounds (v_dims v) idx -> exists x,
     v_get (tn_mem t) v idx = Ok x /\ elem (tn_dims t) (tn_mem t) (chain_index (tn_dims t) ops idx) = Some x).
Proof.
  intros T t ops v Ht HD HL HG E. set (w := whole (tn_ty t) (tn_dims t)) in *.
  assert (Hn : 0 <= zlen (tn_mem t) <= usize_max) by (unfold zlen in *; lia).
  assert (HV : valid_view (zlen (tn_mem t)) w) by (apply whole_valid; try apply Ht; unfold zlen; rewrite (to_len Ht); lia).
  destruct (@run_index (zlen (tn_mem t)) ops w v Hn HV HD HG E) as (F & D & V & _ & SH). change (v_dims w) with (tn_dims t) in *.
  split; [exact F|]. split; [exact D|]. split; [intros idx B; apply (SH idx B)|]. split.
  - intros i j Bi Bj X. apply (vv_inj V); auto. destruct (SH i Bi) as [_ ->]. destruct (SH j Bj) as [_ ->]. now rewrite X.
  - intros idx B. destruct (SH idx B) as [Bf A]. pose proof (@whole_addr (tn_ty t) (tn_dims t) _ Bf) as WA. fold w in WA. rewrite WA in A.
    rewrite v_get_in by exact B. destruct (read_ok (vv_range V B)) as (x & R & R'). exists x. split; [exact R|].
    unfold elem. now rewrite <- A.
Qed.
Print Assumptions c77_chain.

(** Chains of operations that work on every layout run to their end exactly when every one makes sense. *)
Theorem c77_chain_panics : forall T (t : tensor T) ops,
  tensor_ok t -> Forall (fun d => d < usize_max) (tn_dims t) -> zlen (tn_mem t) <= usize_max -> (length (tn_dims t) < 64)%nat ->
  chain_given (tn_dims t) ops -> forallb any_layout ops = true ->
  let r := v_run (whole (tn_ty t) (tn_dims t)) ops in
  (r = Panic <-> ~ chain_fits (tn_dims t) ops) /\ ((exists v, r = Ok v) <-> chain_fits (tn_dims t) ops).
Proof.
  intros T t ops Ht HD HL HR HG HO r. unfold r. set (w := whole (tn_ty t) (tn_dims t)).
  assert (Hn : 0 <= zlen (tn_mem t) <= usize_max) by (unfold zlen in *; lia).
  assert (HV : valid_view (zlen (tn_mem t)) w) by (apply whole_valid; try apply Ht; unfold zlen; rewrite (to_len Ht); lia).
  destruct (@run_panics (zlen (tn_mem t)) ops w Hn HV HD HR HG HO) as [[P N]|[(v & P) N]]; rewrite P; change (v_dims w) with (tn_dims t) in N;
    split; split; auto; try discriminate; try contradiction.
  - intros (? & X). discriminate X.
  - eauto.
Qed.
Print Assumptions c77_chain_panics.

(** ** Writes *)

(** The elements of the tensor after the code was run on the selected ones up to the first panic: the [k]-th selected
    element has the [k]-th result, all others are as before. *)
Definition selected_changed {T} (dims : list Z) (ops : list vop) (news : list (option T)) (mem mem' : list T) : Prop :=
  length mem' = length mem /\
  (forall idx, in_bounds (chain_dims dims ops) idx ->
     elem dims mem' (chain_index dims ops idx) =
     match nth_error news (Z.to_nat (flat (chain_dims dims ops) idx)) with
     | Some (Some x) => Some x
     | _ => elem dims mem (chain_index dims ops idx)
     end) /\
  (forall i, in_bounds dims i -> (forall idx, in_bounds (chain_dims dims ops) idx -> chain_index dims ops idx <> i) ->
     elem dims mem' i = elem dims mem i).

(** The selected elements in row-major order. *)
Definition selected {T} (dims : list Z) (ops : list vop) (mem xs : list T) : Prop :=
  Forall2 (fun idx x => elem dims mem (chain_index dims ops idx) = Some x) (indices (chain_dims dims ops)) xs.

Lemma rewritten_selected {T} ty dims ops v news (mem mem' : list T) :
  shows (whole ty dims) v (chain_index dims ops) -> v_dims v = chain_dims dims ops ->
  rewritten (v_dims v) (v_addr v) news mem mem' -> selected_changed dims ops news mem mem'.
Proof.
  intros SH D (L & A & B). unfold selected_changed. rewrite <- D. split; [exact L|].
  assert (AD : forall idx, in_bounds (v_dims v) idx -> in_bounds dims (chain_index dims ops idx) /\ v_addr v idx = flat dims (chain_index dims ops idx)).
  { intros idx Bi. destruct (SH idx Bi) as [Bf EA]. split; [exact Bf|]. rewrite EA. now apply whole_addr. }
  split.
  - intros idx Bi. destruct (AD idx Bi) as [_ EA]. specialize (A idx Bi). rewrite EA in A. exact A.
  - intros i Bi N. apply B. intros idx Bx E. destruct (AD idx Bx) as [Bf EA]. rewrite EA in E.
    apply (N idx Bx). pose proof (flat_bounds Bi). pose proof (flat_bounds Bf). apply (@flat_inj dims); auto. lia.
Qed.

Lemma selected_contents {T} ty dims ops v (mem xs : list T) : valid_view (Z.of_nat (length mem)) v ->
  shows (whole ty dims) v (chain_index dims ops) -> v_dims v = chain_dims dims ops ->
  selected dims ops mem xs -> contents mem v xs.
Proof.
  intros V SH D S. unfold selected in S. rewrite <- D in S. unfold contents.
  assert (G : forall l, (forall idx, In idx l -> in_bounds (v_dims v) idx) ->
    forall ys, Forall2 (fun idx x => elem dims mem (chain_index dims ops idx) = Some x) l ys -> Forall2 (fun idx x => v_get mem v idx = Ok x) l ys).
  { intros l Hl ys F. induction F as [|idx x l ys E F IH]; constructor.
    - assert (B : in_bounds (v_dims v) idx) by (apply Hl; now left). destruct (SH idx B) as [Bf EA]. rewrite (@whole_addr ty dims _ Bf) in EA.
      rewrite v_get_in by exact B. destruct (read_ok (vv_range V B)) as (y & R & R'). rewrite R. f_equal. unfold elem in E. rewrite EA in R'. congruence.
    - apply IH. intros j J. apply Hl. now right. }
  apply G; auto. intros idx I. now apply in_indices in I.
Qed.

Theorem c77_write : forall T C (h : T -> C -> edit T C) (t : tensor T) (w : world T C) ops v xs,
  tensor_ok t -> Forall (fun d => d <= usize_max) (tn_dims t) -> zlen (tn_mem t) <= usize_max -> chain_given (tn_dims t) ops ->
  v_run (whole (tn_ty t) (tn_dims t)) ops = Ok v -> visits_right v -> selected (tn_dims t) ops (tn_mem t) xs ->
  let '(news, c, b) := edited (map (fun x => (x, h)) xs) (w_clo w) in
  finished b (tn_edit ops h (t, w)) (fun s => exists mem', selected_changed (tn_dims t) ops news (tn_mem t) mem' /\
    s = (mkTensor (tn_ty t) (tn_dims t) mem' (tn_cap t),
         mkWorld c (w_made w ++ somes news) (w_used w) (w_dropped w ++ replaced xs news))).
Proof.
  intros T C h t w ops v xs Ht HD HL HG E HF HX. set (w0 := whole (tn_ty t) (tn_dims t)) in *.
  assert (Hn : 0 <= zlen (tn_mem t) <= usize_max) by (unfold zlen in *; lia).
  assert (HV : valid_view (zlen (tn_mem t)) w0) by (apply whole_valid; try apply Ht; unfold zlen; rewrite (to_len Ht); lia).
  destruct (@run_index (zlen (tn_mem t)) ops w0 v Hn HV HD HG E) as (F & D & V & _ & SH). change (v_dims w0) with (tn_dims t) in *.
  pose proof (@c71_each T C h t w ops v xs Ht (given_view_arg Ht HD HL HG) E HF (selected_contents V SH D HX)) as H.
  destruct (edited _ _) as [[news c] b]. destruct H as (s & ES & mem' & HR & ->). eexists. split; [exact ES|]. exists mem'. split; [|reflexivity].
  eapply rewritten_selected; eauto.
Qed.
Print Assumptions c77_write.

(** The same with machine integers, in both build modes; in a debug build for tensors whose elements can be walked
    through without an overflow ([walkable], C76). *)
Theorem c77_machine : forall dbg T (t : tensor T) ops v,
  tensor_ok t -> small dbg t -> run_machine dbg (whole (tn_ty t) (tn_dims t)) ops ->
  x_run dbg (whole (tn_ty t) (tn_dims t)) ops = Ok v ->
  chain_fits (tn_dims t) ops /\ v_dims v = chain_dims (tn_dims t) ops /\
  forall idx, in_bounds (v_dims v) idx -> exists x,
    in_bounds (tn_dims t) (chain_index (tn_dims t) ops idx) /\
    x_get dbg (tn_mem t) v idx = Ok x /\ elem (tn_dims t) (tn_mem t) (chain_index (tn_dims t) ops idx) = Some x.
Proof.
  intros dbg T t ops v Ht HS HR E. destruct (tensor_machine Ht HS) as [HN HM].
  destruct (@x_run_index dbg _ ops _ v HN HM HR E) as (F & D & M & SH). change (v_dims (whole (tn_ty t) (tn_dims t))) with (tn_dims t) in *.
  split; [exact F|]. split; [exact D|]. intros idx B. destruct (SH idx B) as [Bf A]. rewrite (@whole_addr (tn_ty t) (tn_dims t) _ Bf) in A.
  rewrite (@MachineRun.x_get_fit T dbg (tn_mem t) v idx _ (mv_valid M) (proj2 HN) (MachineRelease.bounds_nonneg B)).
  rewrite v_get_in by exact B. destruct (read_ok (vv_range (mv_valid M) B)) as (x & R & R'). exists x. split; [exact Bf|]. split; [exact R|].
  unfold elem. now rewrite <- A.
Qed.
Print Assumptions c77_machine.

Theorem c77_machine_write : forall dbg T C (h : T -> C -> edit T C) (t : tensor T) (w : world T C) ops v xs,
  tensor_ok t -> small dbg t -> run_machine dbg (whole (tn_ty t) (tn_dims t)) ops ->
  x_run dbg (whole (tn_ty t) (tn_dims t)) ops = Ok v -> selected (tn_dims t) ops (tn_mem t) xs ->
  (if dbg then walkable true (zlen (tn_mem t)) v else visited v) ->
  let '(news, c, b) := edited (map (fun x => (x, h)) xs) (w_clo w) in
  finished b (x_edit dbg ops h (t, w)) (fun s => exists mem', selected_changed (tn_dims t) ops news (tn_mem t) mem' /\
    s = (mkTensor (tn_ty t) (tn_dims t) mem' (tn_cap t),
         mkWorld c (w_made w ++ somes news) (w_used w) (w_dropped w ++ replaced xs news))).
Proof.
  intros dbg T C h t w ops v xs Ht HS HR E HX HW. destruct (tensor_machine Ht HS) as [HN HM].
  destruct (@x_run_index dbg _ ops _ v HN HM HR E) as (F & D & M & SH). change (v_dims (whole (tn_ty t) (tn_dims t))) with (tn_dims t) in *.
  pose proof (@c76_each_exact dbg T C h t w ops v xs Ht HS HR E (selected_contents (mv_valid M) SH D HX) HW) as H.
  destruct (edited _ _) as [[news c] b]. destruct H as (s & ES & mem' & HRW & ->). eexists. split; [exact ES|]. exists mem'. split; [|reflexivity].
  eapply rewritten_selected; eauto.
Qed.
Print Assumptions c77_machine_write.

(** ** Chains that select the same *)

(** They read the same and are written to with the same effect. *)
Theorem c77_same : forall T C (h : T -> C -> edit T C) (t : tensor T) (w : world T C) ops ops' v v',
  tensor_ok t -> Forall (fun d => d <= usize_max) (tn_dims t) -> zlen (tn_mem t) <= usize_max ->
  chain_given (tn_dims t) ops -> chain_given (tn_dims t) ops' ->
  v_run (whole (tn_ty t) (tn_dims t)) ops = Ok v -> v_run (whole (tn_ty t) (tn_dims t)) ops' = Ok v' ->
  same_selection (tn_dims t) ops ops' ->
  v_dims v = v_dims v' /\ (forall idx, in_bounds (v_dims v) idx -> v_get (tn_mem t) v idx = v_get (tn_mem t) v' idx) /\
  (visits_right v -> visits_right v' -> tn_edit ops h (t, w) = tn_edit ops' h (t, w)).
Proof.
  intros T C h t w ops ops' v v' Ht HD HL HG HG' E E' [SD SI]. set (w0 := whole (tn_ty t) (tn_dims t)) in *.
  assert (Hn : 0 <= zlen (tn_mem t) <= usize_max) by (unfold zlen in *; lia).
  assert (HV : valid_view (zlen (tn_mem t)) w0) by (apply whole_valid; try apply Ht; unfold zlen; rewrite (to_len Ht); lia).
  destruct (@run_index (zlen (tn_mem t)) ops w0 v Hn HV HD HG E) as (_ & D & V & _ & SH).
  destruct (@run_index (zlen (tn_mem t)) ops' w0 v' Hn HV HD HG' E') as (_ & D' & V' & _ & SH'). change (v_dims w0) with (tn_dims t) in *.
  assert (DD : v_dims v = v_dims v') by congruence.
  assert (AA : forall idx, in_bounds (v_dims v) idx -> v_addr v idx = v_addr v' idx).
  { intros idx B. destruct (SH idx B) as [_ ->]. destruct (SH' idx) as [_ ->]; [now rewrite <- DD|]. f_equal. apply SI. now rewrite <- D. }
  split; [exact DD|]. split.
  { intros idx B. rewrite !v_get_in; [|now rewrite <- DD|exact B]. now rewrite AA. }
  intros HF HF'. destruct (@contents_exist T (tn_mem t) v V) as [xs HC].
  assert (HC' : contents (tn_mem t) v' xs).
  { unfold contents in *. rewrite <- DD. assert (G : forall l, (forall idx, In idx l -> in_bounds (v_dims v) idx) ->
      forall ys, Forall2 (fun idx x => v_get (tn_mem t) v idx = Ok x) l ys -> Forall2 (fun idx x => v_get (tn_mem t) v' idx = Ok x) l ys).
    { intros l Hl ys F. induction F as [|idx x l ys EX F IH]; constructor.
      - assert (B : in_bounds (v_dims v) idx) by (apply Hl; now left). rewrite v_get_in in EX by exact B. rewrite v_get_in by (now rewrite <- DD). now rewrite <- AA.
      - apply IH. intros j J. apply Hl. now right. }
    apply G; auto. intros idx I. now apply in_indices in I. }
  rewrite (edit_eq h w E V HF HC), (edit_eq h w E' V' HF' HC'). rewrite <- DD.
  replace (map (v_addr v') (indices (v_dims v))) with (map (v_addr v) (indices (v_dims v))); [reflexivity|].
  apply map_ext_in. intros idx I. apply in_indices in I. now apply AA.
Qed.
Print Assumptions c77_same.

(** Further operations in front or behind. *)
Theorem c77_context : forall dims before ops ops' after,
  same_selection (chain_dims dims before) ops ops' ->
  (forall idx, in_bounds (chain_dims dims (before ++ ops ++ after)) idx ->
     in_bounds (chain_dims dims (before ++ ops)) (chain_index (chain_dims dims (before ++ ops)) after idx)) ->
  same_selection dims (before ++ ops ++ after) (before ++ ops' ++ after).
Proof.
  intros dims before ops ops' after [SD SI] HB. split.
  - now rewrite !chain_dims_app, SD.
  - intros idx B. specialize (HB idx B). rewrite !chain_dims_app in HB. rewrite !chain_index_app, SI by exact HB. now rewrite SD.
Qed.
Print Assumptions c77_context.

(** ** Laws *)

Theorem c77_reorder_twice : forall dims, same_selection dims [OpReorder; OpReorder] [].
Proof. intros dims. split; cbn [chain_dims op_dims chain_index op_index]; [apply rev_involutive|]. intros. apply rev_involutive. Qed.
Print Assumptions c77_reorder_twice.

Theorem c77_permute_twice : forall dims a b c p q, perm_of (length dims) p -> perm_of (length dims) q ->
  perm_of (length dims) (pick q p) /\ same_selection dims [OpPermute a p; OpPermute b q] [OpPermute c (pick q p)].
Proof. intros dims a b c p q HP HQ. split; [now apply pick_perm_of|now apply permute_twice]. Qed.
Print Assumptions c77_permute_twice.

(** [axis_at] and [split_axis_at] are views of one dimension, and so are rows and columns. *)
Theorem c77_axis_at_view : forall dims a i k, nonneg dims -> is_axis a (length dims) i ->
  same_selection dims [OpAxisAt a k] [OpView (only (length dims) i (IxUsize k))].
Proof.
  intros dims a i k HN HA. pose proof HA as [Hi _]. split; cbn [chain_dims op_dims chain_index op_index]; rewrite (axis_dim_is HA).
  - symmetry. now apply only_at_dims.
  - intros idx B. symmetry. now apply only_at_index.
Qed.
Print Assumptions c77_axis_at_view.

Theorem c77_split_view : forall dims a i mid, nonneg dims -> is_axis a (length dims) i -> 0 <= mid <= nth i dims 0 ->
  same_selection dims [OpSplitFst a mid] [OpView (only (length dims) i (IxRange Unbounded (Excluded mid)))] /\
  same_selection dims [OpSplitSnd a mid] [OpView (only (length dims) i (IxRange (Included mid) Unbounded))].
Proof.
  intros dims a i mid HN HA Hm. pose proof HA as [Hi _].
  assert (P : forall lo hi, lo <= hi -> Z.of_nat (length (positions lo hi)) = hi - lo) by (intros; unfold positions; rewrite map_length, zrange_length; lia).
  split; split; cbn [chain_dims op_dims chain_index op_index]; rewrite ?(axis_dim_is HA).
  - rewrite only_kept_dims by auto. cbn [ix_positions range_lo range_hi]. rewrite P by lia. now rewrite Z.sub_0_r.
  - intros idx B. pose proof (@in_bounds_nth _ _ i B ltac:(rewrite upd_length; exact Hi)) as Bi. rewrite upd_nth_same in Bi by exact Hi.
    pose proof (in_bounds_length B) as L. rewrite upd_length in L. rewrite only_kept_index; auto.
    + cbn [ix_positions range_lo range_hi]. rewrite positions_nth by lia. rewrite Z.add_0_l, upd_same; [reflexivity|lia].
    + cbn [ix_positions range_lo range_hi]. rewrite P, Z.sub_0_r by lia. exact B.
  - rewrite only_kept_dims by auto. cbn [ix_positions range_lo range_hi]. now rewrite P by lia.
  - intros idx B. pose proof (@in_bounds_nth _ _ i B ltac:(rewrite upd_length; exact Hi)) as Bi. rewrite upd_nth_same in Bi by exact Hi.
    rewrite only_kept_index; auto.
    + cbn [ix_positions range_lo range_hi]. rewrite positions_nth by lia. now rewrite Z.add_comm.
    + cbn [ix_positions range_lo range_hi]. now rewrite P by lia.
Qed.
Print Assumptions c77_split_view.

Theorem c77_row_col : forall d0 d1 k, 0 <= d0 -> 0 <= d1 -> let dims := [d0; d1] in
  same_selection dims [OpRow k] [OpAxisAt (AxConst 0) k] /\ same_selection dims [OpCol k] [OpAxisAt (AxConst 1) k] /\
  same_selection dims [OpRow k] [OpView [IxUsize k; IxFull]] /\ same_selection dims [OpCol k] [OpView [IxFull; IxUsize k]] /\
  same_selection dims [OpReorder; OpRow k] [OpCol k] /\ same_selection dims [OpReorder; OpCol k] [OpRow k].
Proof.
  intros d0 d1 k H0 H1 dims. unfold dims.
  assert (F : forall d, 0 <= d -> Z.of_nat (length (positions 0 d)) = d) by (intros; unfold positions; rewrite map_length, zrange_length; lia).
  assert (B1 : forall d idx, in_bounds [d] idx -> exists i, idx = [i] /\ 0 <= i < d).
  { intros d idx B. inversion B as [|? i ? r Hi B']; subst. inversion B'; subst. eauto. }
  repeat split; cbn [chain_dims op_dims rev app nth length axis_dim remove_at firstn skipn sub_dims ix_kept ix_positions];
    rewrite ?F by auto; try reflexivity; intros idx B; apply B1 in B as (i & -> & Hi);
    cbn [chain_index op_index hd rev app nth length axis_dim insert_at firstn skipn sub_index ix_kept ix_positions]; try reflexivity;
    rewrite positions_nth by lia; reflexivity.
Qed.
Print Assumptions c77_row_col.

(** A diagonal of the transpose is the diagonal on the other side. *)
Theorem c77_diag_reorder : forall d0 d1 k, 0 <= d0 -> 0 <= d1 -> - d1 <= k <= d0 ->
  same_selection [d0; d1] [OpReorder; OpDiag k] [OpDiag (- k)].
Proof.
  intros d0 d1 k H0 H1 Hk. split; cbn [chain_dims op_dims rev app nth chain_index op_index].
  - f_equal. destruct (Z.geb_spec k 0), (Z.geb_spec (- k) 0); lia.
  - intros idx B. inversion B as [|? i ? r Hi B']; subst. inversion B'; subst. cbn [hd].
    destruct (Z.geb_spec k 0), (Z.geb_spec (- k) 0); cbn [rev app]; (apply f_equal2; [lia|apply f_equal2; [lia|reflexivity]]).
Qed.
Print Assumptions c77_diag_reorder.

(** A view of the transpose is the transpose of the view. *)
Theorem c77_view_reorder : forall dims xs, length xs = length dims ->
  same_selection dims [OpReorder; OpView (rev xs)] [OpView xs; OpReorder].
Proof.
  intros dims xs HL. split; cbn [chain_dims op_dims chain_index op_index].
  - now apply sub_dims_rev.
  - intros idx B. apply in_bounds_length in B. rewrite sub_dims_rev, rev_length in B by auto.
    rewrite <- (rev_involutive idx) at 1. rewrite sub_index_rev by (rewrite ?rev_length; auto). apply rev_involutive.
Qed.
Print Assumptions c77_view_reorder.

Theorem c77_reverse_twice : forall dims i, nonneg dims -> (i < length dims)%nat ->
  let o := OpView (only (length dims) i (IxStep Unbounded Unbounded (-1))) in same_selection dims [o; o] [].
Proof. exact reverse_twice. Qed.
Print Assumptions c77_reverse_twice.

Theorem c77_reshape_twice : forall dims t1 t2 r1 r2, nonneg dims -> Forall usize r1 ->
  op_fits dims (OpReshape t1 r1) -> op_fits dims (OpReshape t2 r2) ->
  same_selection dims [OpReshape t1 r1; OpReshape t2 r2] [OpReshape t2 r2].
Proof. intros dims t1 t2 r1 r2 HN HU H1 H2. now apply reshape_twice. Qed.
Print Assumptions c77_reshape_twice.

(** ** Examples: a 2x3x4 array, its dimensions permuted, every second element of the first from behind and the last two
    of the third, reversed, the second of the last dimension, in another shape. *)
Definition ex_chain : list vop :=
  [OpPermute PermDyn [2; 0; 1]; OpView [IxStep Unbounded Unbounded (-2); IxFull; IxRange (Included 1) Unbounded];
   OpReorder; OpAxisAt AxRows 1; OpReshape (STuple [DDyn; DDyn; DConst 2]) [usize_max; 1; 2]].
Definition ex_tensor : tensor Z := mkTensor ex_ty [2; 3; 4] ex_mem 24.

Lemma ex_tensor_ok : tensor_ok ex_tensor.
Proof. constructor; [repeat constructor; simpl; lia|repeat constructor|simpl; lia|reflexivity|reflexivity]. Qed.
Lemma ex_tensor_dims : Forall (fun d => d <= usize_max) (tn_dims ex_tensor).
Proof. apply small_dims. reflexivity. Qed.

Lemma ex_chain_given : chain_given (tn_dims ex_tensor) ex_chain.
Proof.
  assert (U : forall n, 0 <= n < 10 -> usize n) by (intros; unfold usize, usize_max; lia).
  cbn [ex_chain chain_given op_given].
  split; [split; [do 3 (constructor; [apply U; lia|]); constructor|exact I]|intros _].
  split; [split; [do 3 (constructor; [simpl; try split; try exact I; apply U; lia|]); constructor|reflexivity]|intros _].
  split; [exact I|intros _]. split; [apply U; lia|intros _].
  split; [|intros _; exact I]. split; [|split; [simpl; lia|reflexivity]].
  constructor; [unfold usize, usize_max; lia|]. constructor; [apply U; lia|constructor; [apply U; lia|constructor]].
Qed.

Example c77_chain_example :
  chain_dims [2; 3; 4] ex_chain = [2; 1; 2] /\
  map (chain_index [2; 3; 4] ex_chain) (indices [2; 1; 2]) = [[0; 1; 1]; [1; 1; 1]; [0; 2; 1]; [1; 2; 1]] /\
  exists v, v_run (whole (tn_ty ex_tensor) (tn_dims ex_tensor)) ex_chain = Ok v /\
    map (v_get (tn_mem ex_tensor) v) (indices [2; 1; 2]) = [Ok 105; Ok 117; Ok 109; Ok 121] /\
    elem [2; 3; 4] (tn_mem ex_tensor) [1; 2; 1] = Some 121.
Proof.
  split; [vm_compute; reflexivity|]. split; [vm_compute; reflexivity|]. eexists. split; [vm_compute; reflexivity|].
  split; vm_compute; reflexivity.
Qed.

(** Writing a counter, the code panics at the fourth element: three are written, in the order of the view. *)
Example c77_write_example :
  let count3 := fun (_ : Z) c => if c <? 3 then Edit (Some c) (c + 1) true else Edit None c false in
  selected [2; 3; 4] ex_chain ex_mem [105; 117; 109; 121] /\
  exists v t' w', v_run (whole (tn_ty ex_tensor) (tn_dims ex_tensor)) ex_chain = Ok v /\ visits_right v /\
    tn_edit ex_chain count3 (ex_tensor, mkWorld 0 [] [] []) = Unwound (t', w') /\ w_dropped w' = [105; 117; 109] /\
    map (elem [2; 3; 4] (tn_mem t')) [[0; 1; 1]; [1; 1; 1]; [0; 2; 1]; [1; 2; 1]; [0; 1; 2]] =
      [Some 0; Some 1; Some 2; Some 121; Some 106].
Proof.
  split; [unfold selected; vm_compute; repeat constructor|]. do 3 eexists. split; [vm_compute; reflexivity|].
  split; [right; left; vm_compute; repeat constructor|]. split; [vm_compute; reflexivity|]. split; vm_compute; reflexivity.
Qed.

(** What does not make sense panics: a column past the end in the sizes reached by then. *)
Example c77_panics_example :
  let ops := [OpAxisAt (AxConst 1) 2; OpReorder; OpCol 2] in
  chain_fits [2; 3; 4] [OpAxisAt (AxConst 1) 2; OpReorder] /\ chain_dims [2; 3; 4] [OpAxisAt (AxConst 1) 2; OpReorder] = [4; 2] /\
  ~ chain_fits [2; 3; 4] ops /\ v_run (whole ex_ty [2; 3; 4]) ops = Panic /\
  exists v, v_run (whole ex_ty [2; 3; 4]) [OpAxisAt (AxConst 1) 2; OpReorder; OpCol 1] = Ok v.
Proof.
  cbv zeta. split; [|split; [reflexivity|split; [|split; [vm_compute; reflexivity|eexists; vm_compute; reflexivity]]]].
  - cbn [chain_fits op_fits]. split; [|split; exact I]. exists 1%nat. split; [split; [simpl; lia|reflexivity]|simpl; lia].
  - cbn [chain_fits op_fits]. intros (_ & _ & (d0 & d1 & E & H) & _). vm_compute in E. injection E as <- <-. lia.
Qed.

Example c77_law_example :
  perm_of 3 [2; 0; 1] /\ pick [2; 0; 1] [2; 0; 1] = [1; 2; 0] /\
  same_selection [2; 3; 4] [OpPermute PermDyn [2; 0; 1]; OpPermute PermDyn [2; 0; 1]] [OpPermute PermDyn [1; 2; 0]] /\
  same_selection [2; 3; 4] [OpSplitSnd AxCols 1] [OpView [IxFull; IxRange (Included 1) Unbounded; IxFull]] /\
  ~ same_selection [2; 3; 4] [OpPermute PermDyn [2; 0; 1]] [OpPermute PermDyn [1; 2; 0]].
Proof.
  assert (P : perm_of 3 [2; 0; 1]) by (exact (proj1 c09_example)).
  split; [exact P|]. split; [reflexivity|]. split; [exact (proj2 (@c77_permute_twice [2; 3; 4] PermDyn PermDyn PermDyn _ _ P P))|].
  split. { apply (@c77_split_view [2; 3; 4] AxCols 1 1); [repeat constructor; lia|split; [simpl; lia|reflexivity]|simpl; lia]. }
  intros [E _]. vm_compute in E. discriminate E.
Qed.
