(** Facts about [Pointer.v]: pointers stay inside the allocation. *)
From Verif Require Import Base Spec SpecFacts Shape Mapping Index View Wf MappingFacts MapOps ReshapeFacts.
From Verif Require Import IndexFacts ViewFacts ViewMore Expr ExprSpec ExprFacts IterFacts SourceFacts ExprTree ExprMore Pointer.
Unset Strict Implicit.

Lemma p_move_ok n p : 0 <= p <= n -> p_move n p = Ok p.
Proof.
  intros H. unfold p_move. destruct (Z.leb_spec 0 p); [|lia]. destruct (Z.leb_spec p n); [|lia]. reflexivity.
Qed.

Lemma in_bounds_max dims idx : in_bounds dims idx -> in_bounds (map (Z.max 1) dims) idx.
Proof.
  intros H. induction H as [|d x ds xs Hd H IH]; cbn [map]; constructor; auto. lia.
Qed.

Lemma max_positive dims : positive dims -> map (Z.max 1) dims = dims.
Proof. induction 1 as [|d ds Hd H IH]; cbn [map]; auto. rewrite IH. f_equal. lia. Qed.

(** The address of the first element. *)
Lemma addr_first v : wf_map (v_map v) -> v_addr v (repeat 0 (length (v_dims v))) = v_ptr v.
Proof.
  intros Hw. unfold v_addr. rewrite m_offset_dot.
  - rewrite dot_zeros. lia.
  - apply (wf_strides Hw).
  - apply repeat_length.
Qed.

Lemma valid_first n v : valid_view n v -> positive (v_dims v) -> 0 <= v_ptr v < n.
Proof.
  intros Hv Hp. rewrite <- (addr_first (vv_wf Hv)). apply (vv_range Hv). now apply in_bounds_zeros.
Qed.

Lemma walks_full n v : valid_view n v -> positive (v_dims v) -> walks n v.
Proof.
  intros Hv Hp idx B. rewrite max_positive in B by auto.
  pose proof (vv_range Hv B) as H. unfold v_addr in H. rewrite m_offset_dot in H; [lia| |].
  - apply (wf_strides (vv_wf Hv)).
  - now apply in_bounds_length.
Qed.

(** ** Views *)
Lemma zero_tail_bounds dims o m : in_bounds dims o -> (m <= length o)%nat -> in_bounds dims (zero_tail o m).
Proof.
  intros B Hm. pose proof (in_bounds_length B) as HL. apply in_bounds_intro.
  - rewrite zero_tail_length by auto. auto.
  - intros i Hi. rewrite zero_tail_nth' by lia. pose proof (@in_bounds_nth _ _ _ B Hi).
    destruct (_ <? _)%nat; lia.
Qed.

Section In.
  Variables (n : Z) (rep : bool) (v : view) (D : list Z) (q : nat).
  Hypothesis Hv : valid_view n v.
  Hypothesis HW : walks n v.
  Hypothesis C : compat (e_view n rep v) 0 D q.
  Let g := firstn q (gs (length D) (v_map v)).

  Lemma walk_range o : in_bounds (olim q D) o -> 0 <= v_ptr v + dot g o <= n.
  Proof.
    intros B. pose proof (cp_q C) as Hq. pose proof (olim_in_length Hq B) as Lo.
    assert (Hr : (m_rank (v_map v) <= length D)%nat) by apply (cp_rank C).
    assert (HM : in_bounds (map (Z.max 1) D) (o ++ repeat 0 (length D - q))).
    { rewrite <- (firstn_skipn q D) at 1. rewrite map_app. apply in_bounds_app.
      - rewrite map_length, firstn_length. lia.
      - split; [exact B|]. rewrite <- skipn_length, <- (map_length (Z.max 1)). apply in_bounds_zeros.
        unfold positive. rewrite Forall_map. apply Forall_forall. intros x _. lia. }
    apply in_bounds_lastn with (n := m_rank (v_map v)) in HM; [|rewrite map_length; exact Hr].
    assert (E : lastn (m_rank (v_map v)) (map (Z.max 1) D) = map (Z.max 1) (v_dims v)).
    { unfold lastn. rewrite skipn_map, map_length. f_equal. exact (cp_dims C). }
    rewrite E in HM. apply HW in HM.
    rewrite <- (@gs_dot (length D)) in HM.
    - rewrite <- (firstn_skipn q (gs (length D) (v_map v))) in HM. fold g in HM.
      rewrite dot_app, dot_zeros in HM; [lia|].
      unfold g. rewrite Lo. apply g_length; auto. apply (vv_wf Hv).
    - apply (vv_wf Hv).
    - exact Hr.
    - rewrite app_length, repeat_length. lia.
  Qed.
End In.

Lemma computes_view_in n rep v :
  valid_view n v -> walks n v -> computes (e_view_in n rep v) (pure_action (v_addr v)) tt 0.
Proof.
  intros Hv HW. pose proof (vv_wf Hv) as Hw.
  split; [apply (wf_nonneg Hw)|]. intros D q C.
  assert (C' : compat (e_view n rep v) 0 D q) by (destruct C; constructor; auto).
  pose proof (@walk_range n rep v D q Hv HW C') as RG.
  set (g := firstn q (gs (length D) (v_map v))) in *.
  assert (Hrank : (m_rank (v_map v) <= length D)%nat) by apply (cp_rank C).
  assert (Hlg : length g = q) by (apply g_length; auto; apply (cp_q C)).
  assert (Hdims : lastn (m_rank (v_map v)) D = m_dims (v_map v)) by apply (cp_dims C).
  exists (fun o i p _ => p = v_ptr v + dot g o).
  exists (fun o k p _ => p = v_ptr v + dot g (zero_tail o k)).
  assert (NOP : forall o, in_bounds (olim q D) o -> (q < length D)%nat ->
    reset_at (e_view_in n rep v) (length D) (length D - 1) 0 (v_ptr v + dot g o) = Ok (v_ptr v + dot g o)).
  { intros o B Hlt. unfold reset_at. replace (length D - (length D - 1))%nat with 1%nat by lia.
    destruct (Nat.leb_spec 1 (e_rank (e_view_in n rep v))) as [L|L]; [|reflexivity].
    cbn [e_view_in e_reset]. rewrite m_stride_ok; [|apply (wf_strides Hw)|].
    - cbn [bind]. rewrite Z.mul_0_r, Z.add_0_r. apply p_move_ok. auto.
    - change (m_rank (v_map v)) with (e_rank (e_view_in n rep v)). lia. }
  split; [constructor|].
  - intros o i p [] -> B Hi. cbn [e_view_in e_get]. unfold pure_action.
    assert (E : v_addr v (lastn (e_rank (e_view n rep v)) (o ++ unflat (skipn q D) i)) =
                v_ptr v + dot g o + inner_stride (v_map v) * i).
    { unfold v_addr. change (e_rank (e_view n rep v)) with (m_rank (v_map v)).
      rewrite full_offset; auto; try apply C; [unfold g; lia|].
      apply in_bounds_length in B. rewrite firstn_length in B. pose proof (cp_q C). lia. }
    assert (RG' : 0 <= v_ptr v + dot g o + inner_stride (v_map v) * i < n).
    { rewrite <- E. apply (vv_range Hv). apply (compat_index C'); auto. }
    change (e_rank (e_view_in n rep v)) with (e_rank (e_view n rep v)).
    unfold e_ref. rewrite E. destruct (Z.leb_spec 0 (v_ptr v + dot g o + inner_stride (v_map v) * i)); [|lia].
    destruct (Z.ltb_spec (v_ptr v + dot g o + inner_stride (v_map v) * i) n); [|lia]. cbn. auto.
  - intros o p [] -> B Hlt. exists (v_ptr v + dot g o). split; [now apply NOP|]. now rewrite zero_tail_0.
  - intros o p [] -> B Hlt. exists (v_ptr v + dot g (zero_tail o 0)). rewrite zero_tail_0.
    split; [now apply NOP|]. reflexivity.
  - intros o p [] -> B Hlt. now rewrite zero_tail_0.
  - intros o k p [] -> B Hk. pose proof (olim_in_length (cp_q C) B) as Lo. pose proof (cp_q C) as Hq.
    exists (v_ptr v + dot g (zero_tail o (k + 1))). split; [|reflexivity].
    assert (RZ : 0 <= v_ptr v + dot g (zero_tail o (k + 1)) <= n) by (apply RG; apply zero_tail_bounds; auto; lia).
    assert (E : dot g (zero_tail o (k + 1)) =
                dot g (zero_tail o k) + nth (q - 1 - k) g 0 * (0 - nth (q - 1 - k) o 0)).
    { replace (k + 1)%nat with (S k) by lia. rewrite zero_tail_S by lia. rewrite Lo.
      unfold g. rewrite move_outer; auto; try apply C; try lia.
      - rewrite zero_tail_nth by lia. reflexivity.
      - rewrite zero_tail_length; lia. }
    unfold g in E at 3. rewrite g_nth in E; auto; try apply C; try lia.
    unfold reset_at. change (e_rank (e_view_in n rep v)) with (m_rank (v_map v)).
    destruct (Nat.leb_spec (length D - (q - 1 - k)) (m_rank (v_map v))) as [L|L].
    + cbn [e_view_in e_reset]. rewrite m_stride_ok; [|apply (wf_strides Hw)|lia]. cbn [bind].
      etransitivity; [|exact (p_move_ok RZ)]. f_equal. unfold e_st in *. lia.
    + okz.
  - intros o k p [] -> B Hk Hmax Hlt. pose proof (olim_in_length (cp_q C) B) as Lo. pose proof (cp_q C) as Hq.
    exists (v_ptr v + dot g (succ_at o k)). split; [|reflexivity].
    assert (RZ : 0 <= v_ptr v + dot g (succ_at o k) <= n).
    { apply RG. apply (@flat_succ (olim q D) o k B); rewrite ?Lo; auto. }
    assert (E : dot g (succ_at o k) = dot g (zero_tail o k) + nth (q - 1 - k) g 0).
    { unfold succ_at. rewrite Lo. unfold g. rewrite move_outer; auto; try apply C; try lia.
      - rewrite zero_tail_nth by lia. lia.
      - rewrite zero_tail_length; lia. }
    unfold g in E at 3. rewrite g_nth in E; auto; try apply C; try lia.
    unfold step_at. change (e_rank (e_view_in n rep v)) with (m_rank (v_map v)).
    destruct (Nat.leb_spec (length D - (q - 1 - k)) (m_rank (v_map v))) as [L|L].
    + cbn [e_view_in e_step]. rewrite m_stride_ok; [|apply (wf_strides Hw)|lia]. cbn [bind].
      etransitivity; [|exact (p_move_ok RZ)]. f_equal. unfold e_st in *. lia.
    + okz.
  - cbn. rewrite dot_zeros. lia.
Qed.

(** ** Views handed out *)
Lemma computes_inside n (e : expression view) (g : list Z -> view) need :
  computes e (pure_action g) tt need ->
  (forall idx, in_bounds (e_dims e) idx -> 0 <= v_ptr (g idx) <= n) ->
  computes (e_inside n e) (pure_action g) tt need.
Proof.
  intros [Hn HC] HR. split; [exact Hn|]. intros D q C.
  assert (C' : compat e need D q) by (destruct C; constructor; auto).
  destruct (HC D q C') as (R & Q & [L1 L2 L3 L4 L5 L6] & H0). exists R, Q. split; [|exact H0].
  constructor; auto.
  intros o i s s' HR0 B Hi. specialize (L1 o i s s' HR0 B Hi).
  cbn [e_inside e_get]. unfold pure_action in *.
  change (e_rank (e_inside n e)) with (e_rank e).
  destruct (e_get e i s) as [[w s1]| | |]; cbn in L1; try contradiction.
  destruct L1 as [-> L1]. cbn [bind]. rewrite p_move_ok; [cbn; auto|].
  apply HR. apply (compat_index C'); auto.
Qed.

Lemma axis_at_ptr n v a i k w :
  valid_view n v -> 0 <= v_ptr v <= n -> is_axis a (length (v_dims v)) i -> 0 <= k < nth i (v_dims v) 0 ->
  v_axis_at v a k = Ok w -> 0 <= v_ptr w <= n.
Proof.
  intros Hv Hp HA Hk E. destruct (v_axis_at_ok (vv_wf Hv) HA Hk) as (w' & E' & Hd & _ & _ & Hw & HS).
  assert (w' = w) by congruence. subst w'.
  destruct (m_is_empty (v_map w)) eqn:EM.
  - unfold v_axis_at in E.
    destruct (ax_index a (m_rank (v_map v))); cbn [bind] in E; try discriminate.
    destruct (m_dim (v_map v) a0); cbn [bind] in E; try discriminate.
    destruct (assert _); cbn [bind] in E; try discriminate.
    destruct (ax_remove_map a (v_map v)); cbn [bind] in E; try discriminate.
    destruct (m_stride (v_map v) a0); cbn [bind] in E; try discriminate.
    injection E as <-. cbn [v_ptr v_map] in *. rewrite EM. lia.
  - rewrite m_is_empty_spec in EM. apply Z.eqb_neq in EM.
    assert (PW : positive (v_dims w)).
    { apply prodZ_pos_inv; [apply (wf_nonneg Hw)|]. pose proof (prodZ_nonneg (wf_nonneg Hw)). unfold v_dims. lia. }
    pose proof (in_bounds_zeros PW) as B0.
    pose proof (HS _ B0) as [HB HAd]. pose proof (vv_range Hv HB). rewrite <- HAd, addr_first in H by auto. lia.
Qed.

Lemma lane_ptr n v a i idx :
  valid_view n v -> 0 <= v_ptr v <= n -> is_axis a (length (v_dims v)) i ->
  in_bounds (remove_at i (v_dims v)) idx -> 0 <= v_ptr (lane_item v a i idx) <= n.
Proof.
  intros Hv Hp HA B. destruct (lane_item_ok (vv_wf Hv) HA B) as (Hd & _ & _ & Hw & HS).
  set (w := lane_item v a i idx) in *.
  destruct (Z.eq_dec (nth i (v_dims v) 0) 0) as [E0|NE].
  - unfold w, lane_item in *. destruct (ax_get_ok (vv_wf Hv) HA) as (m & -> & Hdm & _).
    rewrite m_is_empty_spec, Hdm. cbn [v_ptr]. unfold v_dims in E0. rewrite E0. cbn. lia.
  - assert (PW : positive (v_dims w)).
    { rewrite Hd. constructor; [|constructor].
      assert (0 <= nth i (v_dims v) 0); [|lia].
      pose proof (wf_nonneg (vv_wf Hv)) as HN. destruct (Nat.lt_ge_cases i (length (v_dims v))) as [L|L].
      - unfold nonneg in HN. rewrite Forall_forall in HN. apply HN, nth_In, L.
      - rewrite nth_overflow by auto. lia. }
    pose proof (in_bounds_zeros PW) as B0.
    pose proof (HS _ B0) as [HB HAd]. pose proof (vv_range Hv HB). rewrite <- HAd, addr_first in H by auto. lia.
Qed.

(** ** Expression trees *)
Lemma p_build_cases size {A} (t : tree A) :
  t_leaves t -> t_inside size t ->
  (t_zips t /\ exists e, p_build size t = Ok e /\ built t e) \/ (~ t_zips t /\ p_build size t = Panic).
Proof.
  induction t as [n rep v|rep v a|rep v a|A ty dims l|A F cl f0|A F f f0|A F ty dims cl f0|A F ty dims f f0
                 |A B F f f0 t IH|A B F f f0 t IH|A B rd t IH|A t IH|A B a IHa b IHb];
    cbn [t_leaves t_inside]; intros HL HI.
  - left. split; [exact I|]. exists (e_view_in n rep v). split; [reflexivity|]. constructor; try reflexivity.
    + apply (wf_typed (vv_wf HL)).
    + now apply computes_view_in.
  - left. split; [exact I|]. destruct HL as (Hw & HA & Hf). destruct HI as [Hv Hp].
    destruct (axis_ok rep Hw HA) as (e & E & Ety & Ed & Ei & Er & HC).
    { intros Hq. apply remove_fits; auto. apply (wf_nonneg Hw). }
    exists (e_inside (size v) e). cbn [p_build]. rewrite E. split; [reflexivity|]. constructor; auto.
    + cbn [e_inside e_ty e_dims]. rewrite Ety, Ed. constructor; [|constructor].
      apply ax_dim_ok; auto. apply (wf_typed Hw).
    + apply computes_inside; [exact HC|]. rewrite Ed. intros idx B.
      inversion B as [|? k ? idx' Hk HN]; subst. cbn [nth].
      unfold axis_item. destruct (v_axis_at_ok Hw HA Hk) as (w & Ew & _). rewrite Ew.
      exact (axis_at_ptr Hv Hp HA Hk Ew).
  - left. split; [exact I|]. destruct HL as (Hw & HA & Hf). destruct HI as [Hv Hp].
    destruct (lanes_ok rep Hw HA Hf) as (m & e & Em & E & Ety & Ed & Ei & _ & _ & _ & Er & HC).
    exists (e_inside (size v) e). cbn [p_build]. rewrite E. split; [reflexivity|]. constructor; auto.
    + cbn. now rewrite Em.
    + cbn [e_inside e_ty e_dims]. rewrite Ety, Ed. apply ax_remove_typed; auto. apply (wf_typed Hw).
    + apply computes_inside; [exact HC|]. rewrite Ed. intros idx B. now apply lane_ptr.
  - left. split; [exact I|]. destruct HL as (Hn & HT & HLn). eexists. split; [reflexivity|].
    constructor; auto. now apply computes_into.
  - left. split; [exact I|]. eexists. split; [reflexivity|]. constructor; auto; [constructor|apply computes_fill].
  - left. split; [exact I|]. eexists. split; [reflexivity|]. constructor; auto; [constructor|apply computes_fill_with].
  - left. split; [exact I|]. destruct HL as (Hn & HT & Hf).
    destruct (from_elem_ok ty cl f0 Hn Hf) as (e & E & Ety & Ed & Ei & Er & HC).
    exists e. split; [exact E|]. constructor; auto. now rewrite Ety, Ed.
  - left. split; [exact I|]. destruct HL as (Hn & HT & Hf & Hr).
    assert (HD : dims_default ty = repeat 0 (length dims)).
    { destruct ty as [|ds]; cbn in *; [now rewrite Hr|]. now rewrite (Forall2_len HT). }
    destruct (from_fn_ok f f0 HD Hn Hf) as (e & E & Ety & Ed & Ei & Er & HC).
    exists e. split; [exact E|]. constructor; auto. now rewrite Ety, Ed.
  - cbn [t_zips p_build]. destruct (IH HL HI) as [(HZ & e & E & [B1 B2 Bi B3 B4])|(HZ & E)]; rewrite E; cbn [bind].
    + left. split; auto. eexists. split; [reflexivity|]. constructor; auto. now apply computes_map.
    + right. auto.
  - cbn [t_zips p_build]. destruct (IH HL HI) as [(HZ & e & E & [B1 B2 Bi B3 B4])|(HZ & E)]; rewrite E; cbn [bind].
    + left. split; auto. eexists. split; [reflexivity|]. constructor; auto. now apply computes_cloned.
    + right. auto.
  - cbn [t_zips p_build]. destruct (IH HL HI) as [(HZ & e & E & [B1 B2 Bi B3 B4])|(HZ & E)]; rewrite E; cbn [bind].
    + left. split; auto. eexists. split; [reflexivity|]. constructor; auto. now apply computes_copied.
    + right. auto.
  - cbn [t_zips p_build]. destruct (IH HL HI) as [(HZ & e & E & [B1 B2 Bi B3 B4])|(HZ & E)]; rewrite E; cbn [bind].
    + left. split; auto. eexists. split; [reflexivity|]. constructor; auto. now apply computes_enumerate.
    + right. auto.
  - cbn [t_zips p_build]. destruct HL as [La Lb]. destruct HI as [Ia Ib].
    destruct (IHa La Ia) as [(Za & ea & Ea & [A1 A2 Ai A3 A4])|(Za & Ea)]; rewrite Ea; cbn [bind].
    2:{ right. split; [tauto|reflexivity]. }
    destruct (IHb Lb Ib) as [(Zb & eb & Eb & [B1 B2 Bi B3 B4])|(Zb & Eb)]; rewrite Eb; cbn [bind].
    2:{ right. split; [tauto|reflexivity]. }
    assert (HE : zippable ea eb <-> trailing_eq (t_dims a) (t_dims b) /\
      (t_rep a = true \/ (length (t_dims b) <= length (t_dims a))%nat) /\
      (t_rep b = true \/ (length (t_dims a) <= length (t_dims b))%nat)).
    { unfold zippable, e_rank. rewrite A1, A2, B1, B2. tauto. }
    destruct (zip_cases A3 B3) as [(Hz & E)|(Hz & E)]; rewrite E.
    + left. split; [tauto|]. eexists. split; [reflexivity|]. constructor.
      * cbn. now rewrite A1, B1.
      * cbn. now rewrite A2, B2.
      * cbn. now rewrite Ai, Bi.
      * cbn [zip_expr e_ty e_dims]. apply zip_typed; auto. apply Hz.
      * cbn [t_act t_init t_need]. rewrite <- A1, <- B1. now apply computes_zip.
    + right. split; [tauto|reflexivity].
Qed.

(** Two expressions with the meaning of the same tree cannot be told apart. *)
Lemma built_same {A} (t : tree A) e e' :
  built t e -> built t e' ->
  (t_fine t -> forall T (f : T -> A -> outcome T) acc, e_fold e' f acc = e_fold e f acc) /\
  (t_next_fine t -> forall k, (k <= Z.to_nat (prodZ (t_dims t)))%nat ->
     (let* (l, _) := it_nexts k (it_new e') in Ok l) = (let* (l, _) := it_nexts k (it_new e) in Ok l)).
Proof.
  intros B B'. split.
  - intros HF T f acc. rewrite (tree_fold _ _ B HF), (tree_fold _ _ B' HF). reflexivity.
  - intros HF k Hk. pose proof (tree_next B HF Hk) as H. pose proof (tree_next B' HF Hk) as H'.
    destruct (items (t_act t) (firstn k (indices (t_dims t))) (t_init t)) as [[xs s]| | |];
      destruct (it_nexts k (it_new e)) as [[l it]| | |]; cbn in H; try contradiction;
      destruct (it_nexts k (it_new e')) as [[l' it']| | |]; cbn in H'; try contradiction; cbn [bind]; auto.
    destruct H as [-> _], H' as [-> _]. reflexivity.
Qed.

(** ** View operations *)
Lemma v_view_empty v xs v' : v_view v xs = Ok v' -> prodZ (v_dims v') = 0 -> v_ptr v' = v_ptr v.
Proof.
  unfold v_view. destruct (view_index xs (v_ty v) (v_map v)) as [[off m]| | |]; cbn [bind]; try discriminate.
  intros [= <-]. unfold v_dims. cbn [v_map v_ptr]. intros E. rewrite m_is_empty_spec, E, Z.eqb_refl. lia.
Qed.

Lemma v_reshape_ptr v ty dims v' : v_reshape v ty dims = Ok v' -> v_ptr v' = v_ptr v.
Proof. unfold v_reshape. destruct (m_reshape _ _ _); cbn [bind]; try discriminate. now intros [= <-]. Qed.

Ltac inv_bind E :=
  repeat match type of E with
  | bind ?x _ = Ok _ => let H := fresh "E" in destruct x eqn:H; cbn [bind] in E; try discriminate
  end.

Lemma v_step_empty v o v' : v_step v o = Ok v' -> prodZ (v_dims v') = 0 -> v_ptr v' = v_ptr v.
Proof.
  assert (EMP : forall (b : bool) (m : mapping) x, b = m_is_empty m -> prodZ (m_dims m) = 0 -> (if b then 0 else x) = 0).
  { intros b m x -> H. rewrite m_is_empty_spec, H. reflexivity. }
  destruct o; cbn [v_step]; intros E HE.
  - unfold v_axis_at in E. inv_bind E. injection E as <-. unfold v_dims in HE. cbn [v_ptr v_map] in *.
    rewrite (EMP _ _ _ eq_refl HE). lia.
  - unfold v_split_axis_at in E. inv_bind E. destruct a0 as [x y]. injection E as <-.
    inv_bind E0. injection E0 as <- <-. reflexivity.
  - unfold v_split_axis_at in E. inv_bind E. destruct a0 as [x y]. injection E as <-.
    inv_bind E0. injection E0 as <- <-. unfold v_dims in HE. cbn [v_ptr v_map] in *.
    rewrite (EMP _ _ _ eq_refl HE). lia.
  - eapply v_view_empty; eauto.
  - unfold v_permute in E. inv_bind E. now injection E as <-.
  - unfold v_reorder in E. inv_bind E. now injection E as <-.
  - eapply v_reshape_ptr; eauto.
  - unfold v_flatten in E. eapply v_reshape_ptr; eauto.
  - unfold v_remap in E. inv_bind E. now injection E as <-.
  - unfold v_col in E. inv_bind E. rewrite (v_view_empty E HE). eapply v_reshape_ptr; eauto.
  - unfold v_row in E. inv_bind E. rewrite (v_view_empty E HE). eapply v_reshape_ptr; eauto.
  - unfold v_diag in E. inv_bind E. rewrite <- (v_reshape_ptr E1). unfold v_into_diag in E. inv_bind E.
    destruct a6 as [off len]. inv_bind E. injection E as <-. unfold v_dims in HE. cbn [v_ptr v_map] in *.
    match goal with H : strided_new _ _ _ = Ok _ |- _ => unfold strided_new in H; inv_bind H; injection H as <- end.
    cbn in HE. destruct (Z.gtb_spec len 0); lia.
Qed.

Lemma step_pointer n v o v' :
  0 <= n <= usize_max -> valid_view n v -> Forall (fun d => d <= usize_max) (v_dims v) ->
  op_arg v o -> v_step v o = Ok v' ->
  (prodZ (v_dims v') = 0 -> v_ptr v' = v_ptr v) /\ (prodZ (v_dims v') <> 0 -> 0 <= v_ptr v' < n).
Proof.
  intros Hn Hv HD HA E. split; [exact (v_step_empty E)|]. intros HP.
  destruct (step_valid Hn Hv HD HA E) as (Hv' & _).
  apply (valid_first Hv'). apply prodZ_pos_inv; [apply (wf_nonneg (vv_wf Hv'))|].
  pose proof (prodZ_nonneg (wf_nonneg (vv_wf Hv'))). unfold v_dims in *. lia.
Qed.

Lemma run_pointer n v os v' :
  0 <= n <= usize_max -> valid_view n v -> Forall (fun d => d <= usize_max) (v_dims v) -> 0 <= v_ptr v <= n ->
  run_args v os -> v_run v os = Ok v' -> 0 <= v_ptr v' <= n.
Proof.
  intros Hn. revert v. induction os as [|o os IH]; intros v Hv HD HP HA E; cbn [v_run] in E.
  - now injection E as <-.
  - cbn [run_args] in HA. destruct HA as [HA HB]. destruct (v_step v o) as [w| | |] eqn:Ew; cbn [bind] in E; try discriminate.
    destruct (step_valid Hn Hv HD HA Ew) as (Hw & HDw & _).
    destruct (step_pointer Hn Hv HD HA Ew) as [P1 P2].
    apply (IH w); auto. destruct (Z.eq_dec (prodZ (v_dims w)) 0) as [Z0|NZ]; [rewrite P1 by auto; auto|]. specialize (P2 NZ). lia.
Qed.

(** ** Views iterated alone without outer dimensions: the pointer does not move *)
Lemma inner_in_same n rep v {T} (f : T -> Z -> outcome T) k i p acc :
  inner_loop (e_view_in n rep v) f k i p acc = inner_loop (e_view n rep v) f k i p acc.
Proof.
  revert i p acc. induction k as [|k IH]; intros i p acc; cbn [inner_loop]; [reflexivity|].
  cbn [e_view_in e_view e_get]. destruct (e_ref n (p + inner_stride (v_map v) * i)); cbn [bind]; auto.
  destruct (f acc a); cbn [bind]; auto.
Qed.

Lemma inner_state n rep v {T} (f : T -> Z -> outcome T) k i p acc p' acc' :
  inner_loop (e_view n rep v) f k i p acc = Ok (p', acc') -> p' = p.
Proof.
  revert i acc. induction k as [|k IH]; intros i acc; cbn [inner_loop].
  - intros [= <- <-]. reflexivity.
  - cbn [e_view e_get]. destruct (e_ref n (p + inner_stride (v_map v) * i)); cbn [bind]; try discriminate.
    destruct (f acc a); cbn [bind]; try discriminate. apply IH.
Qed.

Lemma flat_in n rep v {T} (f : T -> Z -> outcome T) acc :
  wf_map (v_map v) -> 0 <= v_ptr v <= n -> v_layout v = Dense \/ (length (v_dims v) <= 1)%nat ->
  e_fold (e_view_in n rep v) f acc = e_fold (e_view n rep v) f acc.
Proof.
  intros Hw HP HL.
  assert (Q : outer_rank (e_view n rep v) = 0%nat).
  { unfold outer_rank, e_rank. cbn [e_view e_inner e_dims]. unfold map_inner_rank, v_layout, v_dims, m_rank in *.
    destruct (v_map v) as [ty dims|ty dims strides]; cbn [m_layout m_dims m_ty] in *.
    - destruct (sh_rank ty) as [[|k]|]; lia.
    - destruct HL as [E|E]; [discriminate|]. destruct (Nat.ltb_spec 0 (length dims)); lia. }
  assert (Q' : outer_rank (e_view_in n rep v) = 0%nat) by exact Q.
  unfold e_fold, it_fold, it_fuel.
  rewrite Q, Q'. cbn [firstn map fold_left]. change (Z.to_nat 1) with 1%nat.
  cbn [fold_loop]. unfold it_new. rewrite Q, Q'. cbn [it_limit it_index it_st it_outer it_olimit skipn].
  change (0 <? 0)%nat with false. cbv iota.
  change (e_dims (e_view_in n rep v)) with (v_dims v). change (e_dims (e_view n rep v)) with (v_dims v).
  change (e_init (e_view_in n rep v)) with (v_ptr v). change (e_init (e_view n rep v)) with (v_ptr v).
  rewrite inner_in_same.
  set (X := inner_loop (e_view n rep v) f _ _ _ _). destruct X as [[p acc']| | |] eqn:EX; unfold X in EX; try reflexivity.
  assert (p = v_ptr v) by (eapply inner_state; exact EX). subst p. cbn [bind].
  unfold step_outer. rewrite Q, Q'. cbn [step_loop it_st it_outer it_olimit it_index it_limit].
  change (e_rank (e_view_in n rep v)) with (m_rank (v_map v)). change (e_rank (e_view n rep v)) with (m_rank (v_map v)).
  destruct (Nat.ltb_spec 0 (m_rank (v_map v))) as [L|L]; [|reflexivity].
  cbn [e_view_in e_view e_reset]. rewrite m_stride_ok; [|apply (wf_strides Hw)|lia]. cbn [bind].
  rewrite Z.mul_0_r, Z.add_0_r. rewrite p_move_ok by auto. reflexivity.
Qed.
