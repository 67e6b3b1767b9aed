(** Which lanes a strided remainder yields: only the last index moves the lane. *)
From Verif Require Import Base Spec SpecFacts Shape Mapping Index View Wf MappingFacts MapOps ReshapeFacts IndexFacts ViewFacts.
From Verif Require Import Expr ExprSpec ExprFacts IterFacts SourceFacts ExprTree ExprMore NextFacts Tensor ExactFacts.
Unset Strict Implicit.

(** The lane at [idx] as it comes out: displaced by the last index alone. *)
Definition lane_last (v : view) (a : axis) (i : nat) (idx : list Z) : view :=
  match ax_get a (v_map v) with
  | Ok m => mkView (v_ptr v + if m_is_empty m then 0 else last (remove_at i (m_strides (v_map v))) 0 * last idx 0) m
  | _ => v
  end.

Lemma last_nth (l : list Z) : last l 0 = nth (length l - 1) l 0.
Proof.
  induction l as [|x l IH]; auto. destruct l as [|y l]; auto.
  change (last (x :: y :: l) 0) with (last (y :: l) 0). rewrite IH. cbn [length].
  replace (S (S (length l)) - 1)%nat with (S (S (length l) - 1)) by lia. reflexivity.
Qed.

Lemma lanes_last rep v a i e :
  wf_map (v_map v) -> is_axis a (length (v_dims v)) i -> e_lanes rep v a = Ok e ->
  ax_split a (v_ty v) (v_layout v) = Strided -> (1 <= length (remove_at i (v_dims v)))%nat ->
  e_dims e = remove_at i (v_dims v) /\ e_inner e = Some 1%nat /\
  computes e (pure_action (lane_last v a i)) tt 1.
Proof.
  intros Hw HA HE HS HR. unfold e_lanes in HE.
  destruct (ax_remove_map_ok Hw HA) as (m & Em & Hd & Hs & Hty & Hl & Hwm). rewrite Em in HE. cbn [bind] in HE.
  unfold v_dims, v_ty, v_layout in *. rewrite Hd in HE.
  destruct (sh_checked_len _) as [len|] eqn:EL; [|discriminate]. injection HE as <-. cbn [e_dims e_inner].
  split; [reflexivity|]. rewrite HS in Hl. set (r := length (remove_at i (m_dims (v_map v)))) in *.
  assert (Er : m_rank m = r) by (unfold m_rank, r; now rewrite Hd).
  split. { unfold map_inner_rank. rewrite Hl, Er. destruct (Nat.ltb_spec 0 r); [reflexivity|lia]. }
  assert (ES : inner_stride m = last (remove_at i (m_strides (v_map v))) 0).
  { rewrite last_nth, <- Hs. destruct m as [ty dims|ty dims strides]; [discriminate|]. cbn in *.
    unfold m_rank in Er. cbn in Er. rewrite Er. destruct (Nat.ltb_spec 0 r); [|lia].
    pose proof (wf_strides Hwm) as W. cbn in W. rewrite W, Er. now destruct r. }
  split. { cbn [e_dims]. rewrite <- Hd. apply (wf_nonneg Hwm). }
  intros D q C. pose proof (cp_q C) as Hq. pose proof (cp_need C) as Hneed.
  pose proof (cp_inner C) as Hin. cbn [e_inner] in Hin. unfold map_inner_rank in Hin. rewrite Hl, Er in Hin.
  destruct (Nat.ltb_spec 0 r) as [_|]; [|lia].
  pose proof (cp_rank C) as HRK. unfold e_rank in HRK. cbn [e_dims] in HRK. fold r in HRK.
  exists (fun _ _ _ _ => True), (fun _ _ _ _ => True).
  assert (NR : forall j c (off : Z), exists s1,
    (if (length D - j <=? r)%nat then let* s := m_stride m (r - (length D - j)) in Ok (off - s * c) else Ok off) = Ok s1 \/ (length D <= j)%nat).
  { intros j c off. destruct (Nat.leb_spec (length D - j) r) as [L|L]; [|eauto].
    destruct (Nat.le_gt_cases (length D) j) as [L2|L2]; [exists 0; now right|].
    rewrite m_stride_ok; [|apply (wf_strides Hwm)|lia]. cbn [bind]. eauto. }
  split; [constructor|exact I].
  - intros o k off [] _ B Hk. cbn [e_get].
    match goal with |- context [pure_action _ (lastn ?x _)] => change x with r end.
    unfold pure_action, lane_last. destruct (ax_get_ok Hw HA) as (m1 & -> & _). cbn [bind].
    destruct (@inner_one D q) as (d & Ed); [lia|]. rewrite Ed, unflat_one, lastn_snoc by lia.
    rewrite last_last, ES. cbn. auto.
  - intros o off [] _ B Hlt. destruct (NR (length D - 1)%nat 0 off) as [s1 [H|H]]; [|lia].
    exists s1. split; [exact H|exact I].
  - intros o off [] _ B Hlt. destruct (NR (length D - 1)%nat 0 off) as [s1 [H|H]]; [|lia].
    exists s1. split; [exact H|exact I].
  - auto.
  - intros o m0 off [] _ B Hm. destruct (NR (q - 1 - m0)%nat (nth (q - 1 - m0) o 0) off) as [s1 [H|H]]; [|lia].
    exists s1. split; [exact H|exact I].
  - intros o m0 off [] _ B Hm _ _. unfold step_at. change (e_rank _) with r. cbn [e_step].
    destruct (Nat.leb_spec (length D - (q - 1 - m0)) r) as [L|L]; [|eauto].
    rewrite m_stride_ok; [|apply (wf_strides Hwm)|lia]. cbn [bind]. eauto.
Qed.

(** [ws] are the lanes of [v] along dimension [i]: one per index of the others, in order, each
    showing the elements at that index. *)
Definition lanes_right (v : view) (i : nat) (ws : list view) : Prop :=
  length ws = length (indices (remove_at i (v_dims v))) /\
  forall idx, in_bounds (remove_at i (v_dims v)) idx ->
    exists w, nth_error ws (Z.to_nat (flat (remove_at i (v_dims v)) idx)) = Some w /\
      v_dims w = [nth i (v_dims v) 0] /\ shows v w (fun j => insert_at i (nth 0 j 0) idx).

Lemma dot_ones (ss idx r : list Z) : in_bounds r idx -> Forall (eq 1) (removelast r) -> length ss = length r ->
  dot ss idx = last ss 0 * last idx 0.
Proof.
  intros B. revert ss. induction B as [|d x ds xs Hx HB IH]; intros ss HF HL.
  - destruct ss; [reflexivity|discriminate].
  - destruct ss as [|s ss]; [discriminate|]. cbn [length] in HL. injection HL as HL.
    cbn [dot]. destruct ds as [|d2 ds].
    + inversion HB; subst. destruct ss; [|discriminate]. cbn. lia.
    + change (removelast (d :: d2 :: ds)) with (d :: removelast (d2 :: ds)) in HF.
      inversion HF as [|? ? Hd HF']; subst.
      rewrite IH by auto. destruct xs as [|x2 xs]; [inversion HB|]. destruct ss as [|s2 ss]; [discriminate|].
      change (last (s :: s2 :: ss) 0) with (last (s2 :: ss) 0).
      change (last (x :: x2 :: xs) 0) with (last (x2 :: xs) 0). assert (x = 0) as -> by lia. lia.
Qed.

Lemma not_ones (l : list Z) : positive l -> ~ Forall (eq 1) l -> exists j, (j < length l)%nat /\ 1 < nth j l 0.
Proof.
  induction 1 as [|d l Hd Hp IH]; intros HN; [exfalso; apply HN; constructor|].
  destruct (Z.eq_dec d 1) as [->|NE].
  - destruct IH as (j & Hj & H); [intros H; apply HN; constructor; auto|]. exists (S j). cbn. split; [lia|auto].
  - exists 0%nat. cbn. split; lia.
Qed.

Lemma ones_dec (l : list Z) : {Forall (eq 1) l} + {~ Forall (eq 1) l}.
Proof. apply Forall_dec. intros x. destruct (Z.eq_dec 1 x); auto. Qed.

Lemma upd_unit_bounds r j : positive r -> 1 < nth j r 0 -> in_bounds r (upd (repeat 0 (length r)) j 1).
Proof.
  intros H. revert j. induction H as [|d r Hd Hp IH]; intros [|j] Hj; cbn in *; try lia; constructor; try lia.
  - apply in_bounds_zeros; auto.
  - apply IH; auto.
Qed.

Lemma last_upd (l : list Z) j x : (j < length l - 1)%nat -> last (upd l j x) 0 = last l 0.
Proof. intros H. rewrite !last_nth, upd_length, upd_nth_other by lia. reflexivity. Qed.

Lemma positive_split (r : list Z) : positive (removelast r) -> 0 < last r 1 -> positive r.
Proof.
  intros H1 H2. destruct r as [|x r]; [constructor|].
  rewrite (@app_removelast_last _ (x :: r) 1) by discriminate. apply Forall_app. split; auto.
Qed.

Lemma nonneg_last (r : list Z) : nonneg r -> 0 <= last r 1.
Proof.
  intros H. destruct r as [|x r]; [cbn; lia|].
  rewrite (@app_removelast_last _ (x :: r) 1) in H by discriminate. apply Forall_app in H as [_ H].
  now inversion H.
Qed.

Section Exact.
  Variables (n : Z) (rep : bool) (v : view) (a : axis) (i : nat) (e : expression view).
  Hypotheses (Hv : valid_view n v) (HA : is_axis a (length (v_dims v)) i) (HE : e_lanes rep v a = Ok e).
  Let r := remove_at i (v_dims v).

  Lemma lane_nonneg : nonneg r.
  Proof.
    destruct (ax_remove_map_ok (vv_wf Hv) HA) as (m & _ & Hd & _ & _ & _ & Hwm).
    unfold r. unfold v_dims. rewrite <- Hd. apply (wf_nonneg Hwm).
  Qed.

  Lemma lanes_fits : fits r.
  Proof.
    unfold e_lanes in HE. destruct (ax_remove_map_ok (vv_wf Hv) HA) as (m & Em & Hd & _).
    rewrite Em in HE. cbn [bind] in HE. rewrite Hd in HE. unfold r, v_dims in *.
    destruct (sh_checked_len _) eqn:EL; [|discriminate]. now apply checked_len_inv in EL.
  Qed.

  Lemma lanes_exact :
    (exists ws, e_collect e = Ok ws /\ lanes_right v i ws) <->
    ax_split a (v_ty v) (v_layout v) = Dense \/ (length r <= 1)%nat \/ last r 1 = 0 \/
    positive (removelast r) /\ (nth i (v_dims v) 0 = 0 \/ Forall (eq 1) (removelast r)).
  Proof.
    assert (Hi : (i < length (v_dims v))%nat) by apply HA.
    assert (HRL : length r = (length (v_dims v) - 1)%nat) by (unfold r; now rewrite remove_at_length).
    pose proof (vv_wf Hv) as Hw.
    assert (easy : ax_split a (v_ty v) (v_layout v) = Dense \/ (length r <= 1)%nat ->
      exists ws, e_collect e = Ok ws /\ lanes_right v i ws).
    { intros H. destruct (lanes_expr_ok rep Hv HA lanes_fits) as (e' & ws & E' & _ & _ & EC & HL & _ & HI & _).
      { destruct H as [H|H]; auto. right. lia. }
      rewrite HE in E'. injection E' as <-. exists ws. split; auto. split; auto.
      intros idx B. destruct (HI idx B) as (w & H1 & H2 & _ & H3). eauto. }
    destruct (ax_split a (v_ty v) (v_layout v)) eqn:EL; [split; auto|].
    destruct (Nat.le_gt_cases (length r) 1) as [L|L]; [split; auto|].
    destruct (lanes_last Hw HA HE EL ltac:(fold r; lia)) as (Ed & Ei & HC). fold r in Ed.
    assert (HO : outer_rank e = (length r - 1)%nat) by (unfold outer_rank, e_rank; now rewrite Ei, Ed).
    assert (HP1 : prodZ (skipn (length r - 1) r) = last r 1).
    { destruct (@inner_one r (length r - 1)) as (d & E); [lia|]. rewrite E.
      rewrite <- (firstn_skipn (length r - 1) r), E, last_last. unfold prodZ. cbn. lia. }
    assert (FINE : positive (removelast r) \/ last r 1 = 0 -> e_collect e = Ok (map (lane_last v a i) (indices r))).
    { intros H. rewrite <- Ed. eapply computes_collect; [exact HC| |].
      - unfold e_rank. rewrite HO, Ed. lia.
      - unfold outer_fine. rewrite HO, Ed, HP1, <- removelast_firstn'. exact H. }
    assert (ITEM : forall idx, in_bounds r idx ->
      nth_error (map (lane_last v a i) (indices r)) (Z.to_nat (flat r idx)) = Some (lane_last v a i idx)).
    { intros idx B. rewrite nth_error_map. pose proof (flat_bounds B).
      rewrite (nth_error_nth' _ []) by (rewrite indices_length by apply lane_nonneg; lia).
      rewrite indices_nth by (try apply lane_nonneg; lia). rewrite Z2Nat.id by lia. rewrite unflat_flat by auto. reflexivity. }
    assert (DIMS : forall idx, v_dims (lane_last v a i idx) = [nth i (v_dims v) 0]).
    { intros idx. unfold lane_last. destruct (ax_get_ok Hw HA) as (m1 & -> & Hd1 & _). exact Hd1. }
    split.
    - intros (ws & EC & HL & HI). fold r in HL, HI. right. right.
      destruct (Z.eq_dec (last r 1) 0) as [Z0|NZ]; [now left|]. right.
      pose proof (nonneg_last lane_nonneg) as HN.
      destruct (positive_dec (removelast r)) as [HP|HP].
      + split; auto. destruct (Z.eq_dec (nth i (v_dims v) 0) 0) as [|NI]; [now left|]. right.
        destruct (ones_dec (removelast r)) as [|NO]; auto. exfalso.
        destruct (not_ones HP NO) as (j & Hj & H1). rewrite removelast_firstn', firstn_length in Hj.
        assert (H1' : 1 < nth j r 0).
        { rewrite <- (firstn_skipn (length r - 1) r), app_nth1 by (rewrite firstn_length; lia).
          now rewrite removelast_firstn' in H1. }
        clear H1. rename H1' into H1.
        assert (PR : positive r) by (apply positive_split; auto; lia).
        rewrite FINE in EC by auto. injection EC as <-.
        pose proof (in_bounds_zeros PR) as B0. pose proof (@upd_unit_bounds r j PR H1) as B1.
        destruct (HI _ B0) as (w0 & N0 & _ & S0). destruct (HI _ B1) as (w1 & N1 & _ & S1).
        rewrite (ITEM _ B0) in N0. rewrite (ITEM _ B1) in N1. injection N0 as <-. injection N1 as <-.
        assert (EQ : lane_last v a i (upd (repeat 0 (length r)) j 1) = lane_last v a i (repeat 0 (length r))).
        { unfold lane_last. rewrite last_upd by (rewrite repeat_length; lia). reflexivity. }
        rewrite EQ in S1.
        assert (HN0 : nonneg (v_dims v)) by (unfold v_dims; apply (wf_nonneg Hw)).
        assert (BI : in_bounds (v_dims (lane_last v a i (repeat 0 (length r)))) [0]).
        { rewrite DIMS. constructor; [|constructor]. pose proof (@Forall_nth _ (Z.le 0) (v_dims v)) as [QQ _]. specialize (QQ HN0 i 0 Hi). lia. }
        destruct (S0 _ BI) as [I0 A0]. destruct (S1 _ BI) as [I1 A1].
        assert (EI : insert_at i (nth 0 [0] 0) (repeat 0 (length r)) = insert_at i (nth 0 [0] 0) (upd (repeat 0 (length r)) j 1)).
        { apply (vv_inj Hv); auto. congruence. }
        apply (f_equal (remove_at i)) in EI. rewrite !remove_insert in EI by (rewrite ?upd_length, repeat_length; lia).
        apply (f_equal (fun l => nth j l 0)) in EI. rewrite upd_nth_same in EI by (rewrite repeat_length; lia).
        rewrite nth_repeat in EI. discriminate.
      + exfalso. assert (IE : indices r = []).
        { apply empty_indices; [apply lane_nonneg|].
          rewrite <- (firstn_skipn (length r - 1) r), prodZ_app, <- removelast_firstn'.
          rewrite (nonpos_prod (l := removelast r)); auto.
          rewrite removelast_firstn'. apply nonneg_firstn, lane_nonneg. }
        rewrite IE in HL. destruct ws; [|discriminate].
        apply collect_empty in EC; [|rewrite Ed; apply lane_nonneg]. rewrite HO, Ed, HP1 in EC. contradiction.
    - intros H. assert (HF : positive (removelast r) \/ last r 1 = 0).
      { destruct H as [H|[H|[H|[H _]]]]; auto; [discriminate|lia]. }
      exists (map (lane_last v a i) (indices r)). split; [auto|]. split; [now rewrite map_length|]. fold r.
      intros idx B. exists (lane_last v a i idx). split; [auto|]. split; [auto|].
      destruct H as [H|[H|[H|[H1 [H2|H2]]]]]; try discriminate; try lia.
      + exfalso. pose proof (@in_bounds_nth _ _ (length r - 1)%nat B ltac:(lia)) as Q.
        assert (last r 1 = nth (length r - 1) r 0).
        { rewrite <- last_nth. destruct r; [cbn in L; lia|]. apply last_default. discriminate. }
        lia.
      + intros j BJ. rewrite DIMS, H2 in BJ. inversion BJ; lia.
      + pose proof (lane_item_ok Hw HA B) as G. cbv zeta in G. destruct G as (_ & _ & _ & _ & G).
        replace (lane_last v a i idx) with (lane_item v a i idx); [exact G|].
        unfold lane_item, lane_last. destruct (ax_get a (v_map v)); auto. do 2 f_equal.
        destruct (m_is_empty _); auto. eapply dot_ones; [exact B|exact H2|].
        unfold r. rewrite !remove_at_length; try rewrite (wf_strides Hw); auto.
  Qed.

  (** Otherwise two lanes of an array with elements are the same. *)
  Lemma lanes_alias : ax_split a (v_ty v) (v_layout v) = Strided -> positive (v_dims v) ->
    ~ Forall (eq 1) (removelast r) ->
    exists ws k1 k2 w, e_collect e = Ok ws /\ k1 <> k2 /\ nth_error ws k1 = Some w /\ nth_error ws k2 = Some w /\
      in_bounds (v_dims w) [0].
  Proof.
    intros HS HP NO. pose proof (vv_wf Hv) as Hw. assert (Hi : (i < length (v_dims v))%nat) by apply HA.
    assert (PR : positive r).
    { unfold r, remove_at. apply Forall_app. split; [now apply Forall_firstn'|now apply Forall_skipn']. }
    assert (L : (1 < length r)%nat).
    { destruct r as [|x [|y l]]; cbn [length]; try lia; exfalso; apply NO; constructor. }
    destruct (lanes_last Hw HA HE HS ltac:(fold r; lia)) as (Ed & Ei & HC). fold r in Ed.
    assert (HPL : positive (removelast r)) by (rewrite removelast_firstn'; now apply Forall_firstn').
    destruct (not_ones HPL NO) as (j & Hj & H1). rewrite removelast_firstn', firstn_length in Hj.
    assert (H1' : 1 < nth j r 0).
    { rewrite <- (firstn_skipn (length r - 1) r), app_nth1 by (rewrite firstn_length; lia).
      now rewrite removelast_firstn' in H1. }
    pose proof (in_bounds_zeros PR) as B0. pose proof (@upd_unit_bounds r j PR H1') as B1.
    set (z := repeat 0 (length r)) in *.
    assert (ITEM : forall idx, in_bounds r idx ->
      nth_error (map (lane_last v a i) (indices r)) (Z.to_nat (flat r idx)) = Some (lane_last v a i idx)).
    { intros idx B. rewrite nth_error_map. pose proof (flat_bounds B).
      rewrite (nth_error_nth' _ []) by (rewrite indices_length by apply lane_nonneg; lia).
      rewrite indices_nth by (try apply lane_nonneg; lia). rewrite Z2Nat.id by lia. rewrite unflat_flat by auto. reflexivity. }
    exists (map (lane_last v a i) (indices r)), (Z.to_nat (flat r z)), (Z.to_nat (flat r (upd z j 1))), (lane_last v a i z).
    split.
    { rewrite <- Ed. eapply computes_collect; [exact HC| |].
      - unfold e_rank, outer_rank, e_rank. rewrite Ei, Ed. lia.
      - left. rewrite Ed. now apply Forall_firstn'. }
    split.
    { intros E. pose proof (flat_bounds B0). pose proof (flat_bounds B1).
      assert (EF : flat r z = flat r (upd z j 1)) by lia.
      apply (f_equal (unflat r)) in EF. rewrite !unflat_flat in EF by auto.
      apply (f_equal (fun l => nth j l 0)) in EF. unfold z in EF. rewrite upd_nth_same in EF by (rewrite repeat_length; lia).
      rewrite nth_repeat in EF. discriminate. }
    split; [now apply ITEM|]. split.
    - rewrite (ITEM _ B1). unfold lane_last. now rewrite last_upd by (unfold z; rewrite repeat_length; lia).
    - unfold lane_last. destruct (ax_get_ok Hw HA) as (m1 & -> & Hd1 & _). unfold v_dims in *. cbn [v_map].
      rewrite Hd1. constructor; [|constructor]. pose proof (@Forall_nth _ (Z.lt 0) (m_dims (v_map v))) as [QQ _].
      specialize (QQ HP i 0 Hi). lia.
  Qed.
End Exact.
