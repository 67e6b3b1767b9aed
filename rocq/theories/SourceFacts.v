(** Every expression of the library computes its pointwise meaning. *)
From Verif Require Import Base Spec SpecFacts Shape Mapping Index View Wf MappingFacts MapOps ReshapeFacts.
From Verif Require Import IndexFacts ViewFacts Expr ExprSpec ExprFacts IterFacts.
Unset Strict Implicit.

(** Equality of results of type [Z]. *)
Ltac okz := match goal with |- Ok ?a = Ok ?b => apply (f_equal (@Ok Z)); unfold e_st in *; lia end.

(** ** Strided access from an iteration of higher rank *)

(** The strides of [m] seen from rank [r]: broadcast dimensions have stride 0. *)
Definition gs (r : nat) (m : mapping) : list Z := repeat 0 (r - m_rank m) ++ m_strides m.

Lemma gs_length r m : wf_map m -> (m_rank m <= r)%nat -> length (gs r m) = r.
Proof.
  intros Hw H. unfold gs. rewrite app_length, repeat_length, (wf_strides Hw). unfold m_rank in *. lia.
Qed.

Lemma gs_nth r m j :
  wf_map m -> (m_rank m <= r)%nat -> (j < r)%nat ->
  nth j (gs r m) 0 = if (r - j <=? m_rank m)%nat then nth (m_rank m - (r - j)) (m_strides m) 0 else 0.
Proof.
  intros Hw H Hj. unfold gs. destruct (Nat.leb_spec (r - j) (m_rank m)).
  - rewrite app_nth2 by (rewrite repeat_length; lia). rewrite repeat_length. f_equal. lia.
  - rewrite app_nth1 by (rewrite repeat_length; lia). apply nth_repeat.
Qed.

Lemma firstn_repeat_all {A} (x : A) k n : firstn k (repeat x n) = repeat x (Nat.min k n).
Proof. apply firstn_repeat. Qed.

Lemma dot_zero_strides n idx : dot (repeat 0 n) idx = 0.
Proof. revert idx. induction n; intros [|x idx]; simpl; auto. Qed.

Lemma gs_dot r m idx :
  wf_map m -> (m_rank m <= r)%nat -> length idx = r ->
  dot (gs r m) idx = dot (m_strides m) (lastn (m_rank m) idx).
Proof.
  intros Hw H HL. unfold gs.
  rewrite <- (firstn_skipn (r - m_rank m) idx) at 1.
  rewrite dot_app by (rewrite repeat_length, firstn_length; lia).
  rewrite dot_zero_strides. unfold lastn. rewrite HL. lia.
Qed.

Lemma skipn_lastn {A} k n (l : list A) : (k <= n <= length l)%nat -> skipn k (lastn n l) = lastn (n - k) l.
Proof. intros H. unfold lastn. rewrite skipn_skipn'. f_equal. lia. Qed.

Lemma skipn_row_major k dims : skipn k (row_major dims) = row_major (skipn k dims).
Proof. revert k. induction dims; intros [|k]; simpl; auto. Qed.

Lemma unflat_one d i : unflat [d] i = [i].
Proof. simpl. now rewrite Z.div_1_r. Qed.

Section Strided.
  Variables (m : mapping) (D : list Z) (q : nat).
  Hypothesis Hw : wf_map m.
  Hypothesis Hq : (q <= length D)%nat.
  Hypothesis HD : nonneg D.
  Hypothesis Hr : (m_rank m <= length D)%nat.
  Hypothesis Hdims : lastn (m_rank m) D = m_dims m.
  Hypothesis Hin : match map_inner_rank m with None => True | Some k => (length D - q <= k)%nat end.

  Let g := firstn q (gs (length D) m).

  Lemma g_length : length g = q.
  Proof. unfold g. rewrite firstn_length, gs_length by auto. lia. Qed.

  Lemma g_nth j : (j < q)%nat -> nth j g 0 =
    if (length D - j <=? m_rank m)%nat then nth (m_rank m - (length D - j)) (m_strides m) 0 else 0.
  Proof.
    intros Hj. unfold g. rewrite <- gs_nth by (auto; lia).
    rewrite <- (firstn_skipn q (gs (length D) m)) at 2.
    rewrite app_nth1 by (rewrite firstn_length, gs_length; auto; lia). reflexivity.
  Qed.

  (** The part of the offset due to the inner dimensions is linear in the inner index. *)
  Lemma inner_part i :
    0 <= i < prodZ (skipn q D) ->
    dot (skipn q (gs (length D) m)) (unflat (skipn q D) i) = inner_stride m * i.
  Proof.
    intros Hi.
    assert (HnI : nonneg (skipn q D)) by now apply nonneg_skipn.
    unfold gs. rewrite skipn_app, repeat_length.
    assert (CASES : (m_rank m = 0%nat /\ inner_stride m = 0) \/
                    ((length D - q <= m_rank m)%nat /\ m_layout m = Dense /\ inner_stride m = 1) \/
                    ((length D - q <= 1)%nat /\ (0 < m_rank m)%nat /\ m_layout m = Strided) \/
                    (q = length D)).
    { unfold map_inner_rank in Hin. destruct m as [ty dims|ty dims strides]; cbn [m_layout m_ty] in *.
      - destruct (sh_rank ty) as [[|k]|] eqn:E.
        + left. split; [|cbn; now rewrite E].
          destruct ty as [|ds]; [discriminate|]. pose proof (wf_typed Hw) as HT. cbn in HT.
          apply Forall2_len in HT. cbn in E. injection E as E. unfold m_rank. cbn. lia.
        + right; left. split; auto. split; auto. cbn. now rewrite E.
        + right; left. split; auto. split; auto. cbn. now rewrite E.
      - destruct (Nat.ltb_spec 0 (m_rank (StridedM ty dims strides))) as [L|L].
        + right; right; left. auto.
        + left. split; [lia|]. unfold m_rank in L. cbn [m_dims] in L. unfold inner_stride.
          destruct (Nat.ltb_spec 0 (length dims)); [lia|reflexivity]. }
    destruct CASES as [[E0 ES]|[(H1 & EL & ES)|[(H1 & H2 & EL)|E]]].
    - assert (m_strides m = []) as ->.
      { pose proof (wf_strides Hw). unfold m_rank in E0. destruct (m_strides m); auto. cbn in *. lia. }
      rewrite skipn_nil, app_nil_r, ES.
      assert (G : forall k n l, dot (skipn k (repeat 0 n)) l = 0).
      { clear. induction k; intros n l; [apply dot_zero_strides|]. destruct n; cbn [skipn repeat]; auto. }
      rewrite G. lia.
    - destruct m as [ty dims|]; [|discriminate]. cbn [m_strides m_dims] in *. unfold m_rank in *. cbn [m_dims] in *.
      rewrite skipn_all2 by (rewrite repeat_length; lia). cbn [app].
      rewrite skipn_row_major.
      assert (ED : skipn (q - (length D - length dims)) dims = skipn q D).
      { rewrite <- Hdims at 2. unfold lastn. rewrite skipn_skipn'. f_equal. lia. }
      rewrite ED, ES. rewrite dot_row_major by apply unflat_length. rewrite flat_unflat by auto. lia.
    - destruct m as [|ty dims strides]; [discriminate|]. cbn [m_strides m_dims] in *.
      pose proof (wf_strides Hw) as HLs. cbn [m_strides m_dims] in HLs. unfold m_rank in *. cbn [m_dims] in *.
      destruct (Nat.eq_dec q (length D)) as [E|NE].
      + rewrite (skipn_all2 D) by lia. rewrite E in Hi. rewrite skipn_all in Hi. cbn in Hi.
        cbn [unflat]. rewrite dot_nil_r. replace i with 0 by lia. lia.
      + rewrite skipn_all2 by (rewrite repeat_length; lia). cbn [app].
        assert (EI : exists d, skipn q D = [d]).
        { assert (L : length (skipn q D) = 1%nat) by (rewrite skipn_length; lia).
          destruct (skipn q D) as [|d [|]]; cbn in L; try lia. eauto. }
        destruct EI as (d & ->). rewrite unflat_one.
        assert (ES : skipn (q - (length D - length dims)) strides = [nth (length dims - 1) strides 0]).
        { assert (HH : (q - (length D - length dims) = length strides - 1)%nat) by lia.
          rewrite HH, <- HLs. clear - H2 HLs.
          assert (0 < length strides)%nat by lia. clear - H.
          destruct (exists_last (l := strides)) as (l & x & ->); [intros ->; cbn in H; lia|].
          rewrite app_length. cbn [length]. replace (length l + 1 - 1)%nat with (length l) by lia.
          rewrite skipn_app, skipn_all, Nat.sub_diag, app_nth2, Nat.sub_diag by lia. reflexivity. }
        rewrite ES. cbn [inner_stride]. destruct (Nat.ltb_spec 0 (length dims)); [|lia].
        cbn [dot]. lia.
    - rewrite (skipn_all2 D) by lia. rewrite E in Hi. rewrite skipn_all in Hi. cbn in Hi.
      cbn [unflat]. rewrite dot_nil_r. replace i with 0 by lia. lia.
  Qed.

  Lemma full_offset o i :
    length o = q -> 0 <= i < prodZ (skipn q D) ->
    m_offset m (lastn (m_rank m) (o ++ unflat (skipn q D) i)) = dot g o + inner_stride m * i.
  Proof.
    intros Ho Hi.
    assert (HL : length (o ++ unflat (skipn q D) i) = length D).
    { rewrite app_length, unflat_length, skipn_length. lia. }
    rewrite m_offset_dot.
    - rewrite <- (@gs_dot (length D)) by auto.
      rewrite <- (firstn_skipn q (gs (length D) m)) at 1. fold g.
      rewrite dot_app by (rewrite g_length; auto). rewrite inner_part by auto. reflexivity.
    - apply (wf_strides Hw).
    - rewrite lastn_length by lia. reflexivity.
  Qed.

  (** Moving by the stride of one dimension. *)
  Lemma move_outer o j x :
    length o = q -> (j < q)%nat -> dot g (upd o j x) = dot g o + nth j g 0 * (x - nth j o 0).
  Proof. intros Ho Hj. apply dot_upd; rewrite g_length; lia. Qed.
End Strided.

Lemma in_bounds_lastn dims idx n :
  (n <= length dims)%nat -> in_bounds dims idx -> in_bounds (lastn n dims) (lastn n idx).
Proof.
  intros Hn B. pose proof (in_bounds_length B) as HL.
  unfold lastn. rewrite HL. 
  rewrite <- (firstn_skipn (length dims - n) dims), <- (firstn_skipn (length dims - n) idx) in B.
  apply in_bounds_app in B; [tauto|]. rewrite !firstn_length. lia.
Qed.

Lemma compat_index {A} (e : expression A) need D q o i :
  compat e need D q -> in_bounds (firstn q D) o -> 0 <= i < prodZ (skipn q D) ->
  in_bounds (e_dims e) (lastn (e_rank e) (o ++ unflat (skipn q D) i)).
Proof.
  intros C B Hi. rewrite <- (cp_dims C). apply in_bounds_lastn; [apply (cp_rank C)|].
  rewrite <- (firstn_skipn q D) at 1. apply in_bounds_app.
  - now apply in_bounds_length.
  - split; auto. apply unflat_in_bounds; auto. apply nonneg_skipn, (cp_nonneg C).
Qed.

Lemma olim_in_length q D o : (q <= length D)%nat -> in_bounds (olim q D) o -> length o = q.
Proof. intros Hq B. apply in_bounds_length in B. now rewrite olim_length in B by auto. Qed.

(** ** Views *)
Lemma computes_view n rep v :
  valid_view n v -> computes (e_view n rep v) (pure_action (v_addr v)) tt 0.
Proof.
  intros Hv. pose proof (vv_wf Hv) as Hw.
  split; [apply (wf_nonneg Hw)|]. intros D q C.
  set (g := firstn q (gs (length D) (v_map v))).
  assert (Hrank : (m_rank (v_map v) <= length D)%nat) by apply (cp_rank C).
  assert (Hlg : length g = q) by (apply g_length; auto; apply (cp_q C)).
  assert (Hdims : lastn (m_rank (v_map v)) D = m_dims (v_map v)) by apply (cp_dims C).
  exists (fun o i p _ => p = v_ptr v + dot g o).
  exists (fun o k p _ => p = v_ptr v + dot g (zero_tail o k)).
  assert (NOP : forall p : Z, (q < length D)%nat -> reset_at (e_view n rep v) (length D) (length D - 1) 0 p = Ok p).
  { intros p Hlt. unfold reset_at. replace (length D - (length D - 1))%nat with 1%nat by lia.
    destruct (Nat.leb_spec 1 (e_rank (e_view n rep v))) as [L|L]; [|reflexivity].
    cbn [e_view e_reset]. rewrite m_stride_ok; [|apply (wf_strides Hw)|].
    - cbn [bind]. rewrite Z.mul_0_r, Z.add_0_r. reflexivity.
    - change (m_rank (v_map v)) with (e_rank (e_view n rep v)). lia. }
  split; [constructor|].
  - (* get *)
    intros o i p [] -> B Hi. cbn [e_view e_get]. unfold pure_action.
    assert (E : v_addr v (lastn (e_rank (e_view n rep v)) (o ++ unflat (skipn q D) i)) =
                v_ptr v + dot g o + inner_stride (v_map v) * i).
    { unfold v_addr. change (e_rank (e_view n rep v)) with (m_rank (v_map v)).
      rewrite full_offset; auto; try apply C; [unfold g; lia|].
      apply in_bounds_length in B. rewrite firstn_length in B. pose proof (cp_q C). lia. }
    assert (RG : 0 <= v_ptr v + dot g o + inner_stride (v_map v) * i < n).
    { rewrite <- E. apply (vv_range Hv). apply (compat_index C); auto. }
    unfold e_ref. rewrite E. destruct (Z.leb_spec 0 (v_ptr v + dot g o + inner_stride (v_map v) * i)); [|lia].
    destruct (Z.ltb_spec (v_ptr v + dot g o + inner_stride (v_map v) * i) n); [|lia]. cbn. auto.
  - intros o p [] -> B Hlt. exists (v_ptr v + dot g o). split; [now apply NOP|]. now rewrite zero_tail_0.
  - intros o p [] -> B Hlt. exists (v_ptr v + dot g (zero_tail o 0)). split; [now apply NOP|]. reflexivity.
  - intros o p [] -> B Hlt. now rewrite zero_tail_0.
  - (* reset *)
    intros o k p [] -> B Hk. pose proof (olim_in_length (cp_q C) B) as Lo. pose proof (cp_q C) as Hq.
    replace (k + 1)%nat with (S k) by lia.
    rewrite zero_tail_S by lia. rewrite Lo.
    unfold g. rewrite move_outer; auto; try apply C; try lia.
    2:{ rewrite zero_tail_length; lia. }
    rewrite zero_tail_nth by lia. fold g.
    eexists. split; [|reflexivity].
    unfold reset_at. unfold g. rewrite g_nth; auto; try apply C; try lia.
    change (e_rank (e_view n rep v)) with (m_rank (v_map v)).
    destruct (Nat.leb_spec (length D - (q - 1 - k)) (m_rank (v_map v))) as [L|L].
    + cbn [e_view e_reset]. rewrite m_stride_ok; [|apply (wf_strides Hw)|lia]. cbn [bind]. okz.
    + okz.
  - (* step *)
    intros o k p [] -> B Hk Hmax Hlt. pose proof (olim_in_length (cp_q C) B) as Lo. pose proof (cp_q C) as Hq.
    unfold succ_at. rewrite Lo.
    unfold g. rewrite move_outer; auto; try apply C; try lia.
    2:{ rewrite zero_tail_length; lia. }
    rewrite zero_tail_nth by lia. fold g.
    eexists. split; [|reflexivity].
    unfold step_at. unfold g. rewrite g_nth; auto; try apply C; try lia.
    change (e_rank (e_view n rep v)) with (m_rank (v_map v)).
    destruct (Nat.leb_spec (length D - (q - 1 - k)) (m_rank (v_map v))) as [L|L].
    + cbn [e_view e_step]. rewrite m_stride_ok; [|apply (wf_strides Hw)|lia]. cbn [bind]. okz.
    + okz.
  - cbn. rewrite dot_zeros. lia.
Qed.

(** ** Adapters *)
Lemma compat_change {A B} (e : expression A) (e' : expression B) need D q :
  e_dims e' = e_dims e -> e_inner e' = e_inner e -> e_rep e' = e_rep e ->
  compat e' need D q -> compat e need D q.
Proof.
  unfold e_rank. intros Ed Ei Er [H1 H2 H3 H4 H5 H6 H7]. unfold e_rank in *.
  rewrite Ed, Ei, Er in *. constructor; auto.
Qed.

Lemma computes_map {A B S F} (e : expression A) (act : action A S) s0 need (f : A -> F -> outcome (B * F)) f0 :
  computes e act s0 need -> computes (e_map f f0 e) (map_action f act) (s0, f0) need.
Proof.
  intros [Hn H]. split; [exact Hn|]. intros D q C.
  assert (C' : compat e need D q) by (eapply (@compat_change _ _ e (e_map f f0 e)); eauto).
  destruct (H D q C') as (R & Q & L & R0).
  exists (fun o i s t => R o i (fst s) (fst t) /\ snd s = snd t).
  exists (fun o m s t => Q o m (fst s) (fst t) /\ snd s = snd t).
  split; [constructor|split; auto].
  - intros o i s s' [HR Ef] B0 Hi. cbn [e_map e_get]. unfold map_action.
    eapply agree_bind; [apply (@l_get _ _ _ _ _ _ _ _ L _ _ _ _ HR B0 Hi)|].
    intros [a st] [a' st'] [E1 HR']. cbn in E1, HR'. subst a'. rewrite Ef.
    destruct (f a (snd s')) as [[b fs]| | |]; cbn; auto.
  - intros o s s' [HR Ef] B0 Hlt. destruct (@l_inner _ _ _ _ _ _ _ _ L _ _ _ HR B0 Hlt) as (s1 & E1 & Q1).
    exists (s1, snd s). split; [|split; auto].
    unfold reset_at in *. change (e_rank (e_map f f0 e)) with (e_rank e). cbn [e_map e_reset].
    destruct (_ <=? _)%nat; [rewrite E1; reflexivity|]. injection E1 as <-. now destruct s.
  - intros o s s' [HR Ef] B0 Hlt. destruct (@l_again _ _ _ _ _ _ _ _ L _ _ _ HR B0 Hlt) as (s1 & E1 & Q1).
    exists (s1, snd s). split; [|split; auto].
    unfold reset_at in *. change (e_rank (e_map f f0 e)) with (e_rank e). cbn [e_map e_reset].
    destruct (_ <=? _)%nat; [rewrite E1; reflexivity|]. injection E1 as <-. now destruct s.
  - intros o s s' [HR Ef] B0 Hlt. split; auto. now apply (@l_inner0 _ _ _ _ _ _ _ _ L).
  - intros o m s s' [HR Ef] B0 Hm. destruct (@l_reset _ _ _ _ _ _ _ _ L _ _ _ _ HR B0 Hm) as (s1 & E1 & Q1).
    exists (s1, snd s). split; [|split; auto].
    unfold reset_at in *. change (e_rank (e_map f f0 e)) with (e_rank e). cbn [e_map e_reset].
    destruct (_ <=? _)%nat; [rewrite E1; reflexivity|]. injection E1 as <-. now destruct s.
  - intros o m s s' [HR Ef] B0 Hm Hmax Hlt.
    destruct (@l_step _ _ _ _ _ _ _ _ L _ _ _ _ HR B0 Hm Hmax Hlt) as (s1 & E1 & Q1).
    exists (s1, snd s). split; [|split; auto].
    unfold step_at in *. change (e_rank (e_map f f0 e)) with (e_rank e). cbn [e_map e_step].
    destruct (_ <=? _)%nat; [rewrite E1; reflexivity|]. injection E1 as <-. now destruct s.
Qed.

Lemma computes_cloned {A B S F} (e : expression A) (act : action A S) s0 need (f : A -> F -> outcome (B * F)) f0 :
  computes e act s0 need -> computes (e_cloned f f0 e) (map_action f act) (s0, f0) need.
Proof. apply computes_map. Qed.

Lemma computes_copied {A B S} (e : expression A) (act : action A S) s0 need (f : A -> outcome B) :
  computes e act s0 need -> computes (e_copied f e) (fun_action f act) s0 need.
Proof.
  intros [Hn H]. split; [exact Hn|]. intros D q C.
  assert (C' : compat e need D q) by (eapply (@compat_change _ _ e (e_copied f e)); eauto).
  destruct (H D q C') as (R & Q & L & R0).
  exists R, Q. split; [|exact R0]. destruct L as [L1 L2 L3 L4 L5 L6]. constructor; auto.
  intros o i s s' HR B0 Hi. cbn [e_copied e_get]. unfold fun_action.
  eapply agree_bind; [apply (L1 _ _ _ _ HR B0 Hi)|].
  intros [a st] [a' st'] [E1 HR']. cbn in E1, HR'. subst a'.
  destruct (f a) as [b| | |]; cbn; auto.
Qed.

Lemma computes_enumerate {A S} (e : expression A) (act : action A S) s0 need :
  computes e act s0 need -> computes (e_enumerate e) (enum_action act) (s0, 0) need.
Proof.
  intros [Hn H]. split; [exact Hn|]. intros D q C.
  assert (C' : compat e need D q) by (eapply (@compat_change _ _ e (e_enumerate e)); eauto).
  destruct (H D q C') as (R & Q & L & R0).
  exists (fun o i s t => R o i (fst s) (fst t) /\ snd s = snd t).
  exists (fun o m s t => Q o m (fst s) (fst t) /\ snd s = snd t).
  split; [constructor|split; auto].
  - intros o i s s' [HR Ef] B0 Hi. cbn [e_enumerate e_get]. unfold enum_action.
    eapply agree_bind; [apply (@l_get _ _ _ _ _ _ _ _ L _ _ _ _ HR B0 Hi)|].
    intros [a st] [a' st'] [E1 HR']. cbn in E1, HR'. subst a'. cbn.
    repeat split; auto; [|lia]. f_equal. lia.
  - intros o s s' [HR Ef] B0 Hlt. destruct (@l_inner _ _ _ _ _ _ _ _ L _ _ _ HR B0 Hlt) as (s1 & E1 & Q1).
    exists (s1, snd s). split; [|split; auto].
    unfold reset_at in *. change (e_rank (e_enumerate e)) with (e_rank e). cbn [e_enumerate e_reset].
    destruct (_ <=? _)%nat; [rewrite E1; reflexivity|]. injection E1 as <-. now destruct s.
  - intros o s s' [HR Ef] B0 Hlt. destruct (@l_again _ _ _ _ _ _ _ _ L _ _ _ HR B0 Hlt) as (s1 & E1 & Q1).
    exists (s1, snd s). split; [|split; auto].
    unfold reset_at in *. change (e_rank (e_enumerate e)) with (e_rank e). cbn [e_enumerate e_reset].
    destruct (_ <=? _)%nat; [rewrite E1; reflexivity|]. injection E1 as <-. now destruct s.
  - intros o s s' [HR Ef] B0 Hlt. split; auto. now apply (@l_inner0 _ _ _ _ _ _ _ _ L).
  - intros o m s s' [HR Ef] B0 Hm. destruct (@l_reset _ _ _ _ _ _ _ _ L _ _ _ _ HR B0 Hm) as (s1 & E1 & Q1).
    exists (s1, snd s). split; [|split; auto].
    unfold reset_at in *. change (e_rank (e_enumerate e)) with (e_rank e). cbn [e_enumerate e_reset].
    destruct (_ <=? _)%nat; [rewrite E1; reflexivity|]. injection E1 as <-. now destruct s.
  - intros o m s s' [HR Ef] B0 Hm Hmax Hlt.
    destruct (@l_step _ _ _ _ _ _ _ _ L _ _ _ _ HR B0 Hm Hmax Hlt) as (s1 & E1 & Q1).
    exists (s1, snd s). split; [|split; auto].
    unfold step_at in *. change (e_rank (e_enumerate e)) with (e_rank e). cbn [e_enumerate e_step].
    destruct (_ <=? _)%nat; [rewrite E1; reflexivity|]. injection E1 as <-. now destruct s.
Qed.

(** ** Zip *)
Lemma slice_eqb_eq a b : slice_eqb a b = true <-> a = b.
Proof.
  revert b. induction a as [|x a IH]; intros [|y b]; cbn; split; intros H; try discriminate; auto.
  - apply andb_true_iff in H as [H1 H2]. apply IH in H2. f_equal; [lia|auto].
  - injection H as -> ->. apply andb_true_iff. split; [lia|now apply IH].
Qed.

Lemma longer_length {A} (a b : list A) : length (longer a b) = Nat.max (length a) (length b).
Proof. unfold longer. destruct (Nat.ltb_spec (length a) (length b)); lia. Qed.

Lemma trailing_l {A} (a b : list A) : trailing_eq a b -> lastn (length a) (longer a b) = a.
Proof.
  unfold trailing_eq, longer. intros H. destruct (Nat.ltb_spec (length a) (length b)).
  - rewrite Nat.min_l in H by lia. rewrite <- H. now apply lastn_all.
  - now apply lastn_all.
Qed.

Lemma trailing_r {A} (a b : list A) : trailing_eq a b -> lastn (length b) (longer a b) = b.
Proof.
  unfold trailing_eq, longer. intros H. destruct (Nat.ltb_spec (length a) (length b)).
  - now apply lastn_all.
  - rewrite Nat.min_r in H by lia. rewrite H. now apply lastn_all.
Qed.

Lemma zip_dims_spec ty (a b : list Z) :
  zip_dims ty a b =
    if slice_eqb (skipn (length (longer a b) - length b) a) (skipn (length (longer a b) - length a) b)
    then (if accepts ty (longer a b) then Ok (longer a b) else Panic) else Panic.
Proof.
  unfold zip_dims. fold (longer a b). destruct (slice_eqb _ _); cbn [assert bind]; [|reflexivity].
  apply sh_from_dims_spec.
Qed.

Lemma zip_match (a b : list Z) :
  skipn (length (longer a b) - length b) a = skipn (length (longer a b) - length a) b <-> trailing_eq a b.
Proof.
  unfold trailing_eq, lastn. rewrite longer_length.
  replace (Nat.max (length a) (length b) - length b)%nat
    with (length a - Nat.min (length a) (length b))%nat by lia.
  replace (Nat.max (length a) (length b) - length a)%nat
    with (length b - Nat.min (length a) (length b))%nat by lia. tauto.
Qed.

(** The type of the zip admits its dimensions. *)
Lemma typed_prepend d s n dims : dim_ok d n -> typed s dims -> typed (sh_prepend d s) (n :: dims).
Proof.
  intros H1 H2. destruct s as [|ds]; cbn [sh_prepend]; [exact I|].
  destruct (length ds <? max_rank)%nat; cbn; auto.
Qed.

Lemma typed_head s n dims : typed s (n :: dims) -> dim_ok (sh_head s) n.
Proof. destruct s as [|ds]; cbn; auto. intros H. inversion H; subst. auto. Qed.

Lemma typed_tl s n dims : typed s (n :: dims) -> typed (sh_tail s) dims.
Proof. destruct s as [|ds]; cbn; auto. intros H. inversion H; subst. auto. Qed.

(** Common leading entries agree. *)
Fixpoint heads_eq (a b : list Z) : Prop :=
  match a, b with
  | x :: a', y :: b' => x = y /\ heads_eq a' b'
  | _, _ => True
  end.

Lemma merge_typed A B a b :
  typed A a -> typed B b -> heads_eq a b ->
  typed (sh_merge A B) (if (length a <? length b)%nat then b else a).
Proof.
  intros HA HB HE. destruct A as [|ds]; [exact I|]. cbn [sh_merge].
  revert B a b HA HB HE. induction ds as [|x ds IH]; intros B a b HA HB HE; cbn in HA.
  - inversion HA; subst. cbn [length merge_tuple]. destruct b; exact HB.
  - inversion HA as [|? n ? a' Hn HA']; subst a. 
    assert (G : merge_tuple (x :: ds) B = sh_prepend (dim_merge x (sh_head B)) (merge_tuple ds (sh_tail B))).
    { destruct ds; reflexivity. }
    rewrite G. destruct b as [|k b].
    + change (length (n :: a') <? length (@nil Z))%nat with false. cbn iota.
      assert (HBT : typed (sh_tail B) []).
      { destruct B as [|bs]; cbn in *; auto. inversion HB; subst. constructor. }
      apply typed_prepend.
      * destruct x; cbn; auto. destruct B as [|bs]; cbn in *; auto. inversion HB; subst. exact I.
      * specialize (IH (sh_tail B) a' [] HA' HBT). destruct (length a' <? length (@nil Z))%nat eqn:E in IH.
        { apply Nat.ltb_lt in E. cbn in E. lia. }
        apply IH. destruct a'; exact I.
    + destruct HE as [<- HE].
      assert (E : (if (length (n :: a') <? length (n :: b))%nat then n :: b else n :: a') =
                  n :: (if (length a' <? length b)%nat then b else a')).
      { change (length (n :: a') <? length (n :: b))%nat with (length a' <? length b)%nat.
        destruct (_ <? _)%nat; reflexivity. }
      rewrite E. apply typed_prepend.
      * destruct x; cbn; auto. now apply (typed_head HB).
      * apply IH; auto. now apply (typed_tl HB).
Qed.

Lemma heads_eq_app_l a b c : heads_eq a (a ++ b) /\ heads_eq (a ++ c) a.
Proof. split; (induction a as [|x a IH]; [try exact I; now destruct c|]); cbn; auto. Qed.

Lemma heads_eq_rev (a b : list Z) : trailing_eq a b -> heads_eq (rev a) (rev b).
Proof.
  intros H. unfold trailing_eq, lastn in H.
  destruct (Nat.le_ge_cases (length a) (length b)).
  - rewrite Nat.min_l in H by lia. rewrite Nat.sub_diag in H. cbn [skipn] in H.
    rewrite <- (firstn_skipn (length b - length a) b). rewrite <- H, rev_app_distr. apply heads_eq_app_l. exact [].
  - rewrite Nat.min_r in H by lia. rewrite Nat.sub_diag in H. cbn [skipn] in H.
    rewrite <- (firstn_skipn (length a - length b) a). rewrite H, rev_app_distr. apply heads_eq_app_l. exact [].
Qed.

Lemma zip_typed A B (a b : list Z) : typed A a -> typed B b -> trailing_eq a b -> typed (zip_ty A B) (longer a b).
Proof.
  intros HA HB HE. unfold zip_ty.
  rewrite <- (rev_involutive (longer a b)). apply typed_rev.
  apply typed_rev in HA, HB. pose proof (merge_typed HA HB (heads_eq_rev HE)) as H.
  unfold longer. rewrite !rev_length in H. destruct (_ <? _)%nat; exact H.
Qed.

(** The merged type knows every size that one of the two types knows. *)
Lemma merge_knows ds es :
  (length ds <= max_rank)%nat -> (length es <= max_rank)%nat ->
  exists rs, merge_tuple ds (STuple es) = STuple rs /\ length rs = Nat.max (length ds) (length es) /\
    forall k n, nth_error ds k = Some (DConst n) \/ nth_error es k = Some (DConst n) ->
      exists m, nth_error rs k = Some (DConst m).
Proof.
  revert es. induction ds as [|x ds IH]; intros es H1 H2.
  - exists es. split; [reflexivity|]. split; [reflexivity|]. intros k n [H|H]; [|eauto].
    destruct k; discriminate H.
  - assert (G : forall B, merge_tuple (x :: ds) B = sh_prepend (dim_merge x (sh_head B)) (merge_tuple ds (sh_tail B)))
      by (destruct ds; reflexivity).
    rewrite G. cbn [sh_tail]. cbn [length] in H1.
    destruct (IH (tl es)) as (rs & E & L & K); [lia|destruct es; cbn [tl length] in *; lia|].
    rewrite E. cbn [sh_prepend].
    assert (L' : (length rs < max_rank)%nat) by (rewrite L; destruct es; cbn [tl length] in *; lia).
    destruct (Nat.ltb_spec (length rs) max_rank); [|lia].
    eexists. split; [reflexivity|]. split; [cbn [length]; rewrite L; destruct es; cbn [tl length]; lia|].
    intros [|k] n H0; cbn [nth_error] in *.
    + destruct H0 as [H0|H0].
      * injection H0 as ->. eexists. reflexivity.
      * destruct x; [eexists; reflexivity|]. destruct es; [discriminate|]. cbn in H0. injection H0 as ->.
        eexists. reflexivity.
    + apply (K k n). destruct H0 as [H0|H0]; [now left|]. right. destruct es; [discriminate|exact H0].
Qed.

Lemma zip_knows ds es :
  ty_wf (STuple ds) -> ty_wf (STuple es) ->
  exists rs, zip_ty (STuple ds) (STuple es) = STuple rs /\ length rs = Nat.max (length ds) (length es) /\
    forall k n, nth_error (rev ds) k = Some (DConst n) \/ nth_error (rev es) k = Some (DConst n) ->
      exists m, nth_error (rev rs) k = Some (DConst m).
Proof.
  intros H1 H2. unfold zip_ty. cbn [sh_reverse sh_merge].
  destruct (@merge_knows (rev ds) (rev es)) as (rs & E & L & K); [rewrite rev_length; assumption..|].
  rewrite E. exists (rev rs). split; [reflexivity|]. rewrite !rev_length in *. split; [exact L|].
  rewrite rev_involutive. exact K.
Qed.

(** [zip] succeeds exactly when the shorter shape is the tail of the longer one and nothing that
    cannot be repeated has to be repeated. *)
Definition zippable {A B} (a : expression A) (b : expression B) : Prop :=
  trailing_eq (e_dims a) (e_dims b) /\
  (e_rep a = true \/ (e_rank b <= e_rank a)%nat) /\ (e_rep b = true \/ (e_rank a <= e_rank b)%nat).

Lemma zip_cases {A B} (a : expression A) (b : expression B) :
  typed (e_ty a) (e_dims a) -> typed (e_ty b) (e_dims b) ->
  (zippable a b /\ e_zip a b = Ok (zip_expr a b (longer (e_dims a) (e_dims b)))) \/
  (~ zippable a b /\ e_zip a b = Panic).
Proof.
  intros Ta Tb. unfold e_zip, zippable.
  destruct (e_rep a || (e_rank b <=? e_rank a)%nat) eqn:E1; cbn [assert bind].
  2:{ right. split; auto. apply orb_false_iff in E1 as [E1 E2]. apply Nat.leb_gt in E2.
      intros (_ & [H|H] & _); [congruence|lia]. }
  destruct (e_rep b || (e_rank a <=? e_rank b)%nat) eqn:E2; cbn [assert bind].
  2:{ right. split; auto. apply orb_false_iff in E2 as [E2 E3]. apply Nat.leb_gt in E3.
      intros (_ & _ & [H|H]); [congruence|lia]. }
  rewrite zip_dims_spec. destruct (slice_eqb _ _) eqn:E3.
  - apply slice_eqb_eq in E3. apply zip_match in E3. pose proof (zip_typed Ta Tb E3) as HT.
    apply accepts_typed in HT. rewrite HT. cbn [bind]. left. repeat split; auto.
    + apply orb_true_iff in E1 as [H|H]; auto. apply Nat.leb_le in H. auto.
    + apply orb_true_iff in E2 as [H|H]; auto. apply Nat.leb_le in H. auto.
  - right. split; auto. intros (H & _). apply zip_match in H. apply slice_eqb_eq in H. congruence.
Qed.

Section ZipLaws.
  Context {A B : Type} (a : expression A) (b : expression B).
  Hypothesis Hz : zippable a b.
  Let z := zip_expr a b (longer (e_dims a) (e_dims b)).

  Lemma z_rank : e_rank z = Nat.max (e_rank a) (e_rank b).
  Proof. unfold z, e_rank, zip_expr. cbn [e_dims]. apply longer_length. Qed.

  Lemma z_reset r j c (s : e_st a * e_st b) :
    reset_at z r j c s = let* sa := reset_at a r j c (fst s) in
                         let* sb := reset_at b r j c (snd s) in Ok (sa, sb).
  Proof.
    unfold reset_at. rewrite z_rank. destruct (Nat.leb_spec (r - j) (Nat.max (e_rank a) (e_rank b))) as [L|L].
    - unfold z, zip_expr. cbn [e_reset]. rewrite longer_length.
      unfold e_rank in *.
      set (M := Nat.max (length (e_dims a)) (length (e_dims b))) in *.
      replace (M - (M - (r - j)))%nat with (r - j)%nat by lia. reflexivity.
    - destruct (Nat.leb_spec (r - j) (e_rank a)); [lia|]. destruct (Nat.leb_spec (r - j) (e_rank b)); [lia|].
      cbn [bind]. now destruct s.
  Qed.

  Lemma z_step r j (s : e_st a * e_st b) :
    step_at z r j s = let* sa := step_at a r j (fst s) in
                      let* sb := step_at b r j (snd s) in Ok (sa, sb).
  Proof.
    unfold step_at. rewrite z_rank. destruct (Nat.leb_spec (r - j) (Nat.max (e_rank a) (e_rank b))) as [L|L].
    - unfold z, zip_expr. cbn [e_step]. rewrite longer_length.
      unfold e_rank in *.
      set (M := Nat.max (length (e_dims a)) (length (e_dims b))) in *.
      replace (M - (M - (r - j)))%nat with (r - j)%nat by lia. reflexivity.
    - destruct (Nat.leb_spec (r - j) (e_rank a)); [lia|]. destruct (Nat.leb_spec (r - j) (e_rank b)); [lia|].
      cbn [bind]. now destruct s.
  Qed.

  Lemma z_compat na nb D q :
    compat z (Nat.max na nb) D q -> compat a na D q /\ compat b nb D q.
  Proof.
    intros [H1 H2 H3 H4 H5 H6 H7]. rewrite z_rank in *.
    destruct Hz as (HE & Ra & Rb).
    assert (Ea : lastn (e_rank a) D = e_dims a).
    { rewrite <- (@lastn_lastn _ (e_rank a) (Nat.max (e_rank a) (e_rank b))) by lia.
      rewrite H4. apply (trailing_l HE). }
    assert (Eb : lastn (e_rank b) D = e_dims b).
    { rewrite <- (@lastn_lastn _ (e_rank b) (Nat.max (e_rank a) (e_rank b))) by lia.
      rewrite H4. apply (trailing_r HE). }
    unfold z, zip_expr in H5, H7. cbn [e_inner e_rep] in H5, H7.
    split; constructor; auto; try lia.
    - destruct (e_inner a) as [k|]; auto. destruct (e_inner b) as [k'|]; cbn in H5; lia.
    - destruct (e_inner b) as [k|]; auto. destruct (e_inner a) as [k'|]; cbn in H5; lia.
  Qed.

  Lemma computes_zip {S S'} (act : action A S) (act' : action B S') s0 s0' na nb :
    computes a act s0 na -> computes b act' s0' nb ->
    computes z (zip_action (e_rank a) (e_rank b) act act') (s0, s0') (Nat.max na nb).
  Proof.
    intros [Na Ha] [Nb Hb]. split.
    { unfold z, zip_expr, longer. cbn [e_dims]. destruct (_ <? _)%nat; auto. }
    intros D q C. destruct (z_compat C) as [Ca Cb].
    destruct (Ha D q Ca) as (R1 & Q1 & L1 & R10). destruct (Hb D q Cb) as (R2 & Q2 & L2 & R20).
    exists (fun o i s t => R1 o i (fst s) (fst t) /\ R2 o i (snd s) (snd t)).
    exists (fun o m s t => Q1 o m (fst s) (fst t) /\ Q2 o m (snd s) (snd t)).
    split; [constructor|split; auto].
    - intros o i s s' [HR1 HR2] B0 Hi. unfold z, zip_expr. cbn [e_get]. unfold zip_action.
      fold (zip_expr a b (longer (e_dims a) (e_dims b))). fold z. rewrite z_rank.
      rewrite !lastn_lastn by lia.
      eapply agree_bind; [apply (@l_get _ _ _ _ _ _ _ _ L1 _ _ _ _ HR1 B0 Hi)|].
      intros [x st] [x' st'] [E1 HR1']. cbn in E1, HR1'. subst x'.
      eapply agree_bind; [apply (@l_get _ _ _ _ _ _ _ _ L2 _ _ _ _ HR2 B0 Hi)|].
      intros [y st2] [y' st2'] [E2 HR2']. cbn in E2, HR2'. subst y'. cbn. auto.
    - intros o s s' [HR1 HR2] B0 Hlt.
      destruct (@l_inner _ _ _ _ _ _ _ _ L1 _ _ _ HR1 B0 Hlt) as (s1 & E1 & G1).
      destruct (@l_inner _ _ _ _ _ _ _ _ L2 _ _ _ HR2 B0 Hlt) as (s2 & E2 & G2).
      exists (s1, s2). rewrite z_reset, E1, E2. cbn. auto.
    - intros o s s' [HR1 HR2] B0 Hlt.
      destruct (@l_again _ _ _ _ _ _ _ _ L1 _ _ _ HR1 B0 Hlt) as (s1 & E1 & G1).
      destruct (@l_again _ _ _ _ _ _ _ _ L2 _ _ _ HR2 B0 Hlt) as (s2 & E2 & G2).
      exists (s1, s2). rewrite z_reset, E1, E2. cbn. auto.
    - intros o s s' [HR1 HR2] B0 Hlt. split.
      + now apply (@l_inner0 _ _ _ _ _ _ _ _ L1).
      + now apply (@l_inner0 _ _ _ _ _ _ _ _ L2).
    - intros o m s s' [HR1 HR2] B0 Hm.
      destruct (@l_reset _ _ _ _ _ _ _ _ L1 _ _ _ _ HR1 B0 Hm) as (s1 & E1 & G1).
      destruct (@l_reset _ _ _ _ _ _ _ _ L2 _ _ _ _ HR2 B0 Hm) as (s2 & E2 & G2).
      exists (s1, s2). rewrite z_reset, E1, E2. cbn. auto.
    - intros o m s s' [HR1 HR2] B0 Hm Hmax Hlt.
      destruct (@l_step _ _ _ _ _ _ _ _ L1 _ _ _ _ HR1 B0 Hm Hmax Hlt) as (s1 & E1 & G1).
      destruct (@l_step _ _ _ _ _ _ _ _ L2 _ _ _ _ HR2 B0 Hm Hmax Hlt) as (s2 & E2 & G2).
      exists (s1, s2). rewrite z_step, E1, E2. cbn. auto.
  Qed.
End ZipLaws.

(** ** Fill, fill_with, from_elem *)
Lemma computes_const {A F} ty dims rep (f : F -> outcome (A * F)) f0 :
  nonneg dims ->
  computes (mkExpr F f0 ty dims None rep (fun _ s => f s) (fun _ _ s => Ok s) (fun _ s => Ok s))
    (call_action f) f0 0.
Proof.
  intros Hn. split; [exact Hn|]. intros D q C.
  exists (fun _ _ s t => s = t), (fun _ _ s t => s = t).
  split; [constructor|reflexivity].
  - intros o i s s' -> B Hi. cbn [e_get]. unfold call_action.
    destruct (f s') as [[a fs]| | |]; cbn; auto.
  - intros o s s' -> B Hlt. exists s'. split; auto. unfold reset_at. destruct (_ <=? _)%nat; reflexivity.
  - intros o s s' -> B Hlt. exists s'. split; auto. unfold reset_at. destruct (_ <=? _)%nat; reflexivity.
  - auto.
  - intros o m s s' -> B Hm. exists s'. split; auto. unfold reset_at. destruct (_ <=? _)%nat; reflexivity.
  - intros o m s s' -> B Hm Hmax Hlt. exists s'. split; auto. unfold step_at. destruct (_ <=? _)%nat; reflexivity.
Qed.

Lemma computes_fill_with {A F} (f : F -> outcome (A * F)) f0 :
  computes (e_fill_with f f0) (call_action f) f0 0.
Proof. apply computes_const. constructor. Qed.

Lemma computes_fill {A F} (f : F -> outcome (A * F)) f0 :
  computes (e_fill f f0) (call_action f) f0 0.
Proof. apply computes_const. constructor. Qed.

Lemma from_elem_ok {A F} ty dims (f : F -> outcome (A * F)) f0 :
  nonneg dims -> fits dims ->
  exists e, e_from_elem ty dims f f0 = Ok e /\ e_ty e = ty /\ e_dims e = dims /\ e_inner e = None /\
    e_rep e = true /\ computes e (call_action f) f0 0.
Proof.
  intros Hn Hf. unfold e_from_elem. rewrite (checked_len_fits Hf).
  eexists. split; [reflexivity|]. repeat (split; [reflexivity|]). now apply computes_const.
Qed.

Lemma from_elem_panic {A F} ty dims (f : F -> outcome (A * F)) f0 :
  ~ fits dims -> e_from_elem ty dims f f0 = Panic.
Proof.
  intros H. unfold e_from_elem. destruct (checked_len_cases dims) as [H'| ->]; [contradiction|reflexivity].
Qed.

(** ** Owned arrays *)
Lemma olim_inb q D o : in_bounds (firstn q D) o -> olim q D = firstn q D.
Proof.
  unfold olim. intros B. induction B; cbn; auto. f_equal; auto. lia.
Qed.

Lemma olim_nonneg q D : nonneg (olim q D).
Proof. unfold olim, nonneg. rewrite Forall_map. apply Forall_forall. intros x _. lia. Qed.

Lemma computes_into {A} ty dims (l : list A) :
  nonneg dims -> computes (e_into ty dims l) (list_action dims l) tt 0.
Proof.
  intros Hn. split; [exact Hn|]. intros D q C.
  assert (ED : D = dims).
  { destruct (cp_rep C) as [H|H]; [discriminate H|].
    pose proof (cp_dims C) as H1. rewrite lastn_all in H1 by lia. exact H1. }
  subst D. set (P := prodZ (skipn q dims)).
  assert (HP : 0 <= P) by (apply prodZ_nonneg, nonneg_skipn, Hn).
  exists (fun o i s (_ : unit) => s = flat (olim q dims) o * P + i).
  exists (fun o (m : nat) s (_ : unit) => s = (flat (olim q dims) o + 1) * P).
  assert (NOP : forall j c (p : Z), reset_at (e_into ty dims l) (length dims) j c p = Ok p).
  { intros. unfold reset_at. destruct (_ <=? _)%nat; reflexivity. }
  split; [constructor|].
  - intros o i s [] -> B Hi. cbn [e_into e_get]. unfold list_action.
    assert (E : flat dims (lastn (e_rank (e_into ty dims l)) (o ++ unflat (skipn q dims) i)) =
                flat (olim q dims) o * P + i).
    { rewrite (olim_inb B). pose proof (cp_q C) as Hq. pose proof (in_bounds_length B) as HL.
      rewrite firstn_length in HL.
      rewrite lastn_all.
      2:{ rewrite app_length, unflat_length, skipn_length. unfold e_rank. cbn. lia. }
      rewrite <- (firstn_skipn q dims) at 1. rewrite flat_app by (rewrite firstn_length; lia).
      rewrite flat_unflat by (auto using nonneg_skipn). reflexivity. }
    rewrite E. destruct (nth_error l _); cbn; auto. split; auto. lia.
  - intros o s [] -> B Hlt. rewrite NOP. eexists. split; [reflexivity|]. unfold P. lia.
  - intros o s [] -> B Hlt. rewrite NOP. eexists. split; [reflexivity|]. reflexivity.
  - intros o s [] -> B Hlt. unfold P. lia.
  - intros o m s [] -> B Hm. rewrite NOP. eexists. split; [reflexivity|]. reflexivity.
  - intros o m s [] -> B Hm Hmax Hlt. eexists. split.
    { unfold step_at. destruct (_ <=? _)%nat; reflexivity. }
    pose proof (olim_in_length (cp_q C) B) as Lo.
    destruct (@flat_succ (olim q dims) o m) as [_ E]; auto; try lia.
    + intros j Hj. apply Hmax. lia.
    + now rewrite Lo.
  - cbn. assert (E : length (olim q dims) = q) by (apply olim_length, (cp_q C)).
    rewrite <- E at 2. rewrite flat_zeros. lia.
Qed.

(** ** from_fn *)
Lemma skipn_upd {A} a (l : list A) j x : skipn a (upd l (a + j) x) = upd (skipn a l) j x.
Proof. revert l. induction a; intros [|y l]; cbn; auto. Qed.

Lemma skipn_upd_out {A} a (l : list A) p x : (p < a)%nat -> skipn a (upd l p x) = skipn a l.
Proof. revert a l. induction p; intros [|a] [|y l] H; cbn; auto; try lia. apply IHp. lia. Qed.

Lemma nth_skipn' {A} (l : list A) a j d : nth j (skipn a l) d = nth (a + j) l d.
Proof. revert l. induction a; intros [|y l]; cbn; auto. now destruct j. Qed.

Lemma skipn_repeat {A} (x : A) a n : skipn a (repeat x n) = repeat x (n - a).
Proof. revert a. induction n; intros [|a]; cbn; auto. Qed.

Lemma upd_lastn {A} k (l : list A) j x :
  (k <= length l)%nat -> upd (lastn k l) j x = lastn k (upd l (length l - k + j) x).
Proof. intros Hk. unfold lastn. rewrite upd_length. now rewrite skipn_upd. Qed.

Lemma lastn_upd_out {A} k (l : list A) p x :
  (p < length l - k)%nat -> lastn k (upd l p x) = lastn k l.
Proof. intros Hk. unfold lastn. rewrite upd_length. now apply skipn_upd_out. Qed.

Lemma lastn_nth k (l : list Z) j : (k <= length l)%nat -> nth j (lastn k l) 0 = nth (length l - k + j) l 0.
Proof. intros H. unfold lastn. now rewrite nth_skipn'. Qed.

Lemma lastn_snoc {A} r (l : list A) x : (1 <= r)%nat -> lastn r (l ++ [x]) = lastn (r - 1) l ++ [x].
Proof.
  intros H. unfold lastn. rewrite app_length. cbn [length]. rewrite skipn_app.
  replace (length l + 1 - r)%nat with (length l - (r - 1))%nat by lia.
  replace (length l - (r - 1) - length l)%nat with 0%nat by lia. reflexivity.
Qed.

Lemma upd_checked_ok l i g : (i < length l)%nat -> upd_checked l i g = Ok (upd l i (g (nth i l 0))).
Proof.
  intros H. unfold upd_checked, get_nth. destruct (nth_error l i) eqn:E.
  - cbn. apply (nth_error_nth l i 0) in E. now rewrite E.
  - apply nth_error_None in E. lia.
Qed.

Lemma inner_one (D : list Z) q : (q + 1 = length D)%nat -> exists d, skipn q D = [d].
Proof.
  intros H. assert (L : length (skipn q D) = 1%nat) by (rewrite skipn_length; lia).
  destruct (skipn q D) as [|d [|]]; cbn in L; try lia. eauto.
Qed.

Section FromFn.
  Context {A F : Type} (ty : shty) (dims : list Z) (f : list Z -> F -> outcome (A * F)) (f0 : F).
  Hypothesis Hty : dims_default ty = repeat 0 (length dims).
  Hypothesis Hn : nonneg dims.

  Let rank := length dims.
  Let e : expression A :=
    mkExpr (list Z * F) (dims_default ty, f0) ty dims
      (if (0 <? rank)%nat then Some 1%nat else None) true
      (fun _ s =>
         let* (a, fs) := f (fst s) (snd s) in
         let* index := if (0 <? rank)%nat
                       then upd_checked (fst s) (rank - 1) (fun x => x + 1) else Ok (fst s) in
         Ok (a, (index, fs)))
      (fun d _ s => let* index := upd_checked (fst s) d (fun _ => 0) in Ok (index, snd s))
      (fun d s =>
         if (d + 1 <? rank)%nat
         then let* index := upd_checked (fst s) d (fun x => x + 1) in Ok (index, snd s)
         else Ok s).

  (** The last dimension is the inner one: [k] coordinates of the outer index and the inner one. *)
  Lemma ff_reset (o : list Z) k c (x : Z) fs m :
    (k <= length o)%nat -> (m < length o)%nat -> rank = (k + 1)%nat ->
    reset_at e (length o + 1) (length o - 1 - m) c (lastn k o ++ [x], fs) =
      Ok (lastn k (upd o (length o - 1 - m) 0) ++ [x], fs).
  Proof.
    intros Hk Hm Hr. unfold reset_at. change (e_rank e) with rank.
    destruct (Nat.leb_spec (length o + 1 - (length o - 1 - m)) rank) as [L|L].
    - unfold e. cbn [e_reset fst snd]. rewrite upd_checked_ok.
      2:{ rewrite app_length, lastn_length by lia. lia. }
      cbn [bind]. rewrite upd_app_l by (rewrite lastn_length; lia).
      rewrite upd_lastn by lia. do 5 f_equal. lia.
    - rewrite lastn_upd_out by lia. reflexivity.
  Qed.

  Lemma ff_step (o : list Z) k (x : Z) fs m :
    (k <= length o)%nat -> (m < length o)%nat -> rank = (k + 1)%nat ->
    step_at e (length o + 1) (length o - 1 - m) (lastn k o ++ [x], fs) =
      Ok (lastn k (upd o (length o - 1 - m) (nth (length o - 1 - m) o 0 + 1)) ++ [x], fs).
  Proof.
    intros Hk Hm Hr. unfold step_at. change (e_rank e) with rank.
    destruct (Nat.leb_spec (length o + 1 - (length o - 1 - m)) rank) as [L|L].
    - unfold e. cbn [e_step fst snd].
      destruct (Nat.ltb_spec (rank - (length o + 1 - (length o - 1 - m)) + 1) rank); [|lia].
      rewrite upd_checked_ok.
      2:{ rewrite app_length, lastn_length by lia. lia. }
      cbn [bind]. rewrite app_nth1 by (rewrite lastn_length; lia).
      rewrite upd_app_l by (rewrite lastn_length; lia).
      rewrite lastn_nth, upd_lastn by lia. 
      replace (length o - k + (rank - (length o + 1 - (length o - 1 - m))))%nat with (length o - 1 - m)%nat by lia.
      reflexivity.
    - rewrite lastn_upd_out by lia. reflexivity.
  Qed.

  (** No inner dimension. *)
  Lemma ff_reset' (o : list Z) q c fs m :
    length o = q -> (rank <= q)%nat -> (m < q)%nat ->
    reset_at e q (q - 1 - m) c (lastn rank o, fs) =
      Ok (lastn rank (upd o (q - 1 - m) 0), fs).
  Proof.
    intros <- Hk Hm. unfold reset_at. change (e_rank e) with rank.
    destruct (Nat.leb_spec (length o - (length o - 1 - m)) rank) as [L|L].
    - unfold e. cbn [e_reset fst snd]. rewrite upd_checked_ok by (rewrite lastn_length; lia).
      cbn [bind]. rewrite upd_lastn by lia. do 4 f_equal. lia.
    - rewrite lastn_upd_out by lia. reflexivity.
  Qed.

  Lemma ff_step' (o : list Z) q fs m :
    length o = q -> (rank <= q)%nat -> (0 < m < q)%nat ->
    step_at e q (q - 1 - m) (lastn rank o, fs) =
      Ok (lastn rank (upd o (q - 1 - m) (nth (q - 1 - m) o 0 + 1)), fs).
  Proof.
    intros <- Hk Hm. unfold step_at. change (e_rank e) with rank.
    destruct (Nat.leb_spec (length o - (length o - 1 - m)) rank) as [L|L].
    - unfold e. cbn [e_step fst snd].
      destruct (Nat.ltb_spec (rank - (length o - (length o - 1 - m)) + 1) rank); [|lia].
      rewrite upd_checked_ok by (rewrite lastn_length; lia).
      cbn [bind]. rewrite lastn_nth, upd_lastn by lia.
      replace (length o - rank + (rank - (length o - (length o - 1 - m))))%nat with (length o - 1 - m)%nat by lia.
      reflexivity.
    - rewrite lastn_upd_out by lia. reflexivity.
  Qed.

  Lemma ff_rank0 D q : rank = 0%nat -> compat e 0 D q ->
    exists R Q, laws e (index_action f) D q R Q /\ R (repeat 0 q) 0 (e_init e) f0.
  Proof.
    intros H0 C.
    exists (fun _ _ s t => s = ([], t)), (fun _ _ s t => s = ([], t)).
    assert (NR : forall j c s, (j < length D)%nat -> reset_at e (length D) j c s = Ok s).
    { intros j c s Hj. unfold reset_at. change (e_rank e) with rank. rewrite H0.
      destruct (Nat.leb_spec (length D - j) 0); [lia|reflexivity]. }
    assert (NS : forall j s, (j < length D)%nat -> step_at e (length D) j s = Ok s).
    { intros j s Hj. unfold step_at. change (e_rank e) with rank. rewrite H0.
      destruct (Nat.leb_spec (length D - j) 0); [lia|reflexivity]. }
    pose proof (cp_q C).
    split; [constructor|].
    - intros o i s s' -> B Hi. unfold e. cbn [e_get fst snd]. unfold index_action.
      assert (E : lastn (e_rank e) (o ++ unflat (skipn q D) i) = []).
      { change (e_rank e) with rank. rewrite H0. unfold lastn. apply skipn_all2. lia. }
      fold e. rewrite E, H0. change (0 <? 0)%nat with false. cbn iota.
      destruct (f [] s') as [[a fs]| | |]; cbn; auto.
    - intros o s s' -> B Hlt. rewrite NR by lia. eauto.
    - intros o s s' -> B Hlt. rewrite NR by lia. eauto.
    - auto.
    - intros o m s s' -> B Hm. rewrite NR by lia. eauto.
    - intros o m s s' -> B Hm Hmax Hlt. rewrite NS by lia. eauto.
    - unfold e. cbn [e_init]. rewrite Hty. fold rank. rewrite H0. reflexivity.
  Qed.

  Lemma ff_inner D q : (0 < rank)%nat -> (q + 1 = length D)%nat -> compat e 0 D q ->
    exists R Q, laws e (index_action f) D q R Q /\ R (repeat 0 q) 0 (e_init e) f0.
  Proof.
    intros H0 Hq C. pose proof (cp_rank C) as HR. change (e_rank e) with rank in HR.
    destruct (inner_one Hq) as (d & Ed).
    exists (fun o i s t => s = (lastn (rank - 1) o ++ [i], t)).
    exists (fun o m s t => s = (lastn (rank - 1) (zero_tail o m) ++ [0], t)).
    assert (NR : forall o i t, length o = q ->
              reset_at e (length D) (length D - 1) 0 (lastn (rank - 1) o ++ [i], t) =
              Ok (lastn (rank - 1) (zero_tail o 0) ++ [0], t)).
    { intros o i t Ho. unfold reset_at. change (e_rank e) with rank.
      destruct (Nat.leb_spec (length D - (length D - 1)) rank); [|lia].
      unfold e. cbn [e_reset fst snd].
      rewrite upd_checked_ok by (rewrite app_length, lastn_length by lia; cbn; lia).
      cbn [bind].
      rewrite upd_app_r by (rewrite lastn_length; lia). rewrite lastn_length by lia.
      replace (rank - (length D - (length D - 1)) - (rank - 1))%nat with 0%nat by lia.
      rewrite zero_tail_0. reflexivity. }
    split; [constructor|].
    - intros o i s s' -> B Hi. unfold e. cbn [e_get fst snd]. unfold index_action.
      assert (Ho : length o = q) by (apply in_bounds_length in B; rewrite firstn_length in B; lia).
      fold e. change (e_rank e) with rank. rewrite Ed, unflat_one, lastn_snoc by lia.
      destruct (f (lastn (rank - 1) o ++ [i]) s') as [[a fs]| | |]; cbn [bind]; try exact I.
      destruct (Nat.ltb_spec 0 rank); [|lia].
      rewrite upd_checked_ok by (rewrite app_length, lastn_length by lia; cbn; lia). cbn [bind agree fst snd].
      split; auto. f_equal.
      rewrite upd_app_r by (rewrite lastn_length; lia). rewrite app_nth2 by (rewrite lastn_length; lia).
      rewrite lastn_length by lia. rewrite Nat.sub_diag. reflexivity.
    - intros o s s' -> B Hlt. pose proof (olim_in_length (cp_q C) B) as Lo. rewrite NR by auto. eauto.
    - intros o s s' -> B Hlt. pose proof (olim_in_length (cp_q C) B) as Lo.
      rewrite NR by (rewrite zero_tail_length; lia). rewrite !zero_tail_0. eauto.
    - intros o s s' HRR B Hlt. lia.
    - intros o m s s' -> B Hm. pose proof (olim_in_length (cp_q C) B) as Lo.
      eexists. split; [|reflexivity].
      assert (LZ : length (zero_tail o m) = q) by (rewrite zero_tail_length; lia).
      replace (length D) with (length (zero_tail o m) + 1)%nat by lia.
      replace (q - 1 - m)%nat with (length (zero_tail o m) - 1 - m)%nat by lia.
      rewrite ff_reset by lia.
      replace (m + 1)%nat with (S m) by lia. rewrite zero_tail_S by lia. do 5 f_equal. lia.
    - intros o m s s' -> B Hm Hmax Hlt. pose proof (olim_in_length (cp_q C) B) as Lo.
      eexists. split; [|reflexivity].
      assert (LZ : length (zero_tail o m) = q) by (rewrite zero_tail_length; lia).
      replace (length D) with (length (zero_tail o m) + 1)%nat by lia.
      replace (q - 1 - m)%nat with (length (zero_tail o m) - 1 - m)%nat by lia.
      rewrite ff_step by lia. unfold succ_at. rewrite LZ, Lo. rewrite zero_tail_nth by lia. reflexivity.
    - unfold e. cbn [e_init]. rewrite Hty. fold rank. f_equal.
      unfold lastn. rewrite repeat_length. replace rank with (rank - 1 + 1)%nat at 1 by lia.
      rewrite repeat_app. f_equal. rewrite skipn_repeat. f_equal. lia.
  Qed.

  Lemma ff_outer D q : (0 < rank)%nat -> q = length D -> compat e 0 D q ->
    exists R Q, laws e (index_action f) D q R Q /\ R (repeat 0 q) 0 (e_init e) f0.
  Proof.
    intros H0 Hq C. pose proof (cp_rank C) as HR. change (e_rank e) with rank in HR.
    assert (Ed : skipn q D = []) by (apply skipn_all2; lia).
    set (st := fun (o : list Z) (i : Z) (t : F) => (lastn rank (upd o (q - 1) (nth (q - 1) o 0 + i)), t)).
    exists (fun o i s t => s = st o i t).
    exists (fun o m s t => s = match m with O => st o 1 t | _ => (lastn rank (zero_tail o m), t) end).
    split; [constructor|].
    - intros o i s s' -> B Hi. unfold e. cbn [e_get]. unfold index_action.
      assert (Ho : length o = q) by (apply in_bounds_length in B; rewrite firstn_length in B; lia).
      fold e. change (e_rank e) with rank. rewrite Ed in *. cbn [unflat]. rewrite app_nil_r.
      cbn in Hi. assert (i = 0) as -> by lia. unfold st. cbn [fst snd].
      rewrite Z.add_0_r, upd_same by (rewrite ?upd_length, ?zero_tail_length, ?repeat_length; lia).
      destruct (f (lastn rank o) s') as [[a fs]| | |]; cbn [bind]; try exact I.
      destruct (Nat.ltb_spec 0 rank); [|lia].
      rewrite upd_checked_ok by (rewrite lastn_length; lia). cbn [bind agree fst snd].
      split; auto. f_equal. rewrite lastn_nth, upd_lastn by lia. 
      replace (length o - rank + (rank - 1))%nat with (q - 1)%nat by lia. reflexivity.
    - intros o s s' -> B Hlt. lia.
    - intros o s s' -> B Hlt. lia.
    - intros o s s' -> B _. rewrite Ed. reflexivity.
    - intros o m s s' -> B Hm. pose proof (olim_in_length (cp_q C) B) as Lo.
      eexists. split; [|reflexivity].
      replace (m + 1)%nat with (S m) by lia. rewrite zero_tail_S by lia.
      destruct m as [|m].
      + unfold st. rewrite zero_tail_0.
        assert (LU : length (upd o (q - 1) (nth (q - 1) o 0 + 1)) = q) by (rewrite upd_length; lia).
        rewrite <- Hq. rewrite ff_reset' by lia.
        replace (q - 1 - 0)%nat with (q - 1)%nat by lia. replace (length o - 1 - 0)%nat with (q - 1)%nat by lia.
        rewrite upd_upd_same. reflexivity.
      + assert (LZ : length (zero_tail o (S m)) = q) by (rewrite zero_tail_length; lia).
        rewrite <- Hq. rewrite ff_reset' by lia. rewrite Lo. reflexivity.
    - intros o m s s' -> B Hm Hmax Hlt. pose proof (olim_in_length (cp_q C) B) as Lo.
      eexists. split; [|reflexivity]. unfold st, succ_at.
      destruct m as [|m].
      + rewrite zero_tail_0. replace (length o - 1 - 0)%nat with (q - 1)%nat by lia.
        rewrite Z.add_0_r, upd_nth_same, upd_upd_same by lia.
        unfold step_at. change (e_rank e) with rank.
        destruct (Nat.leb_spec (length D - (q - 1 - 0)) rank); [|reflexivity].
        unfold e. cbn [e_step]. destruct (Nat.ltb_spec (rank - (length D - (q - 1 - 0)) + 1) rank); [lia|reflexivity].
      + assert (LZ : length (zero_tail o (S m)) = q) by (rewrite zero_tail_length; lia).
        rewrite <- Hq. rewrite ff_step' by lia. rewrite Lo.
        rewrite zero_tail_nth by lia. rewrite Z.add_0_r, upd_same by (rewrite ?upd_length, ?zero_tail_length, ?repeat_length; lia). reflexivity.
    - unfold st. rewrite Z.add_0_r, upd_same by (rewrite ?upd_length, ?zero_tail_length, ?repeat_length; lia). unfold e. cbn [e_init]. rewrite Hty. fold rank. f_equal.
      unfold lastn. rewrite repeat_length, skipn_repeat. f_equal. lia.
  Qed.

  Lemma computes_from_fn : computes e (index_action f) f0 0.
  Proof.
    split; [exact Hn|]. intros D q C.
    destruct (Nat.eq_dec rank 0) as [E0|E0]; [now apply ff_rank0|].
    pose proof (cp_inner C) as HI. unfold e in HI. cbn [e_inner] in HI.
    assert (E1 : (0 <? rank)%nat = true) by (apply Nat.ltb_lt; lia).
    rewrite E1 in HI. apply Nat.ltb_lt in E1. pose proof (cp_q C).
    destruct (Nat.eq_dec q (length D)); [now apply ff_outer|]. apply ff_inner; auto; lia.
  Qed.

  Lemma from_fn_ok : fits dims ->
    exists e, e_from_fn ty dims f f0 = Ok e /\ e_ty e = ty /\ e_dims e = dims /\
      e_inner e = (if (0 <? length dims)%nat then Some 1%nat else None) /\
      e_rep e = true /\ computes e (index_action f) f0 0.
  Proof.
    intros Hf. exists e. unfold e_from_fn. rewrite (checked_len_fits Hf).
    split; [reflexivity|]. repeat (split; [reflexivity|]). apply computes_from_fn.
  Qed.
End FromFn.

(** ** Subarrays along an axis *)

(** The subarray at position [k] of the axis. *)
Definition axis_item (v : view) (a : axis) (k : Z) : view :=
  match v_axis_at v a k with Ok w => w | _ => v end.

Lemma inner_stride_one m s :
  wf_map m -> m_strides m = [s] -> m_rank m = 1%nat -> inner_stride m = s.
Proof.
  intros Hw Hs Hr. destruct m as [ty dims|ty dims strides]; unfold m_rank in Hr; cbn in *.
  - destruct dims as [|d [|]]; cbn in *; try discriminate. injection Hs as <-.
    destruct ty as [|ds]; cbn; auto. pose proof (wf_typed Hw) as H. cbn in H. apply Forall2_len in H.
    cbn in H. destruct ds; cbn in *; auto. lia.
  - subst strides. rewrite Hr. reflexivity.
Qed.

Lemma remove_fits i dims :
  nonneg dims -> fits dims -> 0 < nth i dims 0 -> fits (remove_at i dims).
Proof.
  intros Hn Hf Hi k. unfold remove_at.
  destruct (Nat.le_gt_cases k i) as [L|L].
  - specialize (Hf k). rewrite firstn_app, firstn_firstn, firstn_length.
    assert (Hlt : (i < length dims)%nat).
    { destruct (Nat.le_gt_cases (length dims) i); auto. rewrite nth_overflow in Hi by auto. lia. }
    rewrite !Nat.min_l by lia. replace (k - i)%nat with 0%nat by lia. cbn [firstn]. now rewrite app_nil_r.
  - assert (Hlt : (i < length dims)%nat).
    { destruct (Nat.le_gt_cases (length dims) i); auto. rewrite nth_overflow in Hi by auto. lia. }
    specialize (Hf (S k)).
    rewrite firstn_app, firstn_length, Nat.min_l, firstn_all2 by (rewrite ?firstn_length; lia).
    assert (E : firstn (S k) dims = firstn i dims ++ nth i dims 0 :: firstn (k - i) (skipn (S i) dims)).
    { rewrite <- (firstn_skipn i dims) at 1. rewrite firstn_app, firstn_length, Nat.min_l by lia.
      rewrite firstn_all2 by (rewrite firstn_length; lia). f_equal.
      replace (S k - i)%nat with (S (k - i)) by lia.
      rewrite (skipn_cons_nth dims 0) by lia. cbn [firstn]. reflexivity. }
    rewrite E, prodZ_app in Hf. cbn [prodZ fold_right] in Hf. fold (prodZ (firstn (k - i) (skipn (S i) dims))) in Hf.
    rewrite prodZ_app.
    pose proof (prodZ_nonneg (nonneg_firstn i Hn)).
    pose proof (prodZ_nonneg (nonneg_firstn (k - i) (nonneg_skipn (S i) Hn))). nia.
Qed.

Lemma axis_ok rep v a i :
  wf_map (v_map v) -> is_axis a (length (v_dims v)) i ->
  (0 < nth i (v_dims v) 0 -> fits (remove_at i (v_dims v))) ->
  exists e, e_axis rep v a = Ok e /\ e_ty e = STuple [ax_dim a (v_ty v)] /\
    e_dims e = [nth i (v_dims v) 0] /\ e_inner e = Some 1%nat /\ e_rep e = rep /\
    computes e (pure_action (fun idx => axis_item v a (nth 0 idx 0))) tt 0.
Proof.
  intros Hw HA Hfit. unfold e_axis.
  destruct (ax_get_ok Hw HA) as (m & Em & Hd & Hs & Hty & Hl & Hwm). rewrite Em. cbn [bind].
  eexists. split; [reflexivity|]. cbn [e_ty e_dims e_inner e_rep]. rewrite Hd.
  repeat (split; [reflexivity|]).
  set (s := nth i (m_strides (v_map v)) 0) in *.
  assert (ES : inner_stride m = s).
  { apply inner_stride_one; auto. unfold m_rank. rewrite Hd. reflexivity. }
  rewrite ES.
  split. { cbn [e_dims]. rewrite <- Hd. apply (wf_nonneg Hwm). }
  intros D q C. pose proof (cp_q C) as Hq. pose proof (cp_inner C) as Hin. cbn [e_inner] in Hin.
  pose proof (cp_rank C) as Hr. unfold e_rank in Hr. cbn [e_dims length] in Hr.
  set (w := fun o : list Z => if (q =? length D)%nat then s * nth (q - 1) o 0 else 0).
  exists (fun o (_ : Z) off (_ : unit) => off = w o).
  exists (fun o m off (_ : unit) => off = w (zero_tail o m)).
  assert (NR : forall o, (q < length D)%nat -> w o = 0).
  { intros o Hlt. unfold w. destruct (Nat.eqb_spec q (length D)); [lia|reflexivity]. }
  assert (one : forall j, (length D - j <=? 1)%nat = negb (j <? length D - 1)%nat).
  { intros j. destruct (Nat.leb_spec (length D - j) 1), (Nat.ltb_spec j (length D - 1)); cbn; auto; lia. }
  split; [constructor|].
  - intros o k off [] -> B Hk. cbn [e_get].
    match goal with |- context [pure_action _ (lastn ?r _)] => change r with 1%nat end.
    assert (Ho : length o = q) by (apply in_bounds_length in B; rewrite firstn_length in B; lia).
    pose proof (compat_index C B Hk) as HB.
    match type of HB with in_bounds ?x (lastn ?r _) =>
      change x with [nth i (v_dims v) 0] in HB; change r with 1%nat in HB end.
    assert (EO : w o + s * k = s * nth 0 (lastn 1 (o ++ unflat (skipn q D) k)) 0).
    { unfold w. destruct (Nat.eqb_spec q (length D)) as [E|NE].
      - rewrite (skipn_all2 D) in * by lia. cbn [unflat] in *. rewrite app_nil_r.
        cbn in Hk. rewrite lastn_nth by lia. replace (length o - 1 + 0)%nat with (q - 1)%nat by lia. assert (k = 0) as -> by lia. lia.
      - destruct (@inner_one D q) as (d & Ed); [lia|]. rewrite Ed, unflat_one, lastn_snoc by lia.
        replace (lastn (1 - 1) o) with (@nil Z). 2:{ unfold lastn. rewrite skipn_all2; auto. lia. }
        cbn. lia. }
    rewrite EO. set (x := nth 0 (lastn 1 (o ++ unflat (skipn q D) k)) 0) in *.
    assert (HX : 0 <= x < nth i (v_dims v) 0).
    { unfold x. exact (@in_bounds_nth _ _ 0%nat HB ltac:(cbn; lia)). }
    unfold pure_action, axis_item, v_axis_at.
    assert (Hi : (i < m_rank (v_map v))%nat) by apply HA.
    assert (HA' : is_axis a (m_rank (v_map v)) i) by exact HA.
    rewrite (ax_index_ok HA'). cbn [bind]. unfold v_dims in *. rewrite m_dim_ok by auto. cbn [bind].
    rewrite assert_true by lia. cbn [bind].
    destruct (ax_remove_map_ok Hw HA) as (m' & -> & Hd' & _). cbn [bind].
    rewrite m_stride_ok by (auto; apply (wf_strides Hw)). cbn [bind].
    rewrite Hd'. rewrite checked_len_fits by (apply Hfit; lia).
    rewrite m_is_empty_spec, Hd'. cbn. split; reflexivity.
  - intros o off [] -> B Hlt. unfold reset_at. exists 0.
    change (e_rank _) with 1%nat. rewrite one. destruct (Nat.ltb_spec (length D - 1) (length D - 1)); [lia|].
    cbn [negb e_reset]. split; auto. now rewrite NR.
  - intros o off [] -> B Hlt. unfold reset_at. exists 0.
    change (e_rank _) with 1%nat. rewrite one. destruct (Nat.ltb_spec (length D - 1) (length D - 1)); [lia|].
    cbn [negb e_reset]. split; auto. now rewrite NR.
  - intros o off [] -> B Hlt. now rewrite zero_tail_0.
  - intros o m0 off [] -> B Hm. pose proof (olim_in_length (cp_q C) B) as Lo.
    unfold reset_at. change (e_rank _) with 1%nat. rewrite one.
    replace (m0 + 1)%nat with (S m0) by lia.
    destruct (Nat.ltb_spec (q - 1 - m0) (length D - 1)) as [L|L]; cbn [negb e_reset].
    + eexists. split; [reflexivity|]. unfold w. destruct (Nat.eqb_spec q (length D)) as [E|NE]; auto.
      f_equal. rewrite !zero_tail_nth' by lia.
      destruct (Nat.ltb_spec (q - 1) (length o - m0)), (Nat.ltb_spec (q - 1) (length o - S m0)); auto; lia.
    + eexists. split; [reflexivity|]. unfold w. destruct (Nat.eqb_spec q (length D)) as [E|NE]; auto.
      rewrite zero_tail_nth' by lia. destruct (Nat.ltb_spec (q - 1) (length o - S m0)); lia.
  - intros o m0 off [] -> B Hm Hmax Hlt. pose proof (olim_in_length (cp_q C) B) as Lo.
    unfold step_at. change (e_rank _) with 1%nat. rewrite one. unfold succ_at. rewrite Lo.
    destruct (Nat.ltb_spec (q - 1 - m0) (length D - 1)) as [L|L]; cbn [negb e_step].
    + eexists. split; [reflexivity|]. unfold w. destruct (Nat.eqb_spec q (length D)) as [E|NE]; auto.
      f_equal. rewrite upd_nth_other by lia. reflexivity.
    + eexists. split; [reflexivity|]. unfold w. destruct (Nat.eqb_spec q (length D)) as [E|NE]; [|lia].
      assert (m0 = 0%nat) as -> by lia. replace (q - 1 - 0)%nat with (q - 1)%nat by lia.
      rewrite zero_tail_0, upd_nth_same by lia. unfold e_st. lia.
  - unfold w. cbn. rewrite nth_repeat. destruct (_ =? _)%nat; lia.
Qed.

(** The lane along the axis at index [idx] of the other dimensions. *)
Definition lane_item (v : view) (a : axis) (i : nat) (idx : list Z) : view :=
  match ax_get a (v_map v) with
  | Ok m => mkView (v_ptr v + if m_is_empty m then 0 else dot (remove_at i (m_strides (v_map v))) idx) m
  | _ => v
  end.

Lemma lane_item_ok v a i idx :
  wf_map (v_map v) -> is_axis a (length (v_dims v)) i -> in_bounds (remove_at i (v_dims v)) idx ->
  let w := lane_item v a i idx in
  v_dims w = [nth i (v_dims v) 0] /\ v_ty w = STuple [ax_dim a (v_ty v)] /\
  v_layout w = ax_keep a (v_ty v) (v_layout v) /\ wf_map (v_map w) /\
  shows v w (fun j => insert_at i (nth 0 j 0) idx).
Proof.
  intros Hw HA B. unfold lane_item.
  destruct (ax_get_ok Hw HA) as (m & -> & Hd & Hs & Hty & Hl & Hwm).
  unfold v_dims, v_ty, v_layout in *. cbn [v_map]. repeat (split; [assumption|]).
  intros j Hj. unfold v_dims in *. cbn [v_map] in Hj. pose proof Hj as Hj'. rewrite Hd in Hj.
  inversion Hj as [|? x ? j' Hx HN]; subst. inversion HN; subst. cbn [nth].
  assert (Hi : (i < m_rank (v_map v))%nat) by apply HA. unfold m_rank in Hi.
  assert (HB : in_bounds (m_dims (v_map v)) (insert_at i x idx)) by (apply in_bounds_insert; auto).
  split; auto. unfold v_addr. cbn [v_ptr v_map].
  rewrite (not_empty_bounds Hj').
  rewrite !m_offset_dot; auto; try apply wf_strides; auto.
  - rewrite Hs, dot_remove.
    + cbn. lia.
    + rewrite (wf_strides Hw). auto.
    + apply in_bounds_length in B. rewrite remove_at_length in B by auto. rewrite (wf_strides Hw). auto.
  - now apply in_bounds_length.
  - now rewrite Hd.
Qed.

Lemma lanes_ok rep v a i :
  wf_map (v_map v) -> is_axis a (length (v_dims v)) i -> fits (remove_at i (v_dims v)) ->
  exists m e, ax_remove_map a (v_map v) = Ok m /\ e_lanes rep v a = Ok e /\ e_ty e = ax_remove a (v_ty v) /\
    e_dims e = remove_at i (v_dims v) /\ e_inner e = map_inner_rank m /\ m_layout m = ax_split a (v_ty v) (v_layout v) /\
    m_dims m = remove_at i (v_dims v) /\ m_ty m = ax_remove a (v_ty v) /\ e_rep e = rep /\
    computes e (pure_action (lane_item v a i)) tt (length (remove_at i (v_dims v))).
Proof.
  intros Hw HA Hfit. unfold e_lanes.
  destruct (ax_remove_map_ok Hw HA) as (m & Em & Hd & Hs & Hty & Hl & Hwm). rewrite Em. cbn [bind].
  exists m.
  unfold v_dims in *. rewrite Hd, checked_len_fits by auto.
  eexists. split; [reflexivity|]. split; [reflexivity|]. cbn [e_ty e_dims e_inner e_rep].
  repeat (split; [first [reflexivity|assumption]|]).
  split. { cbn [e_dims]. rewrite <- Hd. apply (wf_nonneg Hwm). }
  intros D q C. pose proof (cp_q C) as Hq. pose proof (cp_need C) as Hneed.
  pose proof (cp_dims C) as HD. unfold e_rank in HD. cbn [e_dims] in HD.
  pose proof (cp_rank C) as HR. unfold e_rank in HR. cbn [e_dims] in HR.
  set (r := length (remove_at i (m_dims (v_map v)))) in *.
  assert (Er : m_rank m = r) by (unfold m_rank, r; now rewrite Hd).
  assert (OUT : forall j, (j < q)%nat -> (length D - j <=? r)%nat = false).
  { intros j Hj. apply Nat.leb_gt. lia. }
  exists (fun _ _ off _ => off = 0), (fun _ _ off _ => off = 0).
  assert (NR : (q < length D)%nat -> forall off : Z, off = 0 ->
    (if (length D - (length D - 1) <=? r)%nat
     then let* s := m_stride m (r - (length D - (length D - 1))) in Ok (off - s * 0) else Ok off) = Ok 0).
  { intros Hlt off ->. destruct (Nat.leb_spec (length D - (length D - 1)) r) as [L|L]; auto.
    rewrite m_stride_ok; [|apply (wf_strides Hwm)|lia]. cbn [bind]. f_equal. lia. }
  split; [constructor|].
  - intros o k off [] -> B Hk. cbn [e_get].
    match goal with |- context [pure_action _ (lastn ?x _)] => change x with r end.
    assert (Ho : length o = q) by (apply in_bounds_length in B; rewrite firstn_length in B; lia).
    unfold pure_action, lane_item.
    destruct (ax_get_ok Hw HA) as (m1 & -> & Hd1 & Hs1 & _). cbn [bind].
    destruct (m_is_empty m1); [cbn; auto|].
    rewrite <- Hs.
    assert (HIN : match map_inner_rank m with None => True | Some k => (length D - q <= k)%nat end) by apply (cp_inner C).
    pose proof (@full_offset m D q Hwm Hq (cp_nonneg C) ltac:(lia) ltac:(rewrite Er, Hd; exact HD) HIN o k Ho Hk) as FO.
    rewrite Er in FO.
    rewrite m_offset_dot in FO.
    2:{ apply (wf_strides Hwm). }
    2:{ rewrite lastn_length. fold (m_rank m). lia. rewrite app_length, unflat_length, skipn_length. lia. }
    assert (G0 : firstn q (gs (length D) m) = repeat 0 q).
    { unfold gs. rewrite firstn_app, repeat_length, firstn_repeat_all.
      replace (q - (length D - m_rank m))%nat with 0%nat by lia. cbn [firstn]. rewrite app_nil_r. f_equal. lia. }
    rewrite G0, dot_zero_strides in FO. rewrite Z.add_0_l in FO. rewrite FO. cbn. auto.
  - intros o off [] -> B Hlt. exists 0. split; auto. unfold reset_at.
    change (e_rank _) with r. cbn [e_reset]. now apply NR.
  - intros o off [] -> B Hlt. exists 0. split; auto. unfold reset_at.
    change (e_rank _) with r. cbn [e_reset]. now apply NR.
  - auto.
  - intros o m0 off [] -> B Hm. exists 0. split; auto. unfold reset_at.
    change (e_rank _) with r. rewrite OUT by lia. reflexivity.
  - intros o m0 off [] -> B Hm Hmax Hlt. exists 0. split; auto. unfold step_at.
    change (e_rank _) with r. rewrite OUT by lia. reflexivity.
  - reflexivity.
Qed.
