(** Facts about the specification vocabulary. *)
From Verif Require Import Base Spec.

(** * zrange *)

Lemma zrange_length n : length (zrange n) = Z.to_nat n.
Proof. unfold zrange. now rewrite map_length, seq_length. Qed.

Lemma in_zrange n i : In i (zrange n) <-> 0 <= i < n.
Proof.
  unfold zrange. rewrite in_map_iff. split.
  - intros (k & <- & H). apply in_seq in H. lia.
  - intros H. exists (Z.to_nat i). split; [lia|]. apply in_seq. lia.
Qed.

Lemma zrange_nth n k d : (k < Z.to_nat n)%nat -> nth k (zrange n) d = Z.of_nat k.
Proof.
  intros H. unfold zrange.
  rewrite nth_indep with (d' := Z.of_nat 0) by (rewrite map_length, seq_length; lia).
  rewrite map_nth, seq_nth by lia. f_equal.
Qed.

Lemma zrange_NoDup n : NoDup (zrange n).
Proof.
  unfold zrange. apply FinFun.Injective_map_NoDup; [|apply seq_NoDup].
  intros a b H. lia.
Qed.

Lemma zrange_0 n : n <= 0 -> zrange n = [].
Proof. intros H. unfold zrange. replace (Z.to_nat n) with 0%nat by lia. reflexivity. Qed.

Lemma zrange_succ n : 0 <= n -> zrange (n + 1) = zrange n ++ [n].
Proof.
  intros H. unfold zrange. replace (Z.to_nat (n + 1)) with (S (Z.to_nat n)) by lia.
  rewrite seq_S, map_app. simpl. rewrite Z2Nat.id by lia. reflexivity.
Qed.

Lemma zrange_add a b : 0 <= a -> 0 <= b -> zrange (a + b) = zrange a ++ map (Z.add a) (zrange b).
Proof.
  intros Ha Hb. pattern b. apply natlike_ind; [| |exact Hb]; clear b Hb.
  - rewrite (@zrange_0 0), Z.add_0_r by lia. simpl. now rewrite app_nil_r.
  - intros b Hb IH. unfold Z.succ. rewrite Z.add_assoc, !zrange_succ by lia.
    rewrite IH, map_app, app_assoc. reflexivity.
Qed.

Lemma zrange_cons n : 0 < n -> zrange n = 0 :: map (Z.add 1) (zrange (n - 1)).
Proof.
  intros H. replace n with (1 + (n - 1)) at 1 by lia.
  rewrite zrange_add by lia. reflexivity.
Qed.

(** * upd *)

Lemma upd_length {A} (l : list A) i x : length (upd l i x) = length l.
Proof. revert i. induction l; destruct i; simpl; auto. Qed.

Lemma upd_nth_same {A} (l : list A) i x d : (i < length l)%nat -> nth i (upd l i x) d = x.
Proof.
  revert i. induction l; intros [|i] H; simpl in *; try lia; auto.
  apply IHl. lia.
Qed.

Lemma upd_nth_other {A} (l : list A) i j x d : i <> j -> nth j (upd l i x) d = nth j l d.
Proof.
  revert i j. induction l; intros [|i] [|j] H; simpl; auto; try congruence.
Qed.

Lemma upd_nth_error_other {A} (l : list A) i j x : i <> j -> nth_error (upd l i x) j = nth_error l j.
Proof.
  revert i j. induction l; intros [|i] [|j] H; simpl; auto; try congruence.
Qed.

Lemma upd_nth_error_same {A} (l : list A) i x : (i < length l)%nat -> nth_error (upd l i x) i = Some x.
Proof.
  revert i. induction l; intros [|i] H; simpl in *; try lia; auto.
  apply IHl. lia.
Qed.

Lemma upd_app_l {A} (l1 l2 : list A) i x : (i < length l1)%nat -> upd (l1 ++ l2) i x = upd l1 i x ++ l2.
Proof.
  revert i. induction l1; intros [|i] H; simpl in *; try lia; auto.
  f_equal. apply IHl1. lia.
Qed.

Lemma upd_app_r {A} (l1 l2 : list A) i x :
  (length l1 <= i)%nat -> upd (l1 ++ l2) i x = l1 ++ upd l2 (i - length l1) x.
Proof.
  revert i. induction l1; intros i H; simpl in *.
  - now rewrite Nat.sub_0_r.
  - destruct i; [lia|]. simpl. f_equal. apply IHl1. lia.
Qed.

Lemma upd_out {A} (l : list A) i x : (length l <= i)%nat -> upd l i x = l.
Proof.
  revert i. induction l; intros [|i] H; simpl in *; auto; try lia.
  f_equal. apply IHl. lia.
Qed.

Lemma upd_split {A} (l : list A) i x :
  (i < length l)%nat -> upd l i x = firstn i l ++ x :: skipn (S i) l.
Proof.
  revert i. induction l; intros [|i] H; simpl in *; try lia; auto.
  f_equal. apply IHl. lia.
Qed.

Lemma upd_upd_same {A} (l : list A) i x y : upd (upd l i x) i y = upd l i y.
Proof. revert i; induction l; intros [|i]; simpl; auto. f_equal; auto. Qed.

Lemma upd_same {A} (l : list A) i d : (i < length l)%nat -> upd l i (nth i l d) = l.
Proof.
  revert i; induction l; intros [|i] H; simpl in *; try lia; auto. f_equal. apply IHl. lia.
Qed.

Lemma upd_comm {A} (l : list A) i j x y : i <> j -> upd (upd l i x) j y = upd (upd l j y) i x.
Proof. revert i j; induction l; intros [|i] [|j] H; simpl; auto; try congruence. f_equal; auto. Qed.

Lemma list_ext {A} (l1 l2 : list A) d :
  length l1 = length l2 ->
  (forall i, (i < length l1)%nat -> nth i l1 d = nth i l2 d) -> l1 = l2.
Proof. intros H1 H2. eapply nth_ext; eauto. Qed.

(** * prodZ *)

Lemma prodZ_cons d ds : prodZ (d :: ds) = d * prodZ ds.
Proof. reflexivity. Qed.

Lemma prodZ_app a b : prodZ (a ++ b) = prodZ a * prodZ b.
Proof. induction a; [now rewrite Z.mul_1_l|]. simpl app. rewrite !prodZ_cons, IHa. lia. Qed.

Lemma prodZ_rev a : prodZ (rev a) = prodZ a.
Proof.
  induction a; [reflexivity|]. simpl rev. rewrite prodZ_app, IHa, !prodZ_cons.
  change (prodZ []) with 1. lia.
Qed.

Lemma prodZ_nonneg dims : nonneg dims -> 0 <= prodZ dims.
Proof. induction 1; simpl; [lia|]. fold (prodZ l). nia. Qed.

Lemma prodZ_pos dims : positive dims -> 0 < prodZ dims.
Proof. induction 1; simpl; [lia|]. fold (prodZ l). nia. Qed.

Lemma prodZ_zero_iff dims : nonneg dims -> (prodZ dims = 0 <-> In 0 dims).
Proof.
  induction 1; simpl; [lia|]. fold (prodZ l). split.
  - intros E. destruct (Z.eq_dec x 0); [now left|]. right. apply IHForall. nia.
  - intros [->|E]; [lia|]. apply IHForall in E. rewrite E. lia.
Qed.

Lemma prodZ_pos_inv dims : nonneg dims -> 0 < prodZ dims -> positive dims.
Proof.
  intros Hn. unfold positive. induction Hn; intros Hp; constructor.
  - rewrite prodZ_cons in Hp. assert (0 <= prodZ l) by now apply prodZ_nonneg. nia.
  - apply IHHn. rewrite prodZ_cons in Hp. assert (0 <= prodZ l) by now apply prodZ_nonneg. nia.
Qed.

Lemma positive_nonneg dims : positive dims -> nonneg dims.
Proof. unfold positive, nonneg. intros H. eapply Forall_impl; [|exact H]. simpl. lia. Qed.

Lemma nonneg_app a b : nonneg (a ++ b) <-> nonneg a /\ nonneg b.
Proof. apply Forall_app. Qed.

Lemma positive_app a b : positive (a ++ b) <-> positive a /\ positive b.
Proof. apply Forall_app. Qed.

Lemma nonneg_firstn n l : nonneg l -> nonneg (firstn n l).
Proof. intros H. rewrite <- (firstn_skipn n l), nonneg_app in H. tauto. Qed.

Lemma nonneg_skipn n l : nonneg l -> nonneg (skipn n l).
Proof. intros H. rewrite <- (firstn_skipn n l), nonneg_app in H. tauto. Qed.

(** * in_bounds *)

Lemma Forall2_len {A B} (R : A -> B -> Prop) a b : Forall2 R a b -> length a = length b.
Proof. induction 1; simpl; auto. Qed.

Lemma in_bounds_length dims idx : in_bounds dims idx -> length idx = length dims.
Proof. intros H. symmetry. eapply Forall2_len; eauto. Qed.

Lemma in_bounds_cons d ds i is :
  in_bounds (d :: ds) (i :: is) <-> 0 <= i < d /\ in_bounds ds is.
Proof. unfold in_bounds. split; [inversion 1; auto | intros []; constructor; auto]. Qed.

Lemma in_bounds_nil : in_bounds [] [].
Proof. constructor. Qed.

Lemma in_bounds_positive dims idx : in_bounds dims idx -> positive dims.
Proof. induction 1; constructor; auto; lia. Qed.

Lemma in_bounds_nth dims idx i :
  in_bounds dims idx -> (i < length dims)%nat -> 0 <= nth i idx 0 < nth i dims 0.
Proof.
  intros H. revert i. induction H; intros [|i] Hi; simpl in *; try lia. apply IHForall2. lia.
Qed.

Lemma in_bounds_intro dims idx :
  length idx = length dims ->
  (forall i, (i < length dims)%nat -> 0 <= nth i idx 0 < nth i dims 0) ->
  in_bounds dims idx.
Proof.
  revert idx. induction dims; intros [|j idx] HL H; simpl in *; try lia; constructor.
  - apply (H 0%nat). lia.
  - apply IHdims; [lia|]. intros i Hi. apply (H (S i)). lia.
Qed.

Lemma in_bounds_app d1 d2 i1 i2 :
  length i1 = length d1 ->
  (in_bounds (d1 ++ d2) (i1 ++ i2) <-> in_bounds d1 i1 /\ in_bounds d2 i2).
Proof.
  intros HL. split.
  - intros H. apply Forall2_app_inv_l in H as (a & b & Ha & Hb & E).
    assert (length a = length i1) by (rewrite HL; symmetry; eapply Forall2_len; eauto).
    assert (E1 : a = i1 /\ b = i2).
    { clear - E H. revert a i1 E H. induction a; intros [|y i1] E H; simpl in *; try lia.
      - now split.
      - injection E as -> E. destruct (IHa i1) as [-> ->]; auto. }
    destruct E1 as [-> ->]. now split.
  - intros []. now apply Forall2_app.
Qed.

(** * flat / unflat *)

Lemma flat_bounds dims idx : in_bounds dims idx -> 0 <= flat dims idx < prodZ dims.
Proof.
  induction 1; simpl; [lia|]. fold (prodZ l). nia.
Qed.

Lemma unflat_length dims k : length (unflat dims k) = length dims.
Proof. revert k. induction dims; simpl; auto. Qed.

Lemma unflat_in_bounds dims k : nonneg dims -> 0 <= k < prodZ dims -> in_bounds dims (unflat dims k).
Proof.
  revert k. induction dims as [|d ds IH]; intros k Hn Hk; simpl; [constructor|].
  inversion Hn; subst. rewrite prodZ_cons in Hk.
  assert (0 <= prodZ ds) by now apply prodZ_nonneg.
  assert (0 < prodZ ds) by nia.
  constructor.
  - split; [apply Z.div_pos; lia|]. apply Z.div_lt_upper_bound; lia.
  - apply IH; auto. apply Z.mod_pos_bound. lia.
Qed.

Lemma flat_unflat dims k : nonneg dims -> 0 <= k < prodZ dims -> flat dims (unflat dims k) = k.
Proof.
  revert k. induction dims as [|d ds IH]; intros k Hn Hk; simpl in *; [lia|].
  fold (prodZ ds) in Hk. inversion Hn; subst.
  assert (0 <= prodZ ds) by now apply prodZ_nonneg.
  assert (0 < prodZ ds) by nia.
  rewrite IH; auto; [|apply Z.mod_pos_bound; lia].
  pose proof (Z.div_mod k (prodZ ds)). lia.
Qed.

Lemma unflat_flat dims idx : in_bounds dims idx -> unflat dims (flat dims idx) = idx.
Proof.
  intros H. induction H; simpl; [reflexivity|].
  pose proof (flat_bounds H0) as Hb.
  assert (0 < prodZ l) by lia.
  replace (y * prodZ l + flat l l') with (flat l l' + y * prodZ l) by lia.
  rewrite Z.div_add, Z.mod_add by lia.
  rewrite Z.div_small, Z.mod_small by lia. rewrite IHForall2. f_equal.
Qed.

Lemma flat_inj dims i j : in_bounds dims i -> in_bounds dims j -> flat dims i = flat dims j -> i = j.
Proof. intros Hi Hj E. rewrite <- (unflat_flat Hi), <- (unflat_flat Hj). now rewrite E. Qed.

Lemma flat_app d1 d2 i1 i2 :
  length i1 = length d1 -> flat (d1 ++ d2) (i1 ++ i2) = flat d1 i1 * prodZ d2 + flat d2 i2.
Proof.
  revert i1. induction d1; intros [|x i1] H; simpl in *; try lia.
  rewrite IHd1 by lia. fold (prodZ (d1 ++ d2)). rewrite prodZ_app. lia.
Qed.

(** [indices] is the enumeration by [unflat]. *)
Lemma flat_map_map_unflat d ds :
  nonneg ds -> 0 <= d ->
  flat_map (fun i => map (fun k => i :: unflat ds k) (zrange (prodZ ds))) (zrange d)
  = map (unflat (d :: ds)) (zrange (d * prodZ ds)).
Proof.
  intros Hn Hd. assert (HP : 0 <= prodZ ds) by now apply prodZ_nonneg.
  destruct (Z.eq_dec (prodZ ds) 0) as [E|E].
  { rewrite E, Z.mul_0_r. rewrite (@zrange_0 0) by lia. simpl map.
    induction (zrange d); simpl; auto. }
  pattern d. apply natlike_ind; [| |exact Hd]; clear d Hd.
  - reflexivity.
  - intros d Hd IH. unfold Z.succ. rewrite zrange_succ by lia.
    rewrite flat_map_app, IH. replace ((d + 1) * prodZ ds) with (d * prodZ ds + prodZ ds) by lia.
    rewrite zrange_add, map_app by nia. f_equal.
    simpl flat_map. rewrite app_nil_r, map_map.
    apply map_ext_in. intros k Hk. apply in_zrange in Hk. simpl.
    replace (d * prodZ ds + k) with (k + d * prodZ ds) by lia.
    rewrite Z.div_add, Z.mod_add by lia. rewrite Z.div_small, Z.mod_small by lia. reflexivity.
Qed.

Theorem indices_unflat dims : nonneg dims -> indices dims = map (unflat dims) (zrange (prodZ dims)).
Proof.
  induction 1 as [|d ds Hd Hn IH]; [reflexivity|].
  change (indices (d :: ds)) with (flat_map (fun i => map (cons i) (indices ds)) (zrange d)).
  rewrite IH. rewrite prodZ_cons. rewrite <- flat_map_map_unflat by auto.
  apply flat_map_ext. intros i. now rewrite map_map.
Qed.

Lemma in_indices dims idx : In idx (indices dims) <-> in_bounds dims idx.
Proof.
  revert idx. induction dims as [|d ds IH]; intros idx; simpl.
  - split; [intros [<-|[]]; constructor | inversion 1; now left].
  - rewrite in_flat_map. split.
    + intros (i & Hi & H). apply in_map_iff in H as (t & <- & Ht).
      apply in_zrange in Hi. apply IH in Ht. now constructor.
    + inversion 1; subst. exists y. split; [now apply in_zrange|].
      apply in_map. now apply IH.
Qed.

Lemma indices_length dims : nonneg dims -> length (indices dims) = Z.to_nat (prodZ dims).
Proof. intros H. rewrite indices_unflat by auto. now rewrite map_length, zrange_length. Qed.

Lemma indices_NoDup dims : nonneg dims -> NoDup (indices dims).
Proof.
  intros H. rewrite indices_unflat by auto.
  assert (G : forall l, (forall k, In k l -> 0 <= k < prodZ dims) -> NoDup l -> NoDup (map (unflat dims) l)).
  { induction l; intros HI HN; simpl; [constructor|]. inversion HN; subst. constructor.
    - rewrite in_map_iff. intros (x & E & Hx). apply H2.
      rewrite <- (@flat_unflat dims a), <- E, flat_unflat; auto; apply HI; simpl; auto.
    - apply IHl; auto. intros; apply HI; now right. }
  apply G; [intros; now apply in_zrange | apply zrange_NoDup].
Qed.

Lemma indices_nth dims k d :
  nonneg dims -> (k < Z.to_nat (prodZ dims))%nat -> nth k (indices dims) d = unflat dims (Z.of_nat k).
Proof.
  intros Hn Hk. rewrite indices_unflat by auto.
  rewrite nth_indep with (d' := unflat dims 0) by (rewrite map_length, zrange_length; lia).
  rewrite map_nth, zrange_nth by lia. reflexivity.
Qed.

Lemma indices_empty dims : nonneg dims -> prodZ dims = 0 -> indices dims = [].
Proof. intros Hn E. rewrite indices_unflat, E by auto. reflexivity. Qed.

Lemma indices_app d1 d2 :
  indices (d1 ++ d2) = flat_map (fun o => map (app o) (indices d2)) (indices d1).
Proof.
  induction d1 as [|d ds IH].
  - simpl. rewrite app_nil_r. symmetry. erewrite map_ext; [apply map_id|reflexivity].
  - simpl. rewrite IH. clear IH.
    induction (zrange d) as [|i zs IHz]; [reflexivity|].
    cbn [flat_map]. rewrite flat_map_app, <- IHz. f_equal. clear IHz zs.
    induction (indices ds) as [|o os IHo]; [reflexivity|].
    cbn [flat_map map]. rewrite map_app, IHo. f_equal. rewrite map_map. reflexivity.
Qed.

(** * dot *)

Lemma dot_nil_r s : dot s [] = 0.
Proof. now destruct s. Qed.

Lemma dot_app s1 s2 i1 i2 :
  length s1 = length i1 -> dot (s1 ++ s2) (i1 ++ i2) = dot s1 i1 + dot s2 i2.
Proof. revert i1. induction s1; intros [|x i1] H; simpl in *; try lia. rewrite IHs1 by lia. lia. Qed.

Lemma row_major_length dims : length (row_major dims) = length dims.
Proof. induction dims; simpl; auto. Qed.

Lemma dot_row_major dims idx : length idx = length dims -> dot (row_major dims) idx = flat dims idx.
Proof. revert idx. induction dims; intros [|i idx] H; simpl in *; try lia. rewrite IHdims by lia. lia. Qed.

Lemma nth_row_major dims i : (i < length dims)%nat -> nth i (row_major dims) 0 = prodZ (skipn (S i) dims).
Proof. revert i. induction dims; intros [|i] H; simpl in *; try lia; auto. rewrite IHdims by lia. reflexivity. Qed.

Fixpoint sumZ (l : list Z) : Z := match l with [] => 0 | x :: t => x + sumZ t end.

Lemma sumZ_app a b : sumZ (a ++ b) = sumZ a + sumZ b.
Proof. induction a; simpl; lia. Qed.

Lemma sumZ_perm a b : Permutation a b -> sumZ a = sumZ b.
Proof. induction 1; simpl; lia. Qed.

Lemma dot_sum s idx :
  length idx = length s ->
  dot s idx = sumZ (map (fun i => nth i s 0 * nth i idx 0) (seq 0 (length s))).
Proof.
  revert idx. induction s; intros [|x idx] H; simpl in *; try lia.
  rewrite IHs by lia. f_equal. rewrite <- seq_shift, map_map. reflexivity.
Qed.

Lemma dot_rev s idx : length s = length idx -> dot (rev s) (rev idx) = dot s idx.
Proof.
  revert idx. induction s; intros [|x idx] H; simpl in *; try lia.
  rewrite dot_app by (rewrite !rev_length; lia). simpl. rewrite IHs by lia. lia.
Qed.

Lemma dot_zeros s n : dot s (repeat 0 n) = 0.
Proof. revert n. induction s; intros [|n]; simpl; auto. rewrite IHs. lia. Qed.

Lemma dot_upd s idx i x :
  (i < length s)%nat -> length idx = length s ->
  dot s (upd idx i x) = dot s idx + nth i s 0 * (x - nth i idx 0).
Proof.
  revert idx i. induction s; intros [|y idx] [|i] Hi HL; simpl in *; try lia.
  rewrite IHs by lia. lia.
Qed.

(** * insert / remove *)

Lemma insert_at_length {A} n (x : A) l : length (insert_at n x l) = S (length l).
Proof.
  unfold insert_at. rewrite app_length. cbn [length]. rewrite firstn_length, skipn_length. lia.
Qed.

Lemma remove_at_length {A} n (l : list A) : (n < length l)%nat -> length (remove_at n l) = (length l - 1)%nat.
Proof. intros H. unfold remove_at. rewrite app_length, firstn_length, skipn_length. lia. Qed.

Lemma dot_remove s n i idx :
  (n < length s)%nat -> length idx = (length s - 1)%nat ->
  dot s (insert_at n i idx) = dot (remove_at n s) idx + nth n s 0 * i.
Proof.
  intros Hn HL. unfold insert_at, remove_at.
  rewrite <- (firstn_skipn n s) at 1.
  rewrite <- (firstn_skipn n idx) at 3.
  rewrite !dot_app by (rewrite !firstn_length; lia).
  assert (E : skipn n s = nth n s 0 :: skipn (S n) s).
  { clear HL. revert n Hn. induction s; intros [|n] Hn; simpl in *; try lia; auto. rewrite IHs by lia. reflexivity. }
  rewrite E. simpl dot. lia.
Qed.

Lemma remove_insert {A} n (x : A) l : (n <= length l)%nat -> remove_at n (insert_at n x l) = l.
Proof.
  intros H. unfold remove_at, insert_at.
  rewrite firstn_app, skipn_app, firstn_firstn, firstn_length, skipn_firstn_comm.
  rewrite Nat.min_id, Nat.min_l by lia.
  replace (n - n)%nat with 0%nat by lia. replace (n - S n)%nat with 0%nat by lia.
  replace (S n - n)%nat with 1%nat by lia. simpl.
  rewrite app_nil_r. apply firstn_skipn.
Qed.

Lemma in_bounds_insert dims n i idx :
  (n < length dims)%nat -> 0 <= i < nth n dims 0 ->
  (in_bounds dims (insert_at n i idx) <-> in_bounds (remove_at n dims) idx).
Proof.
  revert n idx. induction dims as [|d ds IH]; intros [|n] idx Hn Hi; cbn [length nth] in *; try lia.
  - unfold insert_at, remove_at. simpl. rewrite in_bounds_cons. tauto.
  - unfold insert_at, remove_at in *. destruct idx as [|j idx].
    + split; intros H; apply in_bounds_length in H; simpl in H; lia.
    + cbn [firstn skipn app]. rewrite !in_bounds_cons. rewrite (IH n idx ltac:(lia) Hi). tauto.
Qed.
