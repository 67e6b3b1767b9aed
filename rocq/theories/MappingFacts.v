(** Facts about the mapping model: strides, offsets, linear offsets. *)
From Verif Require Import Base Spec SpecFacts Shape Mapping Index View Wf.

Lemma bind_ok {A B} (m : outcome A) (k : A -> outcome B) b :
  bind m k = Ok b <-> exists a, m = Ok a /\ k a = Ok b.
Proof.
  destruct m; simpl; split; intros H.
  - now exists a.
  - destruct H as (x & E & H). injection E as ->. exact H.
  - discriminate.
  - destruct H as (x & E & H). discriminate.
  - discriminate.
  - destruct H as (x & E & H). discriminate.
  - discriminate.
  - destruct H as (x & E & H). discriminate.
Qed.

Lemma assert_true b : b = true -> assert b = Ok tt.
Proof. now intros ->. Qed.
Lemma assert_false b : b = false -> assert b = Panic.
Proof. now intros ->. Qed.
Lemma assert_ok b u : assert b = Ok u <-> b = true.
Proof. destruct b, u; simpl; split; congruence. Qed.

Lemma sh_len_prod dims : sh_len dims = prodZ dims.
Proof.
  unfold sh_len. enough (G : forall a, fold_left Z.mul dims a = a * prodZ dims) by (rewrite G; lia).
  induction dims; intros b; simpl; [lia|]. rewrite IHdims. fold (prodZ dims). lia.
Qed.

Lemma fold_mul_prod l a : fold_left Z.mul l a = a * prodZ l.
Proof. revert a. induction l; intros b; simpl; [lia|]. rewrite IHl. fold (prodZ l). lia. Qed.

(** ** Shape storage *)

Fixpoint sizes_ok (ds : list dimty) (dims : list Z) : bool :=
  match ds, dims with
  | [], [] => true
  | d :: dt, n :: nt => (match d with DConst c => n =? c | DDyn => true end) && sizes_ok dt nt
  | _, _ => false
  end.

Definition accepts (ty : shty) (dims : list Z) : bool :=
  match ty with SDynRank => true | STuple ds => sizes_ok ds dims end.

Lemma accepts_typed ty dims : accepts ty dims = true <-> typed ty dims.
Proof.
  destruct ty as [|ds]; simpl; [tauto|].
  revert dims. induction ds as [|d ds IH]; intros [|n dims]; simpl; split; intros H;
    try discriminate; try constructor; try (now inversion H).
  - apply andb_true_iff in H as [H1 H2]. destruct d; simpl; auto; lia.
  - apply andb_true_iff in H as [H1 H2]. now apply IH.
  - inversion H; subst. apply andb_true_iff. split; [|now apply IH].
    destruct d; simpl in *; auto; lia.
Qed.

Lemma accepts_false_typed ty dims : accepts ty dims = false <-> ~ typed ty dims.
Proof. rewrite <- accepts_typed. destruct (accepts ty dims); split; congruence. Qed.

Lemma from_sizes_spec ds dims :
  length ds = length dims -> from_sizes ds dims = if sizes_ok ds dims then Ok tt else Panic.
Proof.
  revert dims. induction ds as [|d ds IH]; intros [|n dims] H; simpl in *; try lia; auto.
  destruct d; simpl.
  - destruct (n =? n0); simpl; auto.
  - apply IH. lia.
Qed.

Lemma sizes_ok_length ds dims : sizes_ok ds dims = true -> length ds = length dims.
Proof.
  revert dims. induction ds; intros [|n dims]; simpl; intros H; try discriminate; auto.
  apply andb_true_iff in H as [_ H]. f_equal. auto.
Qed.

Lemma sh_build_spec ty k dims :
  k = length dims ->
  (let* _ := sh_new ty k in sh_store ty dims) = if accepts ty dims then Ok dims else Panic.
Proof.
  intros ->. destruct ty as [|ds]; simpl; auto.
  destruct (Nat.eqb_spec (length dims) (length ds)) as [E|E]; simpl.
  - rewrite from_sizes_spec by lia. destruct (sizes_ok ds dims); auto.
  - destruct (sizes_ok ds dims) eqn:S; auto. apply sizes_ok_length in S. lia.
Qed.

Lemma sh_from_dims_spec ty dims :
  sh_from_dims ty dims = if accepts ty dims then Ok dims else Panic.
Proof. unfold sh_from_dims. now apply sh_build_spec. Qed.

Lemma sh_prepend_dim_spec ty dims n :
  sh_prepend_dim ty dims n = if accepts ty (n :: dims) then Ok (n :: dims) else Panic.
Proof. unfold sh_prepend_dim. apply sh_build_spec. simpl. lia. Qed.

Lemma sh_remove_dim_spec ty dims i :
  (i < length dims)%nat ->
  sh_remove_dim ty dims i = if accepts ty (remove_at i dims) then Ok (remove_at i dims) else Panic.
Proof.
  intros H. unfold sh_remove_dim. rewrite assert_true by (apply Nat.ltb_lt; lia). simpl bind at 1.
  replace (i + 1)%nat with (S i) by lia.
  apply sh_build_spec. fold (remove_at i dims). rewrite remove_at_length; lia.
Qed.

Lemma sh_resize_dim_spec ty dims i n :
  (i < length dims)%nat ->
  sh_resize_dim ty dims i n = if accepts ty (upd dims i n) then Ok (upd dims i n) else Panic.
Proof.
  intros H. unfold sh_resize_dim. rewrite assert_true by (apply Nat.ltb_lt; lia). simpl bind at 1.
  apply sh_build_spec. now rewrite upd_length.
Qed.

Lemma sh_reverse_dims_spec ty dims :
  sh_reverse_dims ty dims = if accepts ty (rev dims) then Ok (rev dims) else Panic.
Proof. unfold sh_reverse_dims. apply sh_build_spec. now rewrite rev_length. Qed.

Lemma dims_new_spec ty dims n :
  accepts ty dims = true -> length dims = n -> dims_new ty n = Ok (repeat 0 n).
Proof.
  intros H <-. destruct ty; simpl in *; auto. apply sizes_ok_length in H.
  rewrite assert_true by (apply Nat.eqb_eq; lia). reflexivity.
Qed.

Lemma dims_new_cases ty n : dims_new ty n = Ok (repeat 0 n) \/ dims_new ty n = Panic.
Proof. destruct ty; simpl; auto. destruct (n =? length ds)%nat; simpl; auto. Qed.

Lemma dims_new_ok_inv ty n s : dims_new ty n = Ok s -> s = repeat 0 n.
Proof. destruct (dims_new_cases ty n) as [->| ->]; congruence. Qed.

(** ** for_each_stride *)

Definition canon_calls (strides : list Z) : list (nat * Z) :=
  map (fun i => (i, nth i strides 0)) (seq 0 (length strides)).

Lemma dense_calls_spec n dims s :
  (n <= length dims)%nat ->
  dense_calls n dims s
  = rev (map (fun i => (i, s * prodZ (skipn (S i) (firstn n dims)))) (seq 0 n)).
Proof.
  revert s. induction n; intros s H; [reflexivity|].
  cbn [dense_calls]. rewrite IHn by lia.
  rewrite seq_S, map_app, rev_app_distr. cbn [map rev app plus].
  f_equal.
  - f_equal. rewrite skipn_all2 by (rewrite firstn_length; lia). cbn. lia.
  - f_equal. apply map_ext_in. intros i Hi. apply in_seq in Hi. f_equal.
    assert (E : firstn (S n) dims = firstn n dims ++ [nth n dims 0]).
    { clear - H. revert n H. induction dims; intros [|n] H; simpl in *; try lia; auto.
      f_equal. apply IHdims. lia. }
    rewrite E, skipn_app, prodZ_app.
    replace (S i - length (firstn n dims))%nat with 0%nat by (rewrite firstn_length; lia).
    cbn [skipn]. rewrite prodZ_cons. change (prodZ []) with 1. lia.
Qed.

Lemma for_each_stride_perm m :
  length (m_strides m) = length (m_dims m) ->
  Permutation (for_each_stride m) (canon_calls (m_strides m)).
Proof.
  destruct m as [ty dims|ty dims strides]; simpl; intros HL.
  - rewrite dense_calls_spec by lia. rewrite firstn_all.
    eapply Permutation_trans; [symmetry; apply Permutation_rev|].
    unfold canon_calls. rewrite row_major_length.
    erewrite map_ext_in; [apply Permutation_refl|]. intros i Hi. apply in_seq in Hi. cbv beta.
    rewrite nth_row_major by lia. rewrite Z.mul_1_l. reflexivity.
  - unfold canon_calls. rewrite HL. apply Permutation_refl.
Qed.

Lemma fold_add_sum {A} (f : A -> Z) l a :
  fold_left (fun o c => o + f c) l a = a + sumZ (map f l).
Proof. revert a. induction l; intros b; simpl; [lia|]. rewrite IHl. lia. Qed.

Theorem m_offset_dot m idx :
  length (m_strides m) = length (m_dims m) -> length idx = length (m_dims m) ->
  m_offset m idx = dot (m_strides m) idx.
Proof.
  intros HL HI. unfold m_offset.
  rewrite (fold_add_sum (fun c => snd c * nth (fst c) idx 0)).
  rewrite (sumZ_perm (Permutation_map _ (for_each_stride_perm m HL))).
  unfold canon_calls. rewrite map_map. simpl. rewrite dot_sum by lia. reflexivity.
Qed.

Lemma store_length init g calls : length (store_strides init g calls) = length init.
Proof.
  unfold store_strides. revert init. induction calls; intros init; simpl; auto.
  rewrite IHcalls. apply upd_length.
Qed.

Lemma store_other init g calls p :
  (forall c, In c calls -> g (fst c) <> p) ->
  nth p (store_strides init g calls) 0 = nth p init 0.
Proof.
  unfold store_strides. revert init. induction calls; intros init H; simpl; auto.
  rewrite IHcalls by (intros; apply H; now right).
  apply upd_nth_other. apply H. now left.
Qed.

Lemma store_same init g calls c :
  NoDup (map (fun c => g (fst c)) calls) ->
  (forall c, In c calls -> (g (fst c) < length init)%nat) ->
  In c calls -> nth (g (fst c)) (store_strides init g calls) 0 = snd c.
Proof.
  revert init. induction calls as [|a calls IH]; intros init HN HB HI; [destruct HI|].
  simpl in HN. inversion HN; subst. cbn [store_strides fold_left].
  change (fold_left _ calls (upd init (g (fst a)) (snd a)))
    with (store_strides (upd init (g (fst a)) (snd a)) g calls).
  destruct HI as [->|HI].
  - rewrite store_other.
    + apply upd_nth_same. apply HB. now left.
    + intros x Hx E. apply H1. rewrite <- E. now apply (in_map (fun c => g (fst c))).
  - apply IH; auto. intros. rewrite upd_length. apply HB. now right.
Qed.

Lemma in_canon s i st : In (i, st) (canon_calls s) <-> (i < length s)%nat /\ st = nth i s 0.
Proof.
  unfold canon_calls. rewrite in_map_iff. split.
  - intros (k & E & H). injection E as -> <-. apply in_seq in H. split; [lia|reflexivity].
  - intros [H ->]. exists i. split; auto. apply in_seq. lia.
Qed.

Lemma in_calls m i st :
  length (m_strides m) = length (m_dims m) ->
  (In (i, st) (for_each_stride m) <-> (i < length (m_dims m))%nat /\ st = nth i (m_strides m) 0).
Proof.
  intros HL. rewrite <- HL, <- in_canon. split; apply Permutation_in.
  - now apply for_each_stride_perm.
  - symmetry. now apply for_each_stride_perm.
Qed.

Lemma NoDup_map_perm {A B} (f : A -> B) l l' :
  Permutation l l' -> NoDup (map f l) -> NoDup (map f l').
Proof. intros HP. apply Permutation_NoDup. now apply Permutation_map. Qed.

(** Storing through an injective position map. *)
Lemma store_calls_spec m init g n :
  length (m_strides m) = length (m_dims m) ->
  length init = n ->
  (forall i j, (i < length (m_dims m))%nat -> (j < length (m_dims m))%nat -> g i = g j -> i = j) ->
  (forall i, (i < length (m_dims m))%nat -> (g i < n)%nat) ->
  forall i, (i < length (m_dims m))%nat ->
  nth (g i) (store_strides init g (for_each_stride m)) 0 = nth i (m_strides m) 0.
Proof.
  intros HL HN Hinj Hb i Hi.
  change (g i) with (g (fst (i, nth i (m_strides m) 0))).
  rewrite store_same with (c := (i, nth i (m_strides m) 0)); auto.
  - eapply NoDup_map_perm; [symmetry; now apply for_each_stride_perm|].
    unfold canon_calls. rewrite map_map. cbn [fst]. rewrite HL.
    assert (G : forall l, NoDup l -> (forall x, In x l -> (x < length (m_dims m))%nat) -> NoDup (map g l)).
    { induction l; intros HND HB; simpl; constructor; inversion HND; subst.
      - rewrite in_map_iff. intros (x & E & Hx). apply Hinj in E; subst; auto; apply HB; simpl; auto.
      - apply IHl; auto. intros; apply HB; now right. }
    apply G; [apply seq_NoDup|]. intros x Hx. apply in_seq in Hx. lia.
  - intros [j st] Hc. apply in_calls in Hc; auto. rewrite HN. apply Hb. tauto.
  - apply in_calls; auto.
Qed.

Lemma store_id m :
  length (m_strides m) = length (m_dims m) ->
  store_strides (repeat 0 (length (m_dims m))) (fun i => i) (for_each_stride m) = m_strides m.
Proof.
  intros HL. apply list_ext with (d := 0); rewrite store_length, repeat_length; auto.
  intros i Hi.
  apply (store_calls_spec m (repeat 0 (length (m_dims m))) (fun i => i) (n := length (m_dims m))); auto.
  now rewrite repeat_length.
Qed.

(** ** stride and dim *)

Lemma m_dim_ok m i : (i < m_rank m)%nat -> m_dim m i = Ok (nth i (m_dims m) 0).
Proof.
  intros H. unfold m_dim, sh_dim, m_rank in *. rewrite assert_true by (apply Nat.ltb_lt; lia). simpl.
  unfold get_nth. rewrite nth_error_nth' with (d := 0) by lia. reflexivity.
Qed.

Lemma m_dim_panic m i : (m_rank m <= i)%nat -> m_dim m i = Panic.
Proof.
  intros H. unfold m_dim, sh_dim, m_rank in *. rewrite assert_false by (apply Nat.ltb_ge; lia). reflexivity.
Qed.

Lemma m_stride_ok m i :
  length (m_strides m) = length (m_dims m) ->
  (i < m_rank m)%nat -> m_stride m i = Ok (nth i (m_strides m) 0).
Proof.
  intros HL H. unfold m_rank in H. destruct m as [ty dims|ty dims strides]; simpl in *;
    rewrite assert_true by (apply Nat.ltb_lt; lia); simpl.
  - f_equal. rewrite fold_mul_prod, nth_row_major by lia. rewrite Nat.add_1_r. lia.
  - unfold get_nth. rewrite nth_error_nth' with (d := 0) by lia. reflexivity.
Qed.

(** ** linear_offset *)

Lemma unflat_snoc ds d k :
  nonneg (ds ++ [d]) -> 0 <= k < prodZ (ds ++ [d]) ->
  unflat (ds ++ [d]) k = unflat ds (k / d) ++ [k mod d].
Proof.
  intros Hn Hk. pose proof Hn as Hn'. apply nonneg_app in Hn' as [Hn1 Hn2].
  inversion Hn2; subst. rewrite prodZ_app in Hk. rewrite prodZ_cons in Hk. change (prodZ []) with 1 in Hk.
  assert (0 <= prodZ ds) by now apply prodZ_nonneg.
  assert (0 < d) by nia.
  assert (0 <= k / d < prodZ ds).
  { split; [apply Z.div_pos; lia|]. apply Z.div_lt_upper_bound; lia. }
  pose proof (Z.mod_pos_bound k d ltac:(lia)).
  assert (E : flat (ds ++ [d]) (unflat ds (k / d) ++ [k mod d]) = k).
  { rewrite flat_app by apply unflat_length. rewrite flat_unflat by auto. simpl.
    pose proof (Z.div_mod k d). lia. }
  rewrite <- E at 1. apply unflat_flat.
  apply in_bounds_app; [apply unflat_length|]. split.
  - now apply unflat_in_bounds.
  - constructor; [lia|constructor].
Qed.

Lemma firstn_snoc {A} n (l : list A) d :
  (n < length l)%nat -> firstn (S n) l = firstn n l ++ [nth n l d].
Proof.
  revert n. induction l; intros [|n] H; simpl in *; try lia; auto. f_equal. apply IHl. lia.
Qed.

Lemma linear_loop_spec n dims strides k off :
  nonneg dims -> length strides = length dims -> (n <= length dims)%nat ->
  0 <= k < prodZ (firstn n dims) ->
  linear_loop n dims strides k off = off + dot (firstn n strides) (unflat (firstn n dims) k).
Proof.
  intros Hn HL. revert k off. induction n; intros k off Hle Hk.
  - simpl. lia.
  - cbn [linear_loop].
    assert (E : firstn (S n) dims = firstn n dims ++ [nth n dims 0]) by (apply firstn_snoc; lia).
    assert (Es : firstn (S n) strides = firstn n strides ++ [nth n strides 0]) by (apply firstn_snoc; lia).
    assert (Hnn : nonneg (firstn (S n) dims)) by now apply nonneg_firstn.
    rewrite Es. rewrite E in *. rewrite unflat_snoc by auto.
    rewrite dot_app by (rewrite unflat_length, !firstn_length; lia). cbn [dot].
    rewrite prodZ_app, prodZ_cons in Hk. change (prodZ []) with 1 in Hk.
    apply nonneg_app in Hnn as [Hnn1 Hnn2]. inversion Hnn2; subst.
    assert (0 <= prodZ (firstn n dims)) by now apply prodZ_nonneg.
    rewrite IHn; try lia.
    split; [apply Z.div_pos; nia|]. apply Z.div_lt_upper_bound; nia.
Qed.

Theorem m_linear_offset_spec m k :
  wf_map m -> 0 <= k < m_len m ->
  m_linear_offset m k = m_offset m (unflat (m_dims m) k).
Proof.
  intros Hw Hk. unfold m_len in Hk. rewrite sh_len_prod in Hk.
  rewrite m_offset_dot by (try apply (wf_strides Hw); now rewrite unflat_length).
  destruct m as [ty dims|ty dims strides]; simpl in *.
  - rewrite dot_row_major by apply unflat_length. rewrite flat_unflat; auto. apply (wf_nonneg Hw).
  - pose proof (wf_nonneg Hw) as H1. pose proof (wf_strides Hw) as H2. simpl in *.
    rewrite linear_loop_spec; auto.
    + rewrite !firstn_all2 by lia. lia.
    + rewrite firstn_all2 by lia. auto.
Qed.

(** ** Element access *)

Lemma index_in_bounds_spec idx dims :
  length idx = length dims -> Forall (fun i => 0 <= i) idx ->
  (index_in_bounds idx dims = Ok tt /\ in_bounds dims idx) \/
  (index_in_bounds idx dims = Panic /\ ~ in_bounds dims idx).
Proof.
  revert dims. induction idx as [|i idx IH]; intros [|d dims] HL HF; simpl in *; try lia.
  - left. split; [reflexivity|constructor].
  - inversion HF; subst. destruct (IH dims ltac:(lia) H2) as [[E B]|[E B]].
    + destruct (i >=? d) eqn:C; simpl.
      * right. split; [reflexivity|]. rewrite in_bounds_cons. lia.
      * left. split; [exact E|]. apply in_bounds_cons. split; [lia|auto].
    + right. destruct (i >=? d) eqn:C; simpl; (split; [auto|]); rewrite in_bounds_cons; tauto.
Qed.

(** Contiguity. *)
Lemma contiguous_loop_spec n dims strides s :
  (n <= length dims)%nat -> length strides = length dims ->
  contiguous_loop n dims strides s = true <->
  (forall i, (i < n)%nat -> nth i strides 0 = s * prodZ (skipn (S i) (firstn n dims))).
Proof.
  intros Hle HL. revert s. induction n; intros s.
  - simpl. split; auto. intros _ i Hi. lia.
  - cbn [contiguous_loop].
    assert (E : firstn (S n) dims = firstn n dims ++ [nth n dims 0]) by (apply firstn_snoc; lia).
    assert (P : forall i, (i < n)%nat ->
      s * prodZ (skipn (S i) (firstn (S n) dims)) = s * nth n dims 0 * prodZ (skipn (S i) (firstn n dims))).
    { intros i Hi. rewrite E, skipn_app, prodZ_app.
      replace (S i - length (firstn n dims))%nat with 0%nat by (rewrite firstn_length; lia).
      cbn [skipn]. rewrite prodZ_cons. change (prodZ []) with 1. lia. }
    assert (Pn : prodZ (skipn (S n) (firstn (S n) dims)) = 1).
    { rewrite skipn_all2 by (rewrite firstn_length; lia). reflexivity. }
    destruct (Z.eqb_spec (nth n strides 0) s) as [En|En]; cbn [negb].
    + rewrite IHn by lia. split; intros H i Hi.
      * destruct (Nat.eq_dec i n) as [->|]; [rewrite Pn; lia|]. rewrite P by lia. apply H. lia.
      * rewrite <- P by lia. apply H. lia.
    + split; [discriminate|]. intros H. exfalso. apply En. rewrite (H n) by lia. rewrite Pn. lia.
Qed.

Theorem is_contiguous_iff m :
  wf_map m -> (is_contiguous m = true <-> m_strides m = row_major (m_dims m)).
Proof.
  intros Hw. destruct m as [ty dims|ty dims strides]; simpl; [tauto|].
  pose proof (wf_strides Hw) as HL. simpl in HL.
  rewrite contiguous_loop_spec by lia. rewrite firstn_all. split; intros H.
  - apply list_ext with (d := 0); [rewrite row_major_length; auto|].
    intros i Hi. rewrite H by lia. rewrite nth_row_major by lia. lia.
  - intros i Hi. rewrite H, nth_row_major by lia. lia.
Qed.
