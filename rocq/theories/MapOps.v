(** What each mapping operation returns. *)
From Verif Require Import Base Spec SpecFacts Shape Mapping Index View Wf MappingFacts.

Lemma list_ext0 (l1 l2 : list Z) :
  length l1 = length l2 ->
  (forall i, (i < length l1)%nat -> nth i l1 0 = nth i l2 0) -> l1 = l2.
Proof. intros. now apply list_ext with (d := 0). Qed.

Lemma typed_length ty dims k : typed ty dims -> sh_rank ty = Some k -> length dims = k.
Proof. destruct ty as [|ds]; simpl; [discriminate|]. intros H [= <-]. symmetry. eapply Forall2_len; eauto. Qed.

Lemma m_remap_strided ty m :
  length (m_strides m) = length (m_dims m) ->
  m_remap Strided ty m =
  if accepts ty (m_dims m) then Ok (StridedM ty (m_dims m) (m_strides m)) else Panic.
Proof.
  intros HL. cbn [m_remap]. rewrite sh_from_dims_spec. unfold m_rank.
  destruct (accepts ty (m_dims m)) eqn:A.
  - rewrite (dims_new_spec _ _ A eq_refl). cbn [bind]. now rewrite store_id.
  - destruct (dims_new_cases ty (length (m_dims m))) as [->| ->]; reflexivity.
Qed.

Lemma m_remap_dense ty m :
  m_remap Dense ty m =
  if is_contiguous m && accepts ty (m_dims m) then Ok (DenseM ty (m_dims m)) else Panic.
Proof.
  cbn [m_remap]. rewrite sh_from_dims_spec.
  destruct (is_contiguous m), (accepts ty (m_dims m)); reflexivity.
Qed.

Lemma nth_repeat0 n i : nth i (repeat 0 n) 0 = 0.
Proof. revert i. induction n; intros [|i]; simpl; auto. Qed.

Lemma m_prepend_strided ty m n s :
  length (m_strides m) = length (m_dims m) ->
  m_prepend_dim Strided ty m n s =
  if accepts ty (n :: m_dims m) then Ok (StridedM ty (n :: m_dims m) (s :: m_strides m)) else Panic.
Proof.
  intros HL. cbn [m_prepend_dim]. rewrite sh_prepend_dim_spec. unfold m_rank.
  destruct (accepts ty (n :: m_dims m)) eqn:A.
  - rewrite (dims_new_spec ty (n :: m_dims m) A) by (simpl; lia). cbn [bind].
    do 2 f_equal. apply list_ext0.
    + rewrite store_length, upd_length, repeat_length. simpl. lia.
    + intros i Hi. rewrite store_length, upd_length, repeat_length in Hi.
      destruct i as [|i].
      * rewrite store_other.
        -- rewrite upd_nth_same; [reflexivity|]. rewrite repeat_length. lia.
        -- intros; lia.
      * replace (S i) with (i + 1)%nat at 1 by lia. cbn [nth].
        apply (store_calls_spec m _ (fun i => i + 1)%nat (n := (length (m_dims m) + 1)%nat)); auto.
        -- now rewrite upd_length, repeat_length.
        -- intros; lia.
        -- intros; lia.
        -- lia.
  - destruct (dims_new_cases ty (length (m_dims m) + 1)) as [->| ->]; reflexivity.
Qed.

Lemma m_prepend_dense ty m n s :
  m_prepend_dim Dense ty m n s =
  if is_dense (m_layout m) && (s =? prodZ (m_dims m)) && accepts ty (n :: m_dims m)
  then Ok (DenseM ty (n :: m_dims m)) else Panic.
Proof.
  cbn [m_prepend_dim]. rewrite sh_prepend_dim_spec. unfold m_len. rewrite sh_len_prod.
  destruct (is_dense (m_layout m)), (s =? prodZ (m_dims m)), (accepts ty (n :: m_dims m)); reflexivity.
Qed.

Lemma nth_remove_at i k (l : list Z) :
  (k < length l)%nat ->
  nth i (remove_at k l) 0 = if (i <? k)%nat then nth i l 0 else nth (S i) l 0.
Proof.
  intros Hk. unfold remove_at. destruct (Nat.ltb_spec i k).
  - rewrite app_nth1 by (rewrite firstn_length; lia).
    revert i k Hk H. induction l; intros i [|k] Hk H; simpl in *; try lia.
    destruct i; simpl; auto. apply IHl; lia.
  - rewrite app_nth2 by (rewrite firstn_length; lia). rewrite firstn_length.
    replace (Nat.min k (length l)) with k by lia.
    rewrite <- (firstn_skipn (S k) l) at 2.
    rewrite app_nth2 by (rewrite firstn_length; lia). rewrite firstn_length.
    f_equal. lia.
Qed.

Lemma remove_store init idx calls :
  fold_left (fun acc c =>
     if (fst c <? idx)%nat then upd acc (fst c) (snd c)
     else if (idx <? fst c)%nat then upd acc (fst c - 1) (snd c)
     else acc) calls init
  = store_strides init (fun i => if (i <? idx)%nat then i else (i - 1)%nat)
      (filter (fun c => negb (fst c =? idx)%nat) calls).
Proof.
  unfold store_strides. revert init. induction calls as [|c calls IH]; intros init; simpl; auto.
  rewrite IH. destruct (Nat.eqb_spec (fst c) idx) as [E|E]; simpl.
  - destruct (Nat.ltb_spec (fst c) idx); [lia|]. destruct (Nat.ltb_spec idx (fst c)); [lia|]. reflexivity.
  - destruct (Nat.ltb_spec (fst c) idx); [reflexivity|].
    destruct (Nat.ltb_spec idx (fst c)); [reflexivity|lia].
Qed.

Lemma NoDup_filter_map {A B} (f : A -> B) (p : A -> bool) l :
  (forall x y, In x l -> In y l -> p x = true -> p y = true -> f x = f y -> x = y) ->
  NoDup l -> NoDup (map f (filter p l)).
Proof.
  intros Hi Hn. induction Hn as [|x l Hx Hn IH]; simpl; [constructor|].
  assert (IH' : NoDup (map f (filter p l))) by (apply IH; intros; apply Hi; simpl; auto).
  destruct (p x) eqn:P; simpl; auto. constructor; auto.
  rewrite in_map_iff. intros (y & E & Hy). apply filter_In in Hy as [Hy Py].
  apply Hi in E; simpl; auto. subst. auto.
Qed.

Lemma calls_NoDup m : length (m_strides m) = length (m_dims m) -> NoDup (for_each_stride m).
Proof.
  intros HL. eapply Permutation_NoDup; [symmetry; now apply for_each_stride_perm|].
  unfold canon_calls. apply NoDup_map_inv with (f := fst). rewrite map_map. simpl.
  rewrite map_id. apply seq_NoDup.
Qed.

Lemma m_remove_strided ty m k :
  length (m_strides m) = length (m_dims m) -> (k < m_rank m)%nat ->
  m_remove_dim Strided ty m k =
  if accepts ty (remove_at k (m_dims m))
  then Ok (StridedM ty (remove_at k (m_dims m)) (remove_at k (m_strides m))) else Panic.
Proof.
  intros HL Hk. unfold m_rank in Hk. cbn [m_remove_dim]. unfold m_rank.
  rewrite assert_true by (apply Nat.ltb_lt; lia). cbn [bind].
  rewrite sh_remove_dim_spec by lia.
  assert (HRd : length (remove_at k (m_dims m)) = (length (m_dims m) - 1)%nat) by (apply remove_at_length; lia).
  assert (HRs : length (remove_at k (m_strides m)) = (length (m_dims m) - 1)%nat)
    by (rewrite remove_at_length by lia; lia).
  destruct (accepts ty (remove_at k (m_dims m))) eqn:A.
  - rewrite (dims_new_spec _ _ A HRd). cbn [bind]. rewrite remove_store.
    do 2 f_equal. apply list_ext0.
    + rewrite store_length, repeat_length. lia.
    + intros i Hi. rewrite store_length, repeat_length in Hi.
      rewrite nth_remove_at by lia.
      set (g := fun i => if (i <? k)%nat then i else (i - 1)%nat).
      set (src := if (i <? k)%nat then i else S i).
      assert (Eg : g src = i).
      { unfold g, src. destruct (Nat.ltb_spec i k) as [H|H].
        - destruct (Nat.ltb_spec i k); lia.
        - destruct (Nat.ltb_spec (S i) k); lia. }
      assert (Es : (if (i <? k)%nat then nth i (m_strides m) 0 else nth (S i) (m_strides m) 0)
                   = nth src (m_strides m) 0) by (unfold src; destruct (i <? k)%nat; reflexivity).
      rewrite Es. rewrite <- Eg at 1.
      change (g src) with (g (fst (src, nth src (m_strides m) 0))).
      rewrite store_same with (c := (src, nth src (m_strides m) 0)); [reflexivity| | |].
      * apply NoDup_filter_map; [|now apply calls_NoDup].
        intros [a sa] [b sb] Ha Hb Pa Pb E. simpl in *.
        apply in_calls in Ha; auto. apply in_calls in Hb; auto.
        assert (a = b) as ->; [|destruct Ha as [_ ->], Hb as [_ ->]; auto].
        unfold g in E. destruct (Nat.ltb_spec a k), (Nat.ltb_spec b k),
          (Nat.eqb_spec a k), (Nat.eqb_spec b k); simpl in *; try discriminate; lia.
      * intros [a sa] Ha. apply filter_In in Ha as [Ha Pa]. apply in_calls in Ha; auto. simpl in *.
        rewrite repeat_length. unfold g. destruct (Nat.ltb_spec a k), (Nat.eqb_spec a k); simpl in *; try discriminate; lia.
      * apply filter_In. split.
        -- apply in_calls; auto. unfold src. split; auto. destruct (Nat.ltb_spec i k); lia.
        -- simpl. unfold src. destruct (Nat.ltb_spec i k); apply negb_true_iff; apply Nat.eqb_neq; lia.
  - destruct (dims_new_cases ty (length (m_dims m) - 1)) as [->| ->]; reflexivity.
Qed.

Lemma m_remove_dense ty m k :
  (0 < m_rank m)%nat ->
  m_remove_dim Dense ty m k =
  if is_dense (m_layout m) && (k =? 0)%nat && accepts ty (remove_at 0 (m_dims m))
  then Ok (DenseM ty (remove_at 0 (m_dims m))) else Panic.
Proof.
  intros Hr. unfold m_rank in Hr. cbn [m_remove_dim].
  destruct (is_dense (m_layout m)); [|reflexivity]. cbn [assert bind andb].
  destruct (Nat.eqb_spec k 0) as [->|]; [|reflexivity]. cbn [assert bind andb].
  rewrite sh_remove_dim_spec by lia.
  destruct (accepts ty (remove_at 0 (m_dims m))); reflexivity.
Qed.

Lemma m_resize_strided ty m k n :
  length (m_strides m) = length (m_dims m) -> (k < m_rank m)%nat ->
  m_resize_dim Strided ty m k n =
  if accepts ty (upd (m_dims m) k n) then Ok (StridedM ty (upd (m_dims m) k n) (m_strides m)) else Panic.
Proof.
  intros HL Hk. unfold m_rank in Hk. cbn [m_resize_dim]. unfold m_rank.
  rewrite sh_resize_dim_spec by lia.
  destruct (accepts ty (upd (m_dims m) k n)) eqn:A.
  - rewrite (dims_new_spec _ _ A) by (now rewrite upd_length). cbn [bind]. now rewrite store_id.
  - destruct (dims_new_cases ty (length (m_dims m))) as [->| ->]; reflexivity.
Qed.

Lemma m_resize_dense ty m k n :
  (0 < m_rank m)%nat ->
  m_resize_dim Dense ty m k n =
  if is_dense (m_layout m) && (k =? 0)%nat && accepts ty (upd (m_dims m) 0 n)
  then Ok (DenseM ty (upd (m_dims m) 0 n)) else Panic.
Proof.
  intros Hr. unfold m_rank in Hr. cbn [m_resize_dim].
  destruct (is_dense (m_layout m)); [|reflexivity]. cbn [assert bind andb].
  destruct (Nat.eqb_spec k 0) as [->|]; [|reflexivity]. cbn [assert bind andb].
  rewrite sh_resize_dim_spec by lia.
  destruct (accepts ty (upd (m_dims m) 0 n)); reflexivity.
Qed.

Lemma m_reorder_strided m :
  length (m_strides m) = length (m_dims m) ->
  m_reorder Strided m =
  if accepts (sh_reverse (m_ty m)) (rev (m_dims m))
  then Ok (StridedM (sh_reverse (m_ty m)) (rev (m_dims m)) (rev (m_strides m))) else Panic.
Proof.
  intros HL. cbn [m_reorder]. rewrite sh_reverse_dims_spec. unfold m_rank.
  destruct (accepts (sh_reverse (m_ty m)) (rev (m_dims m))) eqn:A.
  - rewrite (dims_new_spec _ _ A) by (now rewrite rev_length). cbn [bind].
    do 2 f_equal. apply list_ext0.
    + rewrite store_length, repeat_length, rev_length. lia.
    + intros i Hi. rewrite store_length, repeat_length in Hi.
      rewrite rev_nth by lia.
      replace i with (length (m_dims m) - 1 - (length (m_dims m) - 1 - i))%nat at 1 by lia.
      erewrite (store_calls_spec m _ (fun i => length (m_dims m) - 1 - i)%nat (n := length (m_dims m))); auto.
      * f_equal. lia.
      * apply repeat_length.
      * intros; lia.
      * intros; lia.
      * lia.
  - destruct (dims_new_cases (sh_reverse (m_ty m)) (length (m_dims m))) as [->| ->]; reflexivity.
Qed.

(** ** permute *)

Lemma perm_is_identity_spec perm k :
  perm_is_identity k perm = true <-> perm = map Z.of_nat (seq k (length perm)).
Proof.
  revert k. induction perm as [|p ps IH]; intros k; simpl; [tauto|].
  rewrite andb_true_iff, IH. split.
  - intros [E ->]. rewrite map_length, seq_length. f_equal. lia.
  - intros [= -> E]. split; [lia|exact E].
Qed.

Lemma full_mask_spec n : (n < 64)%nat -> full_mask n = Z.ones (Z.of_nat n).
Proof.
  intros H. unfold full_mask, usize_max.
  replace (2 ^ 64 - 1) with (Z.ones 64) by reflexivity.
  rewrite <- (Z.land_ones _ 64) by lia.
  apply Z.bits_inj'. intros b Hb.
  rewrite Z.lxor_spec, Z.land_spec, Z.shiftl_spec by lia.
  destruct (Z.ltb_spec b 64) as [B|B].
  - rewrite (Z.ones_spec_low 64 b) by lia. rewrite andb_true_r.
    destruct (Z.ltb_spec b (Z.of_nat n)) as [C|C].
    + rewrite Z.testbit_neg_r by lia. rewrite Z.ones_spec_low by lia. reflexivity.
    + rewrite (Z.ones_spec_low 64 (b - _)) by lia. rewrite Z.ones_spec_high by lia. reflexivity.
  - rewrite (Z.ones_spec_high 64 b) by lia. rewrite andb_false_r.
    rewrite Z.ones_spec_high by lia. reflexivity.
Qed.

Lemma mask_loop_spec rank perm mask r :
  Forall (fun p => 0 <= p) perm ->
  mask_loop rank perm mask = Ok r ->
  Forall (fun p => p < Z.of_nat rank) perm /\
  (forall b, 0 <= b -> Z.testbit r b = Z.testbit mask b || existsb (Z.eqb b) perm).
Proof.
  revert mask. induction perm as [|p ps IH]; intros mask HF H; simpl in *.
  - injection H as ->. split; [constructor|]. intros. now rewrite orb_false_r.
  - inversion HF; subst. apply bind_ok in H as (u & A & H). apply assert_ok in A.
    destruct (IH _ H3 H) as [F T]. split; [constructor; auto; lia|].
    intros b Hb. rewrite T by lia. rewrite Z.lor_spec, Z.shiftl_spec by lia.
    rewrite <- orb_assoc. f_equal. f_equal.
    destruct (Z.eqb_spec b p) as [->|E].
    + rewrite Z.sub_diag. reflexivity.
    + change 1 with (2 ^ 0). destruct (Z.ltb_spec b p) as [L|L].
      * apply Z.testbit_neg_r. lia.
      * rewrite Z.pow2_bits_eqb by lia. apply Z.eqb_neq. lia.
Qed.

Lemma mask_loop_cases rank perm mask :
  (exists r, mask_loop rank perm mask = Ok r) \/ mask_loop rank perm mask = Panic.
Proof.
  revert mask. induction perm as [|p ps IH]; intros mask; simpl; [eauto|].
  destruct (p <? Z.of_nat rank); simpl; auto.
Qed.

Lemma mask_loop_ok rank perm mask :
  Forall (fun p => p < Z.of_nat rank) perm -> exists r, mask_loop rank perm mask = Ok r.
Proof.
  intros H. revert mask. induction H; intros mask; simpl; [eauto|].
  rewrite assert_true by lia. simpl. auto.
Qed.

Lemma incl_perm n perm :
  length perm = n -> (forall i, (i < n)%nat -> In (Z.of_nat i) perm) -> perm_of n perm.
Proof.
  intros HL H. unfold perm_of. symmetry.
  apply NoDup_Permutation_bis.
  - apply FinFun.Injective_map_NoDup; [intros a b E; lia|apply seq_NoDup].
  - rewrite map_length, seq_length. lia.
  - intros z Hz. apply in_map_iff in Hz as (i & <- & Hi). apply in_seq in Hi. apply H. lia.
Qed.

Lemma perm_of_in n perm p : perm_of n perm -> (In p perm <-> 0 <= p < Z.of_nat n).
Proof.
  intros H. split; intros Hp.
  - apply (Permutation_in _ H) in Hp. apply in_map_iff in Hp as (i & <- & Hi). apply in_seq in Hi. lia.
  - apply (Permutation_in _ (Permutation_sym H)). apply in_map_iff. exists (Z.to_nat p).
    split; [lia|]. apply in_seq. lia.
Qed.

Lemma perm_of_length n perm : perm_of n perm -> length perm = n.
Proof. intros H. rewrite (Permutation_length H), map_length, seq_length. reflexivity. Qed.

Lemma perm_of_NoDup n perm : perm_of n perm -> NoDup perm.
Proof.
  intros H. eapply Permutation_NoDup; [symmetry; exact H|].
  apply FinFun.Injective_map_NoDup; [intros a b E; lia|apply seq_NoDup].
Qed.

(** The mask test accepts exactly the permutations. *)
Lemma mask_test_spec rank perm :
  (rank < 64)%nat -> length perm = rank -> Forall (fun p => 0 <= p) perm ->
  (exists r, mask_loop rank perm 0 = Ok r /\ r = full_mask rank) <-> perm_of rank perm.
Proof.
  intros Hr HL HF. rewrite full_mask_spec by auto. split.
  - intros (r & E & ->). destruct (mask_loop_spec _ _ HF E) as [F T].
    apply incl_perm; auto. intros i Hi.
    specialize (T (Z.of_nat i) ltac:(lia)). rewrite Z.ones_spec_low in T by lia.
    rewrite Z.testbit_0_l in T. cbn [orb] in T. symmetry in T. apply existsb_exists in T as (x & Hx & E').
    apply Z.eqb_eq in E'. now subst.
  - intros HP. destruct (@mask_loop_ok rank perm 0) as [r E].
    { apply Forall_forall. intros p Hp. apply (perm_of_in p HP) in Hp. lia. }
    exists r. split; auto. destruct (mask_loop_spec _ _ HF E) as [F T].
    apply Z.bits_inj'. intros b Hb. rewrite T by lia. rewrite Z.testbit_0_l. cbn [orb].
    destruct (Z.ltb_spec b (Z.of_nat rank)) as [B|B].
    + rewrite Z.ones_spec_low by lia. apply existsb_exists. exists b. split; [|apply Z.eqb_refl].
      apply (perm_of_in b HP). lia.
    + rewrite Z.ones_spec_high by lia. apply not_true_iff_false. rewrite existsb_exists.
      intros (x & Hx & E'). apply Z.eqb_eq in E'. subst. apply (perm_of_in x HP) in Hx. lia.
Qed.

(** [fold_left upd] over positions. *)
Lemma fold_upd_length {A} (f : nat -> nat) (h : nat -> A) l (init : list A) :
  length (fold_left (fun acc i => upd acc (f i) (h i)) l init) = length init.
Proof. revert init. induction l; intros; simpl; auto. rewrite IHl. apply upd_length. Qed.

Lemma fold_upd_other (f : nat -> nat) (h : nat -> Z) l init p :
  (forall i, In i l -> f i <> p) ->
  nth p (fold_left (fun acc i => upd acc (f i) (h i)) l init) 0 = nth p init 0.
Proof.
  revert init. induction l; intros init H; simpl; auto.
  rewrite IHl by (intros; apply H; now right). apply upd_nth_other. apply H. now left.
Qed.

Lemma fold_upd_same (f : nat -> nat) (h : nat -> Z) l init i :
  NoDup (map f l) -> (forall i, In i l -> (f i < length init)%nat) -> In i l ->
  nth (f i) (fold_left (fun acc i => upd acc (f i) (h i)) l init) 0 = h i.
Proof.
  revert init. induction l as [|a l IH]; intros init HN HB HI; [destruct HI|].
  simpl in *. inversion HN; subst. destruct HI as [->|HI].
  - rewrite fold_upd_other.
    + apply upd_nth_same. apply HB. now left.
    + intros j Hj E. apply H1. rewrite <- E. now apply in_map.
  - apply IH; auto. intros. rewrite upd_length. apply HB. now right.
Qed.

Lemma nth_map_seq (h : nat -> Z) n i : (i < n)%nat -> nth i (map h (seq 0 n)) 0 = h i.
Proof.
  intros Hi. rewrite nth_indep with (d' := h 0%nat) by (rewrite map_length, seq_length; lia).
  rewrite map_nth, seq_nth by lia. reflexivity.
Qed.

Lemma fold_upd_id (h : nat -> Z) n init :
  length init = n ->
  fold_left (fun acc i => upd acc i (h i)) (seq 0 n) init = map h (seq 0 n).
Proof.
  intros HL. apply list_ext0.
  - rewrite (fold_upd_length (fun i => i)), map_length, seq_length. exact HL.
  - intros i Hi. rewrite (fold_upd_length (fun i => i)) in Hi.
    rewrite (fold_upd_same (fun i => i) h).
    + rewrite nth_indep with (d' := h 0%nat) by (rewrite map_length, seq_length; lia).
      rewrite map_nth, seq_nth by lia. reflexivity.
    + rewrite map_id. apply seq_NoDup.
    + intros j Hj. apply in_seq in Hj. lia.
    + apply in_seq. lia.
Qed.

Lemma pick_length perm l : length (pick perm l) = length perm.
Proof. apply map_length. Qed.

Lemma nth_pick perm l i : (i < length perm)%nat -> nth i (pick perm l) 0 = nth (Z.to_nat (nth i perm 0)) l 0.
Proof.
  intros H. unfold pick.
  rewrite nth_indep with (d' := (fun p => nth (Z.to_nat p) l 0) 0) by (rewrite map_length; lia).
  rewrite (map_nth (fun p => nth (Z.to_nat p) l 0)). reflexivity.
Qed.

Lemma perm_of_nth_bound n perm i :
  perm_of n perm -> (i < n)%nat -> (Z.to_nat (nth i perm 0%Z) < n)%nat /\ 0 <= nth i perm 0.
Proof.
  intros HP Hi. assert (HI : In (nth i perm 0) perm) by (apply nth_In; rewrite (perm_of_length HP); lia).
  apply (perm_of_in _ HP) in HI. lia.
Qed.

Lemma perm_of_nth_inj n perm i j :
  perm_of n perm -> (i < n)%nat -> (j < n)%nat -> nth i perm 0 = nth j perm 0 -> i = j.
Proof.
  intros HP Hi Hj E. pose proof (perm_of_NoDup HP) as HN. rewrite NoDup_nth in HN.
  apply HN in E; auto; rewrite (perm_of_length HP); auto.
Qed.

Lemma perm_of_surj n perm k :
  perm_of n perm -> (k < n)%nat -> exists i, (i < n)%nat /\ nth i perm 0 = Z.of_nat k.
Proof.
  intros HP Hk. assert (HI : In (Z.of_nat k) perm) by (apply (perm_of_in _ HP); lia).
  apply In_nth with (d := 0) in HI as (i & Hi & E). rewrite (perm_of_length HP) in Hi. eauto.
Qed.

Lemma NoDup_map_seq (f : nat -> nat) n :
  (forall i j, (i < n)%nat -> (j < n)%nat -> f i = f j -> i = j) -> NoDup (map f (seq 0 n)).
Proof.
  intros H. rewrite <- (map_id (seq 0 n)) at 1. rewrite map_id.
  assert (G : forall l, NoDup l -> (forall x, In x l -> (x < n)%nat) -> NoDup (map f l)).
  { induction l; intros HND HB; simpl; constructor; inversion HND; subst.
    - rewrite in_map_iff. intros (x & E & Hx). apply H in E; subst; auto; apply HB; simpl; auto.
    - apply IHl; auto. intros; apply HB; now right. }
  apply G; [apply seq_NoDup|]. intros x Hx. apply in_seq in Hx. lia.
Qed.

Theorem m_permute_strided ty m perm :
  length (m_strides m) = length (m_dims m) -> (m_rank m < 64)%nat ->
  perm_of (m_rank m) perm ->
  m_permute Strided ty m perm =
  if accepts ty (pick perm (m_dims m))
  then Ok (StridedM ty (pick perm (m_dims m)) (pick perm (m_strides m))) else Panic.
Proof.
  intros HL Hr HP. unfold m_permute. unfold m_rank in *. set (n := length (m_dims m)) in *.
  pose proof (perm_of_length HP) as HLp.
  rewrite assert_true by (apply Nat.eqb_eq; lia). cbn [bind].
  assert (HF : Forall (fun p => 0 <= p) perm).
  { apply Forall_forall. intros p Hp. apply (perm_of_in p HP) in Hp. lia. }
  destruct (proj2 (mask_test_spec Hr HLp HF) HP) as (r & -> & Er). cbn [bind].
  rewrite assert_true by (apply Nat.ltb_lt; lia). cbn [bind].
  rewrite assert_true by (apply Z.eqb_eq; exact Er). cbn [bind].
  assert (HPL : length (pick perm (m_dims m)) = n) by (rewrite pick_length; lia).
  set (inv0 := fun init => fold_left (fun acc i => upd acc (Z.to_nat (nth i perm 0)) (Z.of_nat i)) (seq 0 n) init).
  assert (Hmain : forall init, length init = n ->
    store_strides (repeat 0 n) (fun i => Z.to_nat (nth i (inv0 init) 0)) (for_each_stride m)
    = pick perm (m_strides m) /\
    fold_left (fun acc i => upd acc i (nth (Z.to_nat (nth i perm 0)) (m_dims m) 0)) (seq 0 n) (inv0 init)
    = pick perm (m_dims m)).
  { intros init Hinit.
    assert (Hinv : forall i, (i < n)%nat -> nth (Z.to_nat (nth i perm 0)) (inv0 init) 0 = Z.of_nat i).
    { intros i Hi. unfold inv0.
      rewrite (fold_upd_same (fun i => Z.to_nat (nth i perm 0)) (fun i => Z.of_nat i)); auto.
      - apply NoDup_map_seq. intros a b Ha Hb E.
        pose proof (perm_of_nth_bound HP Ha). pose proof (perm_of_nth_bound HP Hb).
        apply (perm_of_nth_inj HP); auto; lia.
      - intros j Hj. apply in_seq in Hj. rewrite Hinit. apply (perm_of_nth_bound HP). lia.
      - apply in_seq. lia. }
    split.
    - apply list_ext0.
      + rewrite store_length, repeat_length, pick_length. lia.
      + intros i Hi. rewrite store_length, repeat_length in Hi.
        rewrite nth_pick by lia.
        pose proof (perm_of_nth_bound HP Hi) as [Hb Hb'].
        set (q := Z.to_nat (nth i perm 0)) in *.
        replace i with (Z.to_nat (nth q (inv0 init) 0)) at 1
          by (unfold q; rewrite Hinv by lia; lia).
        apply (store_calls_spec m _ (fun i => Z.to_nat (nth i (inv0 init) 0)) (n := n)); auto.
        * apply repeat_length.
        * intros a b Ha Hb2 E.
          destruct (perm_of_surj HP Ha) as (ia & Hia & Ea). destruct (perm_of_surj HP Hb2) as (ib & Hib & Eb).
          replace a with (Z.to_nat (nth ia perm 0)) in E by lia.
          replace b with (Z.to_nat (nth ib perm 0)) in E by lia.
          rewrite !Hinv in E by lia. assert (ia = ib) by lia. subst. lia.
        * intros a Ha. destruct (perm_of_surj HP Ha) as (ia & Hia & Ea).
          replace a with (Z.to_nat (nth ia perm 0)) by lia. rewrite Hinv by lia. lia.
    - rewrite fold_upd_id.
      + apply list_ext0.
        * rewrite map_length, seq_length, pick_length. lia.
        * intros i Hi. rewrite map_length, seq_length in Hi.
          rewrite nth_pick by lia.
          now rewrite nth_map_seq by lia.
      + unfold inv0. now rewrite (fold_upd_length (fun i => Z.to_nat (nth i perm 0))). }
  destruct (sh_new ty n) as [init| | |] eqn:N; cbn [bind].
  - assert (Hinit : length init = n).
    { destruct ty as [|ds]; simpl in N.
      - injection N as <-. apply repeat_length.
      - apply bind_ok in N as (u & A & N). apply assert_ok in A. injection N as <-.
        rewrite map_length. lia. }
    destruct (Hmain init Hinit) as [HS HD].
    assert (DN : dims_new ty n = Ok (repeat 0 n)).
    { destruct ty as [|ds]; simpl in *; auto. apply bind_ok in N as (u & A & N).
      destruct u. rewrite A. reflexivity. }
    rewrite DN. cbn [bind]. fold (inv0 init). rewrite HS, HD.
    pose proof (@sh_build_spec ty n (pick perm (m_dims m)) (eq_sym HPL)) as B. rewrite N in B. cbn [bind] in B.
    rewrite B. destruct (accepts ty (pick perm (m_dims m))); reflexivity.
  - destruct (accepts ty (pick perm (m_dims m))) eqn:A; auto.
    pose proof (@sh_build_spec ty n (pick perm (m_dims m)) (eq_sym HPL)) as B.
    rewrite N, A in B. discriminate.
  - destruct ty; simpl in N; [discriminate|]. destruct (n =? length ds)%nat; discriminate.
  - destruct ty; simpl in N; [discriminate|]. destruct (n =? length ds)%nat; discriminate.
Qed.

Theorem m_permute_strided_panic ty m perm :
  (m_rank m < 64)%nat -> Forall (fun p => 0 <= p) perm ->
  ~ perm_of (m_rank m) perm -> m_permute Strided ty m perm = Panic.
Proof.
  intros Hr HF HP. unfold m_permute.
  destruct (Nat.eqb_spec (length perm) (m_rank m)) as [HL|]; [|reflexivity]. cbn [assert bind].
  destruct (mask_loop_cases (m_rank m) perm 0) as [[r E]|E]; rewrite E; [|reflexivity]. cbn [bind].
  rewrite assert_true by (apply Nat.ltb_lt; lia). cbn [bind].
  rewrite assert_false; [reflexivity|].
  apply Z.eqb_neq. intros ->. apply HP. apply mask_test_spec; eauto.
Qed.

Lemma pick_identity l : pick (map Z.of_nat (seq 0 (length l))) l = l.
Proof.
  apply list_ext0; rewrite pick_length, map_length, seq_length; auto.
  intros i Hi. rewrite nth_pick by (rewrite map_length, seq_length; lia).
  rewrite nth_map_seq by lia. f_equal. lia.
Qed.

Theorem m_permute_dense ty m perm :
  is_contiguous m = true ->
  perm = map Z.of_nat (seq 0 (m_rank m)) ->
  m_permute Dense ty m perm =
  if accepts ty (m_dims m) then Ok (DenseM ty (m_dims m)) else Panic.
Proof.
  intros HC ->. unfold m_permute. rewrite map_length, seq_length, Nat.eqb_refl. cbn [assert bind].
  rewrite assert_true. 2:{ apply perm_is_identity_spec. now rewrite map_length, seq_length. }
  cbn [bind]. rewrite m_remap_dense, HC. reflexivity.
Qed.

Theorem m_permute_dense_panic ty m perm :
  perm <> map Z.of_nat (seq 0 (m_rank m)) -> m_permute Dense ty m perm = Panic.
Proof.
  intros HP. unfold m_permute.
  destruct (Nat.eqb_spec (length perm) (m_rank m)) as [HL|]; [|reflexivity]. cbn [assert bind].
  rewrite assert_false; [reflexivity|].
  apply not_true_iff_false. rewrite perm_is_identity_spec. rewrite HL. exact HP.
Qed.
