(** Facts about reshape: inferred dimensions, and the region matching loop. *)
From Verif Require Import Base Spec SpecFacts Shape Mapping Index View Wf MappingFacts MapOps.

(** ** infer_loop *)

Lemma infer_loop_no i inf dims : ~ In usize_max dims -> infer_loop i inf dims = Ok (inf, dims).
Proof.
  revert i. induction dims as [|d ds IH]; intros i H; [reflexivity|].
  cbn [infer_loop]. destruct (Z.eqb_spec d usize_max) as [->|E].
  - exfalso. apply H. now left.
  - rewrite IH by (intros Hi; apply H; now right). reflexivity.
Qed.

Lemma infer_loop_two i k dims : In usize_max dims -> infer_loop i (Some k) dims = Panic.
Proof.
  revert i. induction dims as [|d ds IH]; intros i H; [destruct H|].
  cbn [infer_loop]. destruct (Z.eqb_spec d usize_max) as [->|E]; [reflexivity|].
  destruct H as [H|H]; [congruence|]. rewrite IH by auto. reflexivity.
Qed.

Lemma infer_loop_one i a b :
  ~ In usize_max a -> ~ In usize_max b ->
  infer_loop i None (a ++ usize_max :: b) = Ok (Some (i + length a)%nat, a ++ 1 :: b).
Proof.
  revert i. induction a as [|d a IH]; intros i Ha Hb.
  - cbn [app infer_loop]. rewrite Z.eqb_refl. cbn [assert bind].
    rewrite infer_loop_no by auto. cbn [bind]. simpl length. now rewrite Nat.add_0_r.
  - cbn [app infer_loop]. destruct (Z.eqb_spec d usize_max) as [->|E].
    + exfalso. apply Ha. now left.
    + rewrite IH by (auto; intros Hi; apply Ha; now right). cbn [bind length].
      replace (S i + length a)%nat with (i + S (length a))%nat by lia. reflexivity.
Qed.

Lemma infer_loop_many i a b :
  ~ In usize_max a -> In usize_max b -> infer_loop i None (a ++ usize_max :: b) = Panic.
Proof.
  revert i. induction a as [|d a IH]; intros i Ha Hb.
  - cbn [app infer_loop]. rewrite Z.eqb_refl. cbn [assert bind].
    rewrite infer_loop_two by auto. reflexivity.
  - cbn [app infer_loop]. destruct (Z.eqb_spec d usize_max) as [->|E].
    + exfalso. apply Ha. now left.
    + rewrite IH by (auto; intros Hi; apply Ha; now right). reflexivity.
Qed.

Lemma request_cases req :
  (~ In usize_max req /\ inferred req = 0%nat) \/
  (exists a b, req = a ++ usize_max :: b /\ ~ In usize_max a /\
     ((~ In usize_max b /\ inferred req = 1%nat) \/ (In usize_max b /\ (1 < inferred req)%nat))).
Proof.
  unfold inferred. destruct (in_dec Z.eq_dec usize_max req) as [H|H].
  - right. induction req as [|r req IH]; [destruct H|].
    destruct (Z.eq_dec r usize_max) as [->|E].
    + exists [], req. split; [reflexivity|]. split; [intros []|].
      rewrite count_occ_cons_eq by reflexivity.
      destruct (in_dec Z.eq_dec usize_max req) as [H'|H'].
      * right. split; auto. apply (count_occ_In Z.eq_dec) in H'. lia.
      * left. split; auto. apply (count_occ_not_In Z.eq_dec) in H'. lia.
    + destruct H as [H|H]; [congruence|]. destruct (IH H) as (a & b & -> & Ha & C).
      exists (r :: a), b. split; [reflexivity|]. split.
      * intros [|]; [congruence|auto].
      * rewrite count_occ_cons_neq by auto. exact C.
  - left. split; auto. now apply (count_occ_not_In Z.eq_dec).
Qed.

Lemma known_no req : ~ In usize_max req -> known req = req.
Proof.
  intros H. unfold known. induction req as [|r req IH]; simpl; auto.
  destruct (Z.eqb_spec r usize_max) as [->|E]; simpl.
  - exfalso. apply H. now left.
  - f_equal. apply IH. intros Hi. apply H. now right.
Qed.

Lemma known_one a b : ~ In usize_max a -> ~ In usize_max b -> known (a ++ usize_max :: b) = a ++ b.
Proof.
  intros Ha Hb. unfold known. rewrite filter_app. cbn [filter]. rewrite Z.eqb_refl. cbn [negb].
  fold (known a) (known b). now rewrite !known_no.
Qed.

(** ** checked_len *)

Lemma checked_from_spec acc dims :
  (checked_len_from acc dims = Some (acc * prodZ dims) /\
     forall k, (0 < k)%nat -> (k <= length dims)%nat -> acc * prodZ (firstn k dims) <= usize_max) \/
  (checked_len_from acc dims = None /\
     exists k, (0 < k)%nat /\ acc * prodZ (firstn k dims) > usize_max).
Proof.
  revert acc. induction dims as [|d ds IH]; intros acc.
  - left. split; [simpl; f_equal; lia|]. intros k Hk Hl. simpl in Hl. lia.
  - cbn [checked_len_from]. destruct (Z.leb_spec (acc * d) usize_max) as [L|L].
    + destruct (IH (acc * d)) as [[E H]|[E (k & Hk & H)]]; rewrite E.
      * left. split; [rewrite prodZ_cons; f_equal; lia|].
        intros [|[|k]] Hk Hl; try lia.
        -- cbn [firstn]. rewrite prodZ_cons. change (prodZ []) with 1. lia.
        -- cbn [firstn length] in *. specialize (H (S k) ltac:(lia) ltac:(lia)).
           cbn [firstn] in H. rewrite !prodZ_cons in *. lia.
      * right. split; auto. exists (S k). split; [lia|]. cbn [firstn]. rewrite prodZ_cons. lia.
    + right. split; auto. exists 1%nat. split; [lia|]. cbn [firstn]. rewrite prodZ_cons.
      change (prodZ []) with 1. lia.
Qed.

Lemma checked_len_fits dims : fits dims -> sh_checked_len dims = Some (prodZ dims).
Proof.
  intros H. unfold sh_checked_len. destruct (checked_from_spec 1 dims) as [[-> _]|[_ (k & _ & B)]].
  - f_equal. lia.
  - specialize (H k). lia.
Qed.

Lemma checked_len_inv dims r : sh_checked_len dims = Some r -> r = prodZ dims /\ fits dims.
Proof.
  unfold sh_checked_len. intros E. destruct (checked_from_spec 1 dims) as [[E' H]|[E' _]]; [|congruence].
  rewrite E' in E. assert (r = 1 * prodZ dims) as -> by congruence. split; [lia|].
  intros k. destruct (Nat.eq_dec k 0) as [->|].
  - simpl. unfold usize_max. lia.
  - destruct (Nat.le_gt_cases k (length dims)).
    + specialize (H k ltac:(lia) ltac:(lia)). lia.
    + rewrite firstn_all2 by lia. destruct dims as [|d ds].
      * simpl. unfold usize_max. lia.
      * specialize (H (length (d :: ds)) ltac:(simpl; lia) ltac:(lia)). rewrite firstn_all in H. lia.
Qed.

Lemma checked_len_cases dims : fits dims \/ sh_checked_len dims = None.
Proof.
  destruct (sh_checked_len dims) as [r|] eqn:E; auto. left. now apply checked_len_inv in E.
Qed.

Lemma fits_insert1 a b : fits (a ++ 1 :: b) <-> fits (a ++ b).
Proof.
  unfold fits. split; intros H k.
  - destruct (Nat.le_gt_cases k (length a)) as [Hk|Hk].
    + specialize (H k). rewrite firstn_app in H |- *. replace (k - length a)%nat with 0%nat in * by lia.
      exact H.
    + specialize (H (S k)). rewrite firstn_app in H |- *.
      replace (S k - length a)%nat with (S (k - length a)) in H by lia.
      rewrite (@firstn_all2 _ (S k) a) in H by lia. cbn [firstn] in H. rewrite (@firstn_all2 _ k a) by lia.
      rewrite prodZ_app in H |- *. rewrite prodZ_cons in H. lia.
  - destruct (Nat.le_gt_cases k (length a)) as [Hk|Hk].
    + specialize (H k). rewrite firstn_app in H |- *. replace (k - length a)%nat with 0%nat in * by lia.
      exact H.
    + specialize (H (k - 1)%nat). rewrite firstn_app in H |- *.
      destruct (k - length a)%nat as [|q] eqn:Q; [lia|]. cbn [firstn].
      replace (k - 1 - length a)%nat with q in H by lia.
      rewrite (@firstn_all2 _ (k - 1) a) in H by lia. rewrite (@firstn_all2 _ k a) by lia.
      rewrite prodZ_app in H |- *. rewrite prodZ_cons. lia.
Qed.

Lemma fits_positive dims : positive dims -> prodZ dims <= usize_max -> fits dims.
Proof.
  intros Hp Hle k. rewrite <- (firstn_skipn k dims) in Hp, Hle. apply positive_app in Hp as [H1 H2].
  rewrite prodZ_app in Hle. apply prodZ_pos in H1, H2. nia.
Qed.

(** ** Shape::reshape *)

(** No constant-sized dimension has the size reserved for "inferred". *)
Definition const_small (ty : shty) : Prop :=
  match ty with SDynRank => True | STuple ds => Forall (fun d => d <> DConst usize_max) ds end.

Lemma typed_upd_dyn ty dims i n :
  typed ty dims -> const_small ty -> (i < length dims)%nat -> nth i dims 0 = usize_max ->
  typed ty (upd dims i n).
Proof.
  destruct ty as [|ds]; simpl; auto. intros H. revert i. induction H; intros i HC Hi E; simpl in *; [lia|].
  inversion HC; subst. destruct i as [|i].
  - constructor; auto. destruct x; simpl in *; auto. congruence.
  - constructor; auto. apply IHForall2; auto. lia.
Qed.

Lemma sh_store_spec ty dims :
  match sh_rank ty with Some k => length dims = k | None => True end ->
  sh_store ty dims = if accepts ty dims then Ok dims else Panic.
Proof.
  destruct ty as [|ds]; simpl; auto. intros H. rewrite from_sizes_spec by lia.
  destruct (sizes_ok ds dims); reflexivity.
Qed.

Lemma sh_store_typed ty dims : typed ty dims -> sh_store ty dims = Ok dims.
Proof.
  intros H. rewrite sh_store_spec.
  - apply accepts_typed in H. now rewrite H.
  - destruct ty; simpl in *; auto. symmetry. eapply Forall2_len; eauto.
Qed.

Lemma upd_app_mid {A} (a b : list A) x y : upd (a ++ x :: b) (length a) y = a ++ y :: b.
Proof. rewrite upd_app_r by lia. rewrite Nat.sub_diag. reflexivity. Qed.

Lemma Forall2_refl_no req : Forall2 (fun r d : Z => r = usize_max \/ d = r) req req.
Proof. induction req; constructor; auto. Qed.

Lemma resolve_forall2 a b dims :
  ~ In usize_max a -> ~ In usize_max b ->
  Forall2 (fun r d => r = usize_max \/ d = r) (a ++ usize_max :: b) dims ->
  exists n, dims = a ++ n :: b.
Proof.
  revert dims. induction a as [|x a IH]; intros dims Ha Hb H; simpl in H.
  - inversion H; subst. exists y. simpl. f_equal.
    clear - H4 Hb. revert l' H4. induction b; intros l' H; inversion H; subst; auto.
    destruct H2 as [E|E].
    + exfalso. apply Hb. now left.
    + subst. f_equal. apply IHb; auto. intros Hi. apply Hb. now right.
  - inversion H; subst. destruct (IH l') as [n ->]; auto.
    + intros Hi. apply Ha. now right.
    + exists n. destruct H2 as [E|E].
      * exfalso. apply Ha. now left.
      * now subst.
Qed.

Theorem sh_reshape_iff old ty req :
  typed ty req -> const_small ty ->
  (forall dims, sh_reshape old ty req = Ok dims <->
     fits (known req) /\ resolves (prodZ old) req dims) /\
  (sh_reshape old ty req = Panic \/ exists dims, sh_reshape old ty req = Ok dims).
Proof.
  intros HT HC. unfold sh_reshape, resolves.
  destruct (request_cases req) as [[Hno Hc]|(a & b & -> & Ha & [[Hb Hc]|[Hb Hc]])].
  - rewrite infer_loop_no by auto. cbn [bind]. rewrite sh_store_typed by auto. cbn [bind].
    rewrite known_no, sh_len_prod by auto.
    destruct (checked_len_cases req) as [F|E].
    + rewrite checked_len_fits by auto.
      destruct (Z.eqb_spec (prodZ req) (prodZ old)) as [E|E]; cbn [assert bind].
      * split; [|eauto]. intros dims. split.
        -- intros [= <-]. split; auto.
        -- intros [_ [(_ & -> & _)|(C & _)]]; [reflexivity|lia].
      * split; [|auto]. intros dims. split; [discriminate|].
        intros [_ [(_ & -> & E')|(C & _)]]; [congruence|lia].
    + rewrite E. split; auto. intros dims. split; [discriminate|].
      intros [F _]. apply checked_len_fits in F. congruence.
  - rewrite infer_loop_one by auto. cbn [bind].
    assert (HT1 : forall n, typed ty (a ++ n :: b)).
    { intros n. rewrite <- (upd_app_mid a b usize_max n). apply typed_upd_dyn; auto.
      - rewrite app_length. simpl. lia.
      - rewrite app_nth2 by lia. rewrite Nat.sub_diag. reflexivity. }
    rewrite sh_store_typed by auto. cbn [bind]. rewrite known_one, sh_len_prod by auto.
    assert (HP1 : prodZ (a ++ 1 :: b) = prodZ (a ++ b)) by (rewrite !prodZ_app, prodZ_cons; lia).
    destruct (checked_len_cases (a ++ 1 :: b)) as [F|E].
    + rewrite checked_len_fits by auto. rewrite HP1.
      destruct (Z.eqb_spec (prodZ (a ++ b)) 0) as [E0|E0]; cbn [negb assert bind].
      * split; [|auto]. intros dims. split; [discriminate|].
        intros [_ [(C & _)|(_ & _ & N & _)]]; [lia|congruence].
      * destruct (Z.eqb_spec (prodZ old mod prodZ (a ++ b)) 0) as [E1|E1]; cbn [assert bind].
        -- simpl plus. rewrite upd_app_mid, sh_store_typed by auto. split; [|eauto].
           assert (HD : prodZ old = prodZ (a ++ b) * (prodZ old / prodZ (a ++ b))).
           { pose proof (Z.div_mod (prodZ old) (prodZ (a ++ b)) E0). lia. }
           intros dims. split.
           ++ intros [= <-]. split; [now apply fits_insert1|]. right. repeat split; auto.
              ** apply Forall2_app; [apply Forall2_refl_no|]. constructor; [now left|apply Forall2_refl_no].
              ** rewrite prodZ_app, prodZ_cons. rewrite prodZ_app in HD |- *. lia.
           ++ intros [_ [(C & _)|(_ & H & _ & P)]]; [lia|].
              apply resolve_forall2 in H as [n ->]; auto. f_equal. f_equal. f_equal.
              rewrite prodZ_app, prodZ_cons in P. rewrite prodZ_app in *.
              symmetry. apply Z.div_unique_exact; lia.
        -- split; [|auto]. intros dims. split; [discriminate|].
           intros [_ [(C & _)|(_ & H & _ & P)]]; [lia|].
           apply resolve_forall2 in H as [n ->]; auto. exfalso. apply E1. rewrite <- P.
           rewrite !prodZ_app, prodZ_cons in *.
           replace (prodZ a * (n * prodZ b)) with (n * (prodZ a * prodZ b)) by lia.
           apply Z.mod_mul. auto.
    + rewrite E. split; auto. intros dims. split; [discriminate|].
      intros [F _]. apply fits_insert1 in F. apply checked_len_fits in F. congruence.
  - rewrite infer_loop_many by auto. split; [|auto]. intros dims. split; [discriminate|].
    intros [_ [(C & _)|(C & _)]]; lia.
Qed.

(** What holds of an accepted reshape in general (any shape type, even [Const<usize::MAX>]). *)
Lemma sh_store_ok_inv ty dims d : sh_store ty dims = Ok d -> d = dims.
Proof. destruct ty; simpl; [congruence|]. intros H. apply bind_ok in H as (u & _ & H). congruence. Qed.

Lemma sh_store_ok_typed ty dims d :
  match sh_rank ty with Some k => length dims = k | None => True end ->
  sh_store ty dims = Ok d -> typed ty dims.
Proof.
  intros HL H. rewrite sh_store_spec in H by auto. apply accepts_typed.
  destruct (accepts ty dims); auto. discriminate.
Qed.

Lemma infer_loop_inv i inf dims inf' ones :
  infer_loop i inf dims = Ok (inf', ones) -> nonneg dims ->
  length ones = length dims /\ nonneg ones.
Proof.
  revert i inf inf' ones. induction dims as [|d ds IH]; intros i inf inf' ones H HN; simpl in H.
  - injection H as <- <-. split; auto.
  - inversion HN; subst. destruct (d =? usize_max).
    + apply bind_ok in H as (u & _ & H). apply bind_ok in H as ([x y] & H1 & H). injection H as <- <-.
      apply IH in H1 as [L N]; auto. split; simpl; auto. constructor; auto. lia.
    + apply bind_ok in H as ([x y] & H1 & H). injection H as <- <-.
      apply IH in H1 as [L N]; auto. split; simpl; auto. constructor; auto.
Qed.

Lemma infer_loop_pos i inf dims k ones :
  infer_loop i inf dims = Ok (Some k, ones) ->
  (inf = Some k /\ ~ In usize_max dims) \/ (exists p, k = (i + p)%nat /\ (p < length ones)%nat /\ nth p ones 0 = 1).
Proof.
  revert i inf ones. induction dims as [|d ds IH]; intros i inf ones H; simpl in H.
  - injection H as -> <-. left. auto.
  - destruct (Z.eqb_spec d usize_max) as [->|E].
    + apply bind_ok in H as (u & A & H). apply bind_ok in H as ([x y] & H1 & H). injection H as -> <-.
      destruct (IH _ _ _ H1) as [[E _]|(p & -> & Hp & N)].
      * injection E as <-. right. exists 0%nat. simpl. split; [lia|]. split; [lia|auto].
      * right. exists (S p). simpl. split; [lia|]. split; [lia|auto].
    + apply bind_ok in H as ([x y] & H1 & H). injection H as -> <-.
      destruct (IH _ _ _ H1) as [[-> N]|(p & -> & Hp & N)].
      * left. split; auto. intros [|]; auto.
      * right. exists (S p). simpl. split; [lia|]. split; [lia|auto].
Qed.

Lemma sh_reshape_sound old ty req dims :
  nonneg old -> nonneg req ->
  match sh_rank ty with Some k => length req = k | None => True end ->
  sh_reshape old ty req = Ok dims ->
  length dims = length req /\ nonneg dims /\ typed ty dims /\ prodZ dims = prodZ old.
Proof.
  intros HO HN HL H. unfold sh_reshape in H.
  apply bind_ok in H as ([inf ones] & HI & H). destruct (infer_loop_inv _ _ HI HN) as [L1 N1].
  assert (HL1 : match sh_rank ty with Some k => length ones = k | None => True end)
    by (destruct (sh_rank ty); auto; lia).
  apply bind_ok in H as (d1 & HS & H). pose proof (sh_store_ok_typed _ _ HL1 HS) as T1.
  apply sh_store_ok_inv in HS. subst d1.
  destruct (sh_checked_len ones) as [nl|] eqn:C; [|discriminate].
  apply checked_len_inv in C as [-> F]. rewrite sh_len_prod in H.
  destruct inf as [k|].
  - apply bind_ok in H as (u & A & H). apply assert_ok in A. apply negb_true_iff, Z.eqb_neq in A.
    apply bind_ok in H as (u' & B & H). apply assert_ok in B. apply Z.eqb_eq in B.
    assert (HL2 : match sh_rank ty with Some k0 => length (upd ones k (prodZ old / prodZ ones)) = k0 | None => True end)
      by (rewrite upd_length; auto).
    pose proof (sh_store_ok_typed _ _ HL2 H) as T2. apply sh_store_ok_inv in H. subst dims.
    destruct (infer_loop_pos _ _ _ HI) as [[E _]|(p & -> & Hp & E1)]; [discriminate|]. simpl plus in *.
    assert (0 <= prodZ ones) by now apply prodZ_nonneg.
    assert (0 <= prodZ old) by now apply prodZ_nonneg.
    assert (0 <= prodZ old / prodZ ones) by (apply Z.div_pos; lia).
    rewrite upd_length. split; [auto|]. split.
    { rewrite upd_split by auto. apply nonneg_app. split; [now apply nonneg_firstn|].
      constructor; [lia|]. now apply (nonneg_skipn (S p)). }
    split; [auto|].
    assert (HP : prodZ ones = prodZ (firstn p ones) * prodZ (skipn (S p) ones)).
    { rewrite <- (upd_same ones 0 Hp), upd_split, E1, prodZ_app, prodZ_cons by auto.
      rewrite firstn_app, skipn_app, firstn_firstn, firstn_length.
      replace (Nat.min p p) with p by lia.
      replace (p - Nat.min p (length ones))%nat with 0%nat by lia. cbn [firstn].
      rewrite (skipn_all2 (firstn p ones)) by (rewrite firstn_length; lia).
      replace (S p - Nat.min p (length ones))%nat with 1%nat by lia. cbn [skipn app].
      rewrite app_nil_r. lia. }
    rewrite upd_split, prodZ_app, prodZ_cons by auto.
    pose proof (Z.div_mod (prodZ old) (prodZ ones) A). nia.
  - apply bind_ok in H as (u & A & H). apply assert_ok in A. apply Z.eqb_eq in A. injection H as <-. auto.
Qed.

(** ** The region matching loop *)

(** Address function of a strided block: [A k] is the address of its [k]-th element. *)
Definition addr_at (strides dims : list Z) (k : Z) : Z := dot strides (unflat dims k).

(** [F] is affine with slope [rs] in units of [base], over [q] units, on top of [A0]. *)
Definition lin (F A0 : Z -> Z) (base q rs : Z) : Prop :=
  forall x r, 0 <= x < q -> 0 <= r < base -> F (x * base + r) = A0 r + x * rs.

Lemma addr_at_cons s ss d ds k :
  addr_at (s :: ss) (d :: ds) k = s * (k / prodZ ds) + addr_at ss ds (k mod prodZ ds).
Proof. reflexivity. Qed.

Lemma lin_extend F A0 base q rs d ss ds :
  0 < base -> 0 < q -> 0 < d -> prodZ ds = base * q ->
  (forall k, F k = addr_at ss ds k) ->
  lin F A0 base q rs -> lin (addr_at (rs * q :: ss) (d :: ds)) A0 base (q * d) rs.
Proof.
  intros Hb Hq Hd HP HF HL x r Hx Hr.
  rewrite addr_at_cons, <- HF, HP.
  assert (E : x * base + r = (base * q) * (x / q) + ((x mod q) * base + r)).
  { pose proof (Z.div_mod x q). nia. }
  pose proof (Z.mod_pos_bound x q Hq) as Hm.
  assert (Hlt : 0 <= (x mod q) * base + r < base * q) by nia.
  assert (E1 : (x * base + r) / (base * q) = x / q).
  { symmetry. apply Z.div_unique with (r := (x mod q) * base + r); [left; lia|lia]. }
  assert (E2 : (x * base + r) mod (base * q) = (x mod q) * base + r).
  { symmetry. apply Z.mod_unique with (q := x / q); [left; lia|lia]. }
  rewrite E1, E2, HL by auto. pose proof (Z.div_mod x q). nia.
Qed.

Lemma skipn_cons_nth {A} n (l : list A) d :
  (n < length l)%nat -> skipn n l = nth n l d :: skipn (S n) l.
Proof.
  revert n. induction l; intros [|n] H; simpl in *; try lia; auto. apply IHl. lia.
Qed.

Lemma skipn_upd {A} n i (l : list A) x : (i < n)%nat -> skipn n (upd l i x) = skipn n l.
Proof.
  revert n i. induction l; intros [|n] [|i] H; simpl; try lia; auto. apply IHl. lia.
Qed.

Lemma skipn_upd_same {A} i (l : list A) x :
  (i < length l)%nat -> skipn i (upd l i x) = x :: skipn (S i) l.
Proof.
  revert i. induction l; intros [|i] H; simpl in *; try lia; auto. apply IHl. lia.
Qed.

Lemma positive_nth dims i : positive dims -> (i < length dims)%nat -> 0 < nth i dims 0.
Proof. intros H Hi. unfold positive in H. rewrite Forall_forall in H. apply H. now apply nth_In. Qed.

(** Affine description of the part of the new dimensions handled so far. *)
Definition blk (nd ns : list Z) (j : nat) (A0 : Z -> Z) (base q rs : Z) : Prop :=
  (j <= length nd)%nat /\ length ns = length nd /\ 0 < q /\
  prodZ (skipn j nd) = base * q /\
  lin (addr_at (skipn j ns) (skipn j nd)) A0 base q rs.

Lemma blk_add nd ns j A0 base q rs :
  positive nd -> 0 < base -> blk nd ns (S j) A0 base q rs ->
  blk nd (upd ns j (rs * q)) j A0 base (q * nth j nd 0) rs.
Proof.
  intros Hp Hb (Hj & HL & Hq & HP & Hlin). pose proof (positive_nth Hp Hj) as Hd.
  repeat split.
  - lia.
  - now rewrite upd_length.
  - nia.
  - rewrite (skipn_cons_nth nd 0) by lia. rewrite prodZ_cons, HP. lia.
  - rewrite (skipn_cons_nth nd 0) by lia. rewrite skipn_upd_same by lia.
    eapply lin_extend; eauto.
Qed.

Lemma reshape_inner_spec j nd p A0 base q rs ns j' nl nst ns' :
  positive nd -> 0 < base -> q <= p ->
  blk nd ns j A0 base q rs ->
  reshape_inner j nd (base * p) (base * q) (rs * q) ns = (j', nl, nst, ns') ->
  exists q', nl = base * q' /\ nst = rs * q' /\ q <= q' <= p /\ (j' <= j)%nat /\
             blk nd ns' j' A0 base q' rs /\
             (j' = 0%nat \/ base * p < base * q' * nth (j' - 1) nd 0).
Proof.
  intros Hp Hb. revert q ns. induction j as [|j IH]; intros q ns Hqp HB H; cbn [reshape_inner] in H.
  - injection H as <- <- <- <-. exists q. repeat (split; auto; try lia).
  - destruct (Z.gtb_spec (base * q * nth j nd 0) (base * p)) as [G|G].
    + injection H as <- <- <- <-. exists q. repeat (split; auto; try lia).
      right. simpl. rewrite Nat.sub_0_r. lia.
    + assert (Hd : 0 < nth j nd 0) by (apply positive_nth; auto; destruct HB; lia).
      assert (Hq : 0 < q) by (destruct HB as (_ & _ & ? & _); auto).
      replace (base * q * nth j nd 0) with (base * (q * nth j nd 0)) in * by lia.
      replace (rs * q * nth j nd 0) with (rs * (q * nth j nd 0)) in * by lia.
      apply IH in H.
      * destruct H as (q' & E1 & E2 & Hq' & Hj' & HB' & Hstop). exists q'.
        split; [exact E1|]. split; [exact E2|]. split; [nia|]. split; [lia|]. auto.
      * nia.
      * now apply blk_add.
Qed.

Lemma reshape_rest_spec j nd A0 base q rs ns nl ns' :
  positive nd -> 0 < base -> blk nd ns j A0 base q rs ->
  reshape_rest j nd (base * q) (rs * q) ns = (nl, ns') ->
  exists q', nl = base * q' /\ blk nd ns' 0 A0 base q' rs.
Proof.
  intros Hp Hb. revert q ns. induction j as [|j IH]; intros q ns HB H; cbn [reshape_rest] in H.
  - injection H as <- <-. exists q. auto.
  - replace (base * q * nth j nd 0) with (base * (q * nth j nd 0)) in * by lia.
    replace (rs * q * nth j nd 0) with (rs * (q * nth j nd 0)) in * by lia.
    apply IH in H; auto. now apply blk_add.
Qed.

(** The loop invariant with [i] old dimensions left. *)
Definition rinv (dims strides nd : list Z) (i : nat) (s : reshape_state) : Prop :=
  exists A0 base p q rs,
    0 < base /\ q <= p /\
    rs_old_len s = base * p /\ rs_new_len s = base * q /\
    rs_old_stride s = rs * p /\ rs_new_stride s = rs * q /\
    blk dims strides i A0 base p rs /\
    blk nd (rs_strides s) (rs_j s) A0 base q rs /\
    (rs_j s = 0%nat \/ q = p \/ base * p < base * q * nth (rs_j s - 1) nd 0).

Lemma lin_full F A0 base p rs k :
  0 < base -> lin F A0 base p rs -> 0 <= k < base * p -> F k = A0 (k mod base) + (k / base) * rs.
Proof.
  intros Hb HL Hk.
  assert (E : k = (k / base) * base + k mod base) by (pose proof (Z.div_mod k base); lia).
  rewrite E at 1. apply HL; [|apply Z.mod_pos_bound; lia].
  split; [apply Z.div_pos; lia|]. apply Z.div_lt_upper_bound; lia.
Qed.

Lemma blk_rebase dims strides i A0 base p rs st :
  0 < base -> 0 < p ->
  blk dims strides i A0 base p rs ->
  blk dims strides i (addr_at (skipn i strides) (skipn i dims)) (base * p) 1 st.
Proof.
  intros Hb Hp (Hi & HL & Hq & HP & Hlin). repeat split; auto; try lia.
  intros x r Hx Hr. replace x with 0 by lia. rewrite !Z.mul_0_l, Z.add_0_l, Z.add_0_r. reflexivity.
Qed.

Lemma reshape_step_inv dims strides nd i s :
  positive dims -> positive nd -> length strides = length dims ->
  rinv dims strides nd (S i) s ->
  rs_valid (reshape_step dims strides nd i s) = true ->
  rinv dims strides nd i (reshape_step dims strides nd i s).
Proof.
  intros HPd HPn HL (A0 & base & p & q & rs & Hb & Hqp & EO & EN & EOS & ENS & BA & BB & _) HV.
  pose proof BA as (Hi & HLA & Hp & HPA & HLinA). pose proof BB as (Hj & HLB & Hq & HPB & HLinB).
  pose proof (positive_nth HPd Hi) as Hd.
  unfold reshape_step in *.
  destruct (Z.eqb_spec (rs_old_len s) (rs_new_len s)) as [E|E].
  - (* new region *)
    assert (p = q) by nia. subst q.
    set (A1 := addr_at (skipn (S i) strides) (skipn (S i) dims)) in *.
    set (st := nth i strides 0) in *. set (d := nth i dims 0) in *.
    assert (BA' : blk dims strides i A1 (base * p) d st).
    { pose proof (blk_rebase st Hb Hp BA) as (_ & _ & _ & HP1 & HL1). fold A1 in HL1.
      repeat split; auto; try lia.
      - rewrite (skipn_cons_nth dims 0) by lia. rewrite prodZ_cons, HPA. unfold d. lia.
      - rewrite (skipn_cons_nth dims 0), (skipn_cons_nth strides 0) by lia.
        fold st d. replace d with (1 * d) at 2 by lia. replace st with (st * 1) at 1 by lia.
        eapply lin_extend with (F := A1); eauto; try lia. }
    assert (BB' : blk nd (rs_strides s) (rs_j s) A1 (base * p) 1 st).
    { repeat split; auto; try lia.
      intros x r Hx Hr. replace x with 0 by lia.
      replace (0 * (base * p) + r) with r by lia.
      rewrite (lin_full Hb HLinB) by lia.
      unfold A1. rewrite (lin_full Hb HLinA) by lia. lia. }
    destruct (reshape_inner (rs_j s) nd (rs_old_len s * d) (rs_new_len s) st (rs_strides s))
      as [[[j' nl] nst] ns'] eqn:RI.
    rewrite EO, EN in RI.
    replace (base * p * d) with ((base * p) * d) in RI by lia.
    replace (base * p) with ((base * p) * 1) in RI at 2 by lia.
    replace st with (st * 1) in RI by lia.
    apply reshape_inner_spec with (A0 := A1) (p := d) (rs := st) in RI; auto; try nia.
    destruct RI as (q' & E1 & E2 & Hq' & Hj' & HB' & Hstop).
    exists A1, (base * p), d, q', st. cbn [rs_old_len rs_new_len rs_old_stride rs_new_stride rs_strides rs_j].
    split; [nia|]. split; [lia|]. split; [rewrite EO; lia|].
    split; [auto|]. split; [auto|]. split; [auto|]. split; [auto|]. split; [auto|]. tauto.
  - set (st := nth i strides 0) in *. set (d := nth i dims 0) in *.
    destruct (reshape_inner (rs_j s) nd (rs_old_len s * d) (rs_new_len s) (rs_new_stride s) (rs_strides s))
      as [[[j' nl] nst] ns'] eqn:RI.
    cbn [rs_valid] in HV. apply andb_true_iff in HV as [_ HV]. apply Z.eqb_eq in HV.
    assert (BA' : blk dims strides i A0 base (p * d) rs).
    { split; [lia|]. split; [auto|]. split; [nia|]. split.
      - rewrite (skipn_cons_nth dims 0) by lia. rewrite prodZ_cons, HPA. unfold d. lia.
      - rewrite (skipn_cons_nth dims 0), (skipn_cons_nth strides 0) by lia.
        fold st d. rewrite <- HV, EOS. eapply lin_extend; eauto. }
    rewrite EO, EN, ENS in RI.
    replace (base * p * d) with (base * (p * d)) in RI by lia.
    apply reshape_inner_spec with (A0 := A0) (p := p * d) (rs := rs) in RI; auto; try nia.
    destruct RI as (q' & E1 & E2 & Hq' & Hj' & HB' & Hstop).
    exists A0, base, (p * d), q', rs. cbn [rs_old_len rs_new_len rs_old_stride rs_new_stride rs_strides rs_j].
    split; [auto|]. split; [lia|]. split; [rewrite EO; lia|].
    split; [auto|]. split; [rewrite EOS; lia|]. split; [auto|]. split; [auto|]. split; [auto|]. tauto.
Qed.

Lemma reshape_step_valid dims strides nd i s :
  rs_valid (reshape_step dims strides nd i s) = true -> rs_valid s = true.
Proof.
  unfold reshape_step. destruct (reshape_inner _ _ _ _ _ _) as [[[j' nl] nst] ns']. simpl.
  destruct (rs_old_len s =? rs_new_len s); auto. intros H. now apply andb_true_iff in H.
Qed.

Lemma reshape_loop_valid n dims strides nd s :
  rs_valid (reshape_loop n dims strides nd s) = true -> rs_valid s = true.
Proof.
  revert s. induction n; intros s H; simpl in *; auto.
  apply IHn in H. now apply reshape_step_valid in H.
Qed.

Lemma reshape_loop_inv n dims strides nd s :
  positive dims -> positive nd -> length strides = length dims ->
  rinv dims strides nd n s ->
  rs_valid (reshape_loop n dims strides nd s) = true ->
  rinv dims strides nd 0 (reshape_loop n dims strides nd s).
Proof.
  intros HPd HPn HL. revert s. induction n; intros s HI HV; simpl in *; auto.
  apply IHn; auto. apply reshape_step_inv; auto. now apply reshape_loop_valid in HV.
Qed.

Lemma rinv_init dims strides nd ns v :
  length strides = length dims -> length ns = length nd ->
  rinv dims strides nd (length dims)
    {| rs_old_len := 1; rs_new_len := 1; rs_old_stride := 1; rs_new_stride := 1;
       rs_valid := v; rs_j := length nd; rs_strides := ns |}.
Proof.
  intros HL HLn. exists (fun _ => 0), 1, 1, 1, 1. cbn [rs_old_len rs_new_len rs_old_stride rs_new_stride rs_strides rs_j].
  assert (HB : forall nd ns, length ns = length nd -> blk nd ns (length nd) (fun _ => 0) 1 1 1).
  { intros nd0 ns0 H. repeat split; auto; try lia.
    - now rewrite skipn_all.
    - rewrite skipn_all, skipn_all2 by lia. intros x r Hx Hr. unfold addr_at. simpl. lia. }
  repeat (split; [now auto; lia|]). auto.
Qed.

(** Structural facts that hold even when the layouts do not match. *)
Lemma reshape_inner_len j nd ol nl nst ns j' nl' nst' ns' :
  (j <= length nd)%nat ->
  reshape_inner j nd ol nl nst ns = (j', nl', nst', ns') ->
  length ns' = length ns /\ (j' <= j)%nat /\
  (nl = prodZ (skipn j nd) -> nl' = prodZ (skipn j' nd)).
Proof.
  revert nl nst ns. induction j as [|j IH]; intros nl nst ns Hj H; cbn [reshape_inner] in H.
  - injection H as <- <- <- <-. auto.
  - destruct (nl * nth j nd 0 >? ol).
    + injection H as <- <- <- <-. auto.
    + apply IH in H; [|lia]. rewrite upd_length in H. destruct H as (H1 & H2 & H3).
      split; [auto|]. split; [lia|]. intros ->. apply H3.
      rewrite (skipn_cons_nth nd 0 (n := j)) by lia. rewrite prodZ_cons. lia.
Qed.

Lemma reshape_rest_len j nd nl nst ns nl' ns' :
  (j <= length nd)%nat ->
  reshape_rest j nd nl nst ns = (nl', ns') ->
  length ns' = length ns /\ (nl = prodZ (skipn j nd) -> nl' = prodZ nd).
Proof.
  revert nl nst ns. induction j as [|j IH]; intros nl nst ns Hj H; cbn [reshape_rest] in H.
  - injection H as <- <-. auto.
  - apply IH in H; [|lia]. rewrite upd_length in H. destruct H as (H1 & H3).
    split; [auto|]. intros ->. apply H3.
    rewrite (skipn_cons_nth nd 0 (n := j)) by lia. rewrite prodZ_cons. lia.
Qed.

Definition sinv (nd : list Z) (s : reshape_state) : Prop :=
  (rs_j s <= length nd)%nat /\ length (rs_strides s) = length nd /\
  rs_new_len s = prodZ (skipn (rs_j s) nd).

Lemma reshape_step_sinv dims strides nd i s :
  sinv nd s -> sinv nd (reshape_step dims strides nd i s).
Proof.
  intros (H1 & H2 & H3). unfold reshape_step.
  destruct (reshape_inner _ _ _ _ _ _) as [[[j' nl] nst] ns'] eqn:RI.
  apply reshape_inner_len in RI; auto. destruct RI as (R1 & R2 & R3).
  unfold sinv. simpl. repeat split; try lia; auto.
Qed.

Lemma reshape_loop_sinv n dims strides nd s :
  sinv nd s -> sinv nd (reshape_loop n dims strides nd s).
Proof. revert s. induction n; intros s H; simpl; auto. apply IHn. now apply reshape_step_sinv. Qed.

(** Main lemma: an accepted reshape keeps the address of every element. *)
Theorem m_reshape_sound m ty req m' :
  wf_map m -> nonneg req -> ty_wf ty ->
  match sh_rank ty with Some k => length req = k | None => True end ->
  m_reshape m ty req = Ok m' ->
  sh_reshape (m_dims m) ty req = Ok (m_dims m') /\
  m_ty m' = ty /\ m_layout m' = m_layout m /\ wf_map m' /\ m_len m' = m_len m /\
  (forall k, 0 <= k < m_len m -> m_linear_offset m' k = m_linear_offset m k).
Proof.
  intros Hw HN HTy HR H.
  destruct m as [ty0 dims|ty0 dims strides]; cbn [m_reshape] in H.
  - apply bind_ok in H as (nd & HS & H). injection H as <-. cbn [m_dims m_ty m_layout m_linear_offset].
    edestruct sh_reshape_sound as (L & N & T & P); [exact (wf_nonneg Hw)|exact HN|exact HR|exact HS|].
    split; [auto|]. split; [auto|]. split; [auto|]. split; [|split].
    + constructor; cbn [m_dims m_ty m_strides]; auto. apply row_major_length.
    + unfold m_len. rewrite !sh_len_prod. exact P.
    + reflexivity.
  - apply bind_ok in H as (nd & HS & H).
    edestruct sh_reshape_sound as (L & N & T & P); [exact (wf_nonneg Hw)|exact HN|exact HR|exact HS|].
    cbn [m_dims] in P.
    apply bind_ok in H as (ns & HD & H). apply dims_new_ok_inv in HD.
    pose proof (wf_strides Hw) as HLs. cbn [m_dims m_strides] in HLs.
    set (s0 := {| rs_old_len := 1; rs_new_len := 1; rs_old_stride := 1; rs_new_stride := 1;
                  rs_valid := true; rs_j := length nd; rs_strides := ns |}) in *.
    set (s := reshape_loop (length dims) dims strides nd s0) in *.
    destruct (reshape_rest (rs_j s) nd (rs_new_len s) (rs_new_stride s) (rs_strides s)) as [nl ns'] eqn:RR.
    apply bind_ok in H as (u & A & H). apply assert_ok in A. injection H as <-.
    assert (SI : sinv nd s).
    { apply reshape_loop_sinv. unfold sinv. simpl. rewrite skipn_all. split; [lia|]. split; [|reflexivity].
      subst ns. apply repeat_length. }
    destruct SI as (SI1 & SI2 & SI3).
    pose proof (reshape_rest_len _ _ _ _ SI1 RR) as [RL RP].
    assert (HW' : wf_map (StridedM ty nd ns')).
    { constructor; cbn [m_dims m_ty m_strides]; auto. lia. }
    cbn [m_dims m_ty m_layout].
    split; [auto|]. split; [auto|]. split; [auto|]. split; [auto|]. split.
    { unfold m_len. cbn [m_dims]. rewrite !sh_len_prod. exact P. }
    intros k Hk. pose proof Hk as Hk0.
    unfold m_len in Hk. cbn [m_dims] in Hk. rewrite sh_len_prod in Hk.
    pose proof (wf_nonneg Hw) as HNd. cbn [m_dims] in HNd.
    assert (PD : positive dims) by (apply prodZ_pos_inv; auto; lia).
    assert (PN : positive nd) by (apply prodZ_pos_inv; auto; lia).
    rewrite RP in A by auto.
    assert (HV : rs_valid s = true).
    { destruct (Z.eqb_spec (prodZ nd) 0); [lia|]. exact A. }
    assert (HI : rinv dims strides nd 0 s).
    { apply reshape_loop_inv; auto. apply rinv_init; auto. subst ns. apply repeat_length. }
    destruct HI as (A0 & base & p & q & rs & Hb & Hqp & EO & EN & EOS & ENS & BA & BB & _).
    rewrite EN, ENS in RR. eapply reshape_rest_spec in RR; eauto.
    destruct RR as (q' & E1 & (_ & _ & Hq' & HP' & HL')).
    destruct BA as (_ & _ & Hp & HPA & HLA). cbn [skipn] in *.
    rewrite m_linear_offset_spec; [|exact HW'|].
    2:{ unfold m_len. cbn [m_dims]. rewrite sh_len_prod. lia. }
    rewrite m_linear_offset_spec; [|exact Hw|exact Hk0].
    rewrite !m_offset_dot; cbn [m_strides m_dims];
      [|lia|rewrite unflat_length; lia|lia|rewrite unflat_length; lia].
    change (addr_at ns' nd k = addr_at strides dims k).
    assert (q' = p) by nia. subst q'.
    rewrite (lin_full Hb HL') by lia. rewrite (lin_full Hb HLA) by lia. reflexivity.
Qed.

(** ** Reshaping to the same shape *)

Lemma inner_ones j nd nl nst ns j' nl' nst' ns' :
  positive nd -> (j <= length nd)%nat -> 0 < nl ->
  reshape_inner j nd nl nl nst ns = (j', nl', nst', ns') ->
  nl' = nl /\ (j' <= j)%nat /\ (forall t, (j' <= t < j)%nat -> nth t nd 0 = 1).
Proof.
  intros Hp. revert nst ns. induction j as [|j IH]; intros nst ns Hj Hnl H; cbn [reshape_inner] in H.
  - injection H as <- <- <- <-. split; [auto|]. split; [lia|]. intros; lia.
  - pose proof (positive_nth Hp Hj) as Hd.
    destruct (Z.gtb_spec (nl * nth j nd 0) nl) as [G|G].
    + injection H as <- <- <- <-. split; [auto|]. split; [lia|]. intros; lia.
    + assert (E : nth j nd 0 = 1) by nia. rewrite E in H. rewrite !Z.mul_1_r in H.
      apply IH in H; [|lia|lia]. destruct H as (H1 & H2 & H3).
      split; [auto|]. split; [lia|]. intros t Ht.
      destruct (Nat.eq_dec t j) as [->|]; [auto|]. apply H3. lia.
Qed.

Definition same_inv (dims : list Z) (n : nat) (s : reshape_state) : Prop :=
  rs_valid s = true /\ rs_old_len s = rs_new_len s /\ 0 < rs_new_len s /\ (rs_j s <= n)%nat /\
  (forall t, (rs_j s <= t < n)%nat -> nth t dims 0 = 1).

Lemma same_step dims strides i s :
  positive dims -> (S i <= length dims)%nat ->
  same_inv dims (S i) s -> same_inv dims i (reshape_step dims strides dims i s).
Proof.
  intros Hp Hi (HV & HE & HN & HJ & HO). unfold reshape_step. rewrite HE, Z.eqb_refl.
  pose proof (positive_nth Hp Hi) as Hd.
  set (d := nth i dims 0) in *. set (st := nth i strides 0).
  destruct (reshape_inner (rs_j s) dims (rs_new_len s * d) (rs_new_len s) st (rs_strides s))
    as [[[j' nl] nst] ns'] eqn:RI.
  unfold same_inv. cbn [rs_valid rs_old_len rs_new_len rs_j].
  destruct (Nat.eq_dec (rs_j s) (S i)) as [EJ|EJ].
  - rewrite EJ in RI. cbn [reshape_inner] in RI. fold d in RI.
    destruct (Z.gtb_spec (rs_new_len s * d) (rs_new_len s * d)) as [G|G]; [lia|].
    apply inner_ones in RI; auto; try nia.
    destruct RI as (-> & R2 & R3). split; [auto|]. split; [auto|]. split; [nia|]. split; [lia|].
    intros t Ht. apply R3. lia.
  - assert (E1 : d = 1) by (apply HO; lia). rewrite E1, Z.mul_1_r in *.
    apply inner_ones in RI; auto; try lia. destruct RI as (-> & R2 & R3).
    split; [auto|]. split; [auto|]. split; [auto|]. split; [lia|].
    intros t Ht. destruct (Nat.lt_ge_cases t (rs_j s)) as [L|L]; [apply R3; lia|].
    apply HO. lia.
Qed.

Lemma same_loop n dims strides s :
  positive dims -> (n <= length dims)%nat -> same_inv dims n s ->
  rs_valid (reshape_loop n dims strides dims s) = true.
Proof.
  intros Hp. revert s. induction n; intros s Hn HI; simpl.
  - apply HI.
  - apply IHn; [lia|]. now apply same_step.
Qed.

Theorem m_reshape_same m ty :
  wf_map m -> typed ty (m_dims m) -> fits (m_dims m) -> ~ In usize_max (m_dims m) ->
  exists m', m_reshape m ty (m_dims m) = Ok m' /\ m_dims m' = m_dims m /\
             m_ty m' = ty /\ m_layout m' = m_layout m.
Proof.
  intros Hw HT HF HM.
  assert (HS : sh_reshape (m_dims m) ty (m_dims m) = Ok (m_dims m)).
  { unfold sh_reshape. rewrite infer_loop_no by auto. cbn [bind].
    rewrite sh_store_typed by auto. cbn [bind]. rewrite checked_len_fits by auto.
    rewrite sh_len_prod, Z.eqb_refl. reflexivity. }
  destruct m as [ty0 dims|ty0 dims strides]; cbn [m_reshape m_dims m_layout] in *; rewrite HS; cbn [bind].
  - eexists. split; [reflexivity|]. auto.
  - rewrite (dims_new_spec ty dims) by (auto; now apply accepts_typed). cbn [bind].
    set (s0 := {| rs_old_len := 1; rs_new_len := 1; rs_old_stride := 1; rs_new_stride := 1;
                  rs_valid := true; rs_j := length dims; rs_strides := repeat 0 (length dims) |}).
    set (s := reshape_loop (length dims) dims strides dims s0).
    destruct (reshape_rest (rs_j s) dims (rs_new_len s) (rs_new_stride s) (rs_strides s)) as [nl ns'] eqn:RR.
    assert (SI : sinv dims s).
    { apply reshape_loop_sinv. unfold sinv. simpl. rewrite skipn_all. split; [lia|]. split; [|reflexivity].
      apply repeat_length. }
    destruct SI as (SI1 & SI2 & SI3). apply reshape_rest_len in RR as [_ RP]; auto.
    rewrite assert_true; [eexists; split; [reflexivity|auto]|].
    rewrite RP by auto. destruct (Z.eqb_spec (prodZ dims) 0) as [E|E]; [reflexivity|].
    simpl. pose proof (wf_nonneg Hw) as HN. cbn [m_dims] in HN.
    apply same_loop; [|lia|].
    + apply prodZ_pos_inv; auto. pose proof (prodZ_nonneg HN). lia.
    + unfold same_inv. simpl. repeat (split; [auto; lia|]). intros; lia.
Qed.

(** ** Completeness without size-1 dimensions *)

Lemma unflat_zero dims : positive dims -> unflat dims 0 = repeat 0 (length dims).
Proof.
  induction 1; simpl; auto. rewrite Z.div_0_l, Z.mod_0_l by (apply prodZ_pos in H0; lia).
  now f_equal.
Qed.

Lemma addr_at_zero strides dims : positive dims -> addr_at strides dims 0 = 0.
Proof. intros H. unfold addr_at. rewrite unflat_zero by auto. apply dot_zeros. Qed.

Lemma addr_skip n strides dims k :
  positive dims -> length strides = length dims -> (n <= length dims)%nat ->
  0 <= k < prodZ (skipn n dims) ->
  addr_at strides dims k = addr_at (skipn n strides) (skipn n dims) k.
Proof.
  revert strides dims. induction n; intros strides dims Hp HL Hn Hk; [reflexivity|].
  destruct dims as [|d ds], strides as [|s ss]; simpl in HL, Hn; try lia.
  inversion Hp; subst. cbn [skipn] in *. rewrite addr_at_cons.
  assert (Hle : prodZ (skipn n ds) <= prodZ ds).
  { rewrite <- (firstn_skipn n ds) in H2. apply positive_app in H2 as [P1 P2].
    rewrite <- (firstn_skipn n ds) at 2. rewrite prodZ_app. apply prodZ_pos in P1, P2. nia. }
  rewrite Z.div_small, Z.mod_small by lia. rewrite <- IHn by (auto; lia). lia.
Qed.

Lemma step_complete dims strides nd ns' i s :
  positive dims -> positive nd -> length strides = length dims -> length ns' = length nd ->
  prodZ nd = prodZ dims ->
  (forall k, 0 <= k < prodZ dims -> addr_at ns' nd k = addr_at strides dims k) ->
  nth i dims 0 <> 1 ->
  rinv dims strides nd (S i) s -> rs_valid s = true ->
  rs_valid (reshape_step dims strides nd i s) = true.
Proof.
  intros HPd HPn HL HLn HP HC H1 (A0 & base & p & q & rs & Hb & Hqp & EO & EN & EOS & ENS & BA & BB & HS) HV.
  pose proof BA as (Hi & HLA & Hp & HPA & HLinA). pose proof BB as (Hj & HLB & Hq & HPB & HLinB).
  pose proof (positive_nth HPd Hi) as Hd.
  unfold reshape_step. rewrite EO, EN.
  destruct (Z.eqb_spec (base * p) (base * q)) as [E|E];
    destruct (reshape_inner _ _ _ _ _ _) as [[[j' nl] nst] n2]; cbn [rs_valid]; [auto|].
  rewrite HV. cbn [andb]. apply Z.eqb_eq. rewrite EOS.
  assert (Hqp' : q < p) by nia.
  assert (Hbq : 0 < base * q) by (apply Z.mul_pos_pos; lia).
  assert (Hbqp : base * q < base * p) by (apply Z.mul_lt_mono_pos_l; lia).
  (* the old block is a proper part of the array *)
  assert (HDi : prodZ (skipn i dims) = nth i dims 0 * (base * p)).
  { rewrite (skipn_cons_nth dims 0) by lia. now rewrite prodZ_cons, HPA. }
  assert (HBig : prodZ (skipn i dims) <= prodZ dims).
  { pose proof HPd as H2. rewrite <- (firstn_skipn i dims) in H2. apply positive_app in H2 as [P1 P2].
    rewrite <- (firstn_skipn i dims) at 2. rewrite prodZ_app. apply prodZ_pos in P1, P2. nia. }
  assert (Hbp : base * p < prodZ (skipn i dims)) by nia.
  assert (HA0 : A0 0 = 0).
  { pose proof (HLinA 0 0 ltac:(lia) ltac:(lia)) as Z0. rewrite Z.mul_0_l, Z.add_0_l in Z0.
    rewrite addr_at_zero in Z0; [lia|]. rewrite <- (firstn_skipn (S i) dims), positive_app in HPd. tauto. }
  assert (Hst : addr_at strides dims (base * p) = nth i strides 0).
  { rewrite (addr_skip (n := i)) by (auto; nia).
    rewrite (skipn_cons_nth dims 0), (skipn_cons_nth strides 0) by lia.
    rewrite addr_at_cons, HPA, Z.div_same, Z.mod_same by nia. rewrite addr_at_zero; [lia|].
    rewrite <- (firstn_skipn (S i) dims), positive_app in HPd. tauto. }
  assert (Hold : forall y, 0 <= y < base * p -> addr_at strides dims y = A0 (y mod base) + (y / base) * rs).
  { intros y Hy. rewrite (addr_skip (n := S i)) by (auto; lia). now apply lin_full with (p := p). }
  destruct HS as [J0|[E2|Hstop]].
  - exfalso. rewrite J0 in HPB. cbn [skipn] in HPB. nia.
  - lia.
  - destruct (Nat.eq_dec (rs_j s) 0) as [J0|J0].
    { exfalso. rewrite J0 in HPB. cbn [skipn] in HPB. nia. }
    set (j := (rs_j s - 1)%nat) in *. replace (rs_j s) with (S j) in * by lia.
    set (d' := nth j nd 0) in *.
    assert (Hnd : prodZ (skipn j nd) = base * q * d').
    { rewrite (skipn_cons_nth nd 0) by lia. rewrite prodZ_cons, HPB. unfold d'. lia. }
    assert (HA : forall y, 0 <= y < base * q * d' ->
       addr_at ns' nd y = nth j ns' 0 * (y / (base * q)) + addr_at (skipn (S j) ns') (skipn (S j) nd) (y mod (base * q))).
    { intros y Hy. rewrite (addr_skip (n := j)) by (auto; lia).
      rewrite (skipn_cons_nth nd 0), (skipn_cons_nth ns' 0) by lia.
      now rewrite addr_at_cons, HPB. }
    assert (PNj : positive (skipn (S j) nd)) by (rewrite <- (firstn_skipn (S j) nd), positive_app in HPn; tauto).
    (* the stride of the spanning new dimension is forced *)
    assert (Hs : nth j ns' 0 = q * rs).
    { pose proof (HA (base * q) ltac:(lia)) as E1.
      rewrite Z.div_same, Z.mod_same in E1 by lia. rewrite addr_at_zero in E1 by auto.
      rewrite HC, Hold in E1 by lia.
      rewrite (Z.mul_comm base q), Z.mod_mul, Z.div_mul in E1 by lia. lia. }
    pose proof (HA (base * p) ltac:(lia)) as E1.
    rewrite HC, Hst, Hs in E1 by lia.
    assert (Hr : (base * p) mod (base * q) = base * (p mod q)) by (rewrite Zmult_mod_distr_l; lia).
    assert (Hdv : (base * p) / (base * q) = p / q) by (rewrite Z.div_mul_cancel_l; lia).
    rewrite Hr, Hdv in E1.
    pose proof (Z.mod_pos_bound p q ltac:(lia)) as Hm.
    assert (E3 : addr_at (skipn (S j) ns') (skipn (S j) nd) (base * (p mod q)) = (p mod q) * rs).
    { assert (Hpm : 0 <= base * (p mod q) < base * q)
        by (split; [apply Z.mul_nonneg_nonneg; lia|apply Z.mul_lt_mono_pos_l; lia]).
      rewrite <- (addr_skip (n := S j)) by (auto; try lia; rewrite HPB; lia).
      rewrite HC, Hold by lia.
      rewrite (Z.mul_comm base (p mod q)), Z.mod_mul, Z.div_mul by lia. lia. }
    rewrite E3 in E1. rewrite E1. pose proof (Z.div_mod p q ltac:(lia)) as DM.
    rewrite DM at 1. ring.
Qed.

Lemma loop_complete dims strides nd ns' n s :
  positive dims -> positive nd -> length strides = length dims -> length ns' = length nd ->
  prodZ nd = prodZ dims ->
  (forall k, 0 <= k < prodZ dims -> addr_at ns' nd k = addr_at strides dims k) ->
  ~ In 1 dims -> (n <= length dims)%nat ->
  rinv dims strides nd n s -> rs_valid s = true ->
  rs_valid (reshape_loop n dims strides nd s) = true.
Proof.
  intros HPd HPn HL HLn HP HC H1. revert s. induction n; intros s Hn HI HV; simpl; auto.
  assert (HV' : rs_valid (reshape_step dims strides nd n s) = true).
  { eapply step_complete; eauto. intros E. apply H1. rewrite <- E. apply nth_In. lia. }
  apply IHn; auto; [lia|]. now apply reshape_step_inv.
Qed.

Theorem m_reshape_complete m ty req nd m2 :
  wf_map m -> ~ In 1 (m_dims m) ->
  sh_reshape (m_dims m) ty req = Ok nd -> typed ty nd -> nonneg nd ->
  wf_map m2 -> m_dims m2 = nd -> prodZ nd = prodZ (m_dims m) ->
  (forall k, 0 <= k < m_len m -> m_linear_offset m2 k = m_linear_offset m k) ->
  exists m', m_reshape m ty req = Ok m'.
Proof.
  intros Hw H1 HS HT HN Hw2 HD HP HC.
  destruct m as [ty0 dims|ty0 dims strides]; cbn [m_reshape m_dims] in *; rewrite HS; cbn [bind]; eauto.
  rewrite (dims_new_spec ty nd) by (auto; now apply accepts_typed). cbn [bind].
  set (s0 := {| rs_old_len := 1; rs_new_len := 1; rs_old_stride := 1; rs_new_stride := 1;
                rs_valid := true; rs_j := length nd; rs_strides := repeat 0 (length nd) |}).
  set (s := reshape_loop (length dims) dims strides nd s0).
  destruct (reshape_rest (rs_j s) nd (rs_new_len s) (rs_new_stride s) (rs_strides s)) as [nl ns2] eqn:RR.
  assert (SI : sinv nd s).
  { apply reshape_loop_sinv. unfold sinv. simpl. rewrite skipn_all. split; [lia|]. split; [|reflexivity].
    apply repeat_length. }
  destruct SI as (SI1 & SI2 & SI3). apply reshape_rest_len in RR as [_ RP]; auto.
  rewrite assert_true; [eexists; reflexivity|].
  rewrite RP by auto. destruct (Z.eqb_spec (prodZ nd) 0) as [E|E]; [reflexivity|]. simpl.
  pose proof (wf_nonneg Hw) as HNd. cbn [m_dims] in HNd.
  pose proof (prodZ_nonneg HN). 
  assert (PD : positive dims) by (apply prodZ_pos_inv; auto; lia).
  assert (PN : positive nd) by (apply prodZ_pos_inv; auto; lia).
  pose proof (wf_strides Hw) as HLs. cbn [m_dims m_strides] in HLs.
  pose proof (wf_strides Hw2) as HLs2. rewrite HD in HLs2.
  apply loop_complete with (ns' := m_strides m2); auto.
  - intros k Hk. pose proof (HC k) as HCk. unfold m_len in HCk. cbn [m_dims] in HCk.
    rewrite sh_len_prod in HCk. specialize (HCk Hk).
    rewrite !m_linear_offset_spec in HCk; auto; try (unfold m_len; cbn [m_dims]; rewrite sh_len_prod; rewrite ?HD; lia).
    rewrite !m_offset_dot in HCk by (rewrite ?unflat_length, ?HD; auto).
    cbn [m_dims m_strides] in HCk. rewrite HD in HCk. exact HCk.
  - apply rinv_init; auto. apply repeat_length.
Qed.

(** ** Exactly when a non-empty strided view can be reshaped, size-1 dimensions included *)

(** The size-1 dimension [i] of the old shape lies on a border of the new shape, or its stride
    continues the next inner dimension. *)
Definition one_ok (dims strides nd : list Z) (i : nat) : Prop :=
  (exists j, (j <= length nd)%nat /\ prodZ (skipn j nd) = prodZ (skipn (S i) dims)) \/
  nth i strides 0 = nth (S i) strides 0 * nth (S i) dims 0.

(** The old stride is that of the dimension above the block seen so far. *)
Definition cont (dims strides : list Z) (i : nat) (s : reshape_state) : Prop :=
  rs_valid s = true -> (i < length dims)%nat -> rs_old_stride s = nth i strides 0 * nth i dims 0.

Lemma step_cont dims strides nd i s : cont dims strides i (reshape_step dims strides nd i s).
Proof.
  unfold cont, reshape_step.
  destruct (reshape_inner _ _ _ _ _ _) as [[[j' nl] nst] n2]; cbn [rs_valid rs_old_stride].
  destruct (rs_old_len s =? rs_new_len s); [auto|]. intros H _.
  apply andb_prop in H as [_ H]. apply Z.eqb_eq in H. now rewrite H.
Qed.

Lemma skipn_prod_mono (l : list Z) a b :
  positive l -> (a <= b)%nat -> prodZ (skipn b l) <= prodZ (skipn a l).
Proof.
  intros Hp Hab.
  assert (SK : forall x y (t : list Z), skipn x (skipn y t) = skipn (y + x) t).
  { intros x. induction y; intros t; [reflexivity|]. destruct t; [now rewrite !skipn_nil|]. apply IHy. }
  assert (E : skipn b l = skipn (b - a) (skipn a l)) by (rewrite SK; f_equal; lia).
  rewrite E. set (l' := skipn a l).
  assert (Hp' : positive l') by (rewrite <- (firstn_skipn a l), positive_app in Hp; tauto).
  rewrite <- (firstn_skipn (b - a) l') at 2. rewrite prodZ_app.
  rewrite <- (firstn_skipn (b - a) l'), positive_app in Hp'. destruct Hp' as [P1 P2].
  apply prodZ_pos in P1, P2. nia.
Qed.

(** Inside a block no border of the new shape matches the old one. *)
Lemma rinv_border dims strides nd i s j :
  positive nd -> rinv dims strides nd (S i) s -> (j <= length nd)%nat ->
  prodZ nd = prodZ dims -> positive dims ->
  prodZ (skipn j nd) = prodZ (skipn (S i) dims) -> rs_old_len s = rs_new_len s.
Proof.
  intros HPn (A0 & base & p & q & rs & Hb & Hqp & EO & EN & EOS & ENS & BA & BB & HS) Hj HP HPd E.
  pose proof BA as (Hi & HLA & Hp & HPA & _). pose proof BB as (Hj' & HLB & Hq & HPB & _).
  rewrite EO, EN. destruct (Z.eq_dec q p) as [->|N]; [reflexivity|exfalso].
  assert (L : base * q < base * p) by (apply Z.mul_lt_mono_pos_l; lia).
  destruct (Nat.le_gt_cases (rs_j s) j) as [G|G].
  - pose proof (skipn_prod_mono HPn G). lia.
  - destruct HS as [J0|[E2|Hst]]; [lia|lia|].
    assert (G' : (j <= rs_j s - 1)%nat) by lia.
    pose proof (skipn_prod_mono HPn G') as M.
    rewrite (skipn_cons_nth nd 0 (n := (rs_j s - 1)%nat)) in M by lia.
    replace (S (rs_j s - 1)) with (rs_j s) in M by lia.
    rewrite prodZ_cons, HPB in M. lia.
Qed.

Lemma loop_complete_ones dims strides nd ns' n s :
  positive dims -> positive nd -> length strides = length dims -> length ns' = length nd ->
  prodZ nd = prodZ dims ->
  (forall k, 0 <= k < prodZ dims -> addr_at ns' nd k = addr_at strides dims k) ->
  (forall i, (S i < length dims)%nat -> nth i dims 0 = 1 -> one_ok dims strides nd i) ->
  (n <= length dims)%nat ->
  (n = length dims -> rs_old_len s = rs_new_len s) ->
  cont dims strides n s ->
  rinv dims strides nd n s -> rs_valid s = true ->
  rs_valid (reshape_loop n dims strides nd s) = true.
Proof.
  intros HPd HPn HL HLn HP HC H1. revert s. induction n; intros s Hn HF HK HI HV; simpl; auto.
  assert (HV' : rs_valid (reshape_step dims strides nd n s) = true).
  { destruct (Z.eq_dec (nth n dims 0) 1) as [E|E].
    - unfold reshape_step. destruct (Z.eqb_spec (rs_old_len s) (rs_new_len s)) as [Q|Q];
        destruct (reshape_inner _ _ _ _ _ _) as [[[j' nl] nst] n2]; cbn [rs_valid]; [auto|].
      rewrite HV. cbn [andb]. apply Z.eqb_eq.
      assert (L : (S n < length dims)%nat).
      { destruct (Nat.eq_dec (S n) (length dims)) as [X|X]; [|lia]. elim Q. now apply HF. }
      destruct (H1 n L E) as [(j & Hj & Ej)|Es].
      + elim Q. eapply rinv_border; eauto.
      + rewrite (HK HV L). now symmetry.
    - eapply step_complete; eauto. }
  apply IHn; auto; [lia|lia|apply step_cont|]. now apply reshape_step_inv.
Qed.

Lemma step_valid_inv dims strides nd i s :
  rs_valid (reshape_step dims strides nd i s) = true ->
  rs_valid s = true /\ (rs_old_len s = rs_new_len s \/ rs_old_stride s = nth i strides 0).
Proof.
  unfold reshape_step. destruct (Z.eqb_spec (rs_old_len s) (rs_new_len s));
    destruct (reshape_inner _ _ _ _ _ _) as [[[j' nl] nst] n2]; cbn [rs_valid]; [auto|].
  intros H. apply andb_prop in H as [H1 H2]. apply Z.eqb_eq in H2. auto.
Qed.

Lemma loop_valid_inv n dims strides nd s :
  rs_valid (reshape_loop n dims strides nd s) = true -> rs_valid s = true.
Proof.
  revert s. induction n; intros s; simpl; auto. intros H. apply IHn in H.
  now apply step_valid_inv in H.
Qed.

Lemma loop_needs dims strides nd n s :
  positive dims -> positive nd -> length strides = length dims -> prodZ nd = prodZ dims ->
  (n <= length dims)%nat -> cont dims strides n s -> rinv dims strides nd n s ->
  rs_valid (reshape_loop n dims strides nd s) = true ->
  forall i, (i < n)%nat -> (S i < length dims)%nat -> one_ok dims strides nd i.
Proof.
  intros HPd HPn HL HP. revert s. induction n; intros s Hn HK HI HV i Hi Hi2; [lia|].
  simpl in HV. pose proof (@loop_valid_inv _ _ _ _ _ HV) as HV1. pose proof (@step_valid_inv _ _ _ _ _ HV1) as [HV0 Q].
  destruct (Nat.eq_dec i n) as [->|N].
  - destruct Q as [Q|Q].
    + left. destruct HI as (A0 & base & p & q & rs & Hb & Hqp & EO & EN & EOS & ENS & BA & BB & HS).
      exists (rs_j s). destruct BA as (? & ? & ? & HPA & _). destruct BB as (? & ? & ? & HPB & _).
      split; [auto|]. lia.
    + right. rewrite <- Q. now apply HK.
  - eapply IHn; [lia|apply step_cont| |exact HV|lia|auto]. now apply reshape_step_inv.
Qed.

Theorem m_reshape_exact m ty req nd :
  wf_map m -> 0 < prodZ (m_dims m) -> nonneg req -> ty_wf ty ->
  match sh_rank ty with Some k => length req = k | None => True end ->
  sh_reshape (m_dims m) ty req = Ok nd -> typed ty nd -> nonneg nd -> prodZ nd = prodZ (m_dims m) ->
  ((exists m', m_reshape m ty req = Ok m') <->
   ((exists m2, wf_map m2 /\ m_dims m2 = nd /\
      forall k, 0 <= k < m_len m -> m_linear_offset m2 k = m_linear_offset m k) /\
    forall i, (S i < length (m_dims m))%nat -> nth i (m_dims m) 0 = 1 ->
      one_ok (m_dims m) (m_strides m) nd i)).
Proof.
  intros Hw HPos HNr HTw HRk HS HT HN HP.
  pose proof (wf_nonneg Hw) as HNd. pose proof (wf_strides Hw) as HLs.
  assert (PD : positive (m_dims m)) by (apply prodZ_pos_inv; auto; lia).
  assert (PN : positive nd) by (apply prodZ_pos_inv; auto; lia).
  set (s0 := {| rs_old_len := 1; rs_new_len := 1; rs_old_stride := 1; rs_new_stride := 1;
                rs_valid := true; rs_j := length nd; rs_strides := repeat 0 (length nd) |}).
  assert (K0 : cont (m_dims m) (m_strides m) (length (m_dims m)) s0) by (unfold cont; intros; lia).
  split.
  - intros [m' H]. destruct (@m_reshape_sound m ty req m' Hw HNr HTw HRk H) as (S1 & S2 & S3 & S4 & S5 & S6).
    split; [exists m'; split; [auto|split; [congruence|auto]]|].
    intros i Hi Hone.
    destruct m as [ty0 dims|ty0 dims strides]; cbn [m_reshape m_dims m_strides] in *.
    + right. rewrite !nth_row_major by lia.
      rewrite (skipn_cons_nth dims 0 (n := S i)) by lia. rewrite prodZ_cons. lia.
    + rewrite HS in H. cbn [bind] in H.
      rewrite (dims_new_spec ty nd) in H by (auto; now apply accepts_typed). cbn [bind] in H. fold s0 in H.
      set (s := reshape_loop (length dims) dims strides nd s0) in *.
      destruct (reshape_rest (rs_j s) nd (rs_new_len s) (rs_new_stride s) (rs_strides s)) as [nl ns2] eqn:RR.
      assert (SI : sinv nd s).
      { apply reshape_loop_sinv. unfold sinv. simpl. rewrite skipn_all. split; [lia|]. split; [|reflexivity].
        apply repeat_length. }
      destruct SI as (SI1 & SI2 & SI3). apply reshape_rest_len in RR as [_ RP]; auto.
      rewrite RP in H by auto. destruct (Z.eqb_spec (prodZ nd) 0) as [E|E]; [lia|].
      destruct (rs_valid s) eqn:V; [|discriminate H].
      eapply loop_needs with (n := length dims) (s := s0); auto.
      * apply rinv_init; auto. apply repeat_length.
      * lia.
  - intros [(m2 & Hw2 & HD & HC) H1].
    destruct m as [ty0 dims|ty0 dims strides]; cbn [m_reshape m_dims m_strides] in *; rewrite HS; cbn [bind]; eauto.
    rewrite (dims_new_spec ty nd) by (auto; now apply accepts_typed). cbn [bind]. fold s0.
    set (s := reshape_loop (length dims) dims strides nd s0).
    destruct (reshape_rest (rs_j s) nd (rs_new_len s) (rs_new_stride s) (rs_strides s)) as [nl ns2] eqn:RR.
    rewrite assert_true; [eexists; reflexivity|]. apply orb_true_iff. right.
    pose proof (wf_strides Hw2) as HLs2. rewrite HD in HLs2.
    apply loop_complete_ones with (ns' := m_strides m2); auto.
    + intros k Hk. pose proof (HC k) as HCk. unfold m_len in HCk. cbn [m_dims] in HCk.
      rewrite sh_len_prod in HCk. specialize (HCk Hk).
      rewrite !m_linear_offset_spec in HCk; auto; try (unfold m_len; cbn [m_dims]; rewrite sh_len_prod; rewrite ?HD; lia).
      rewrite !m_offset_dot in HCk by (rewrite ?unflat_length, ?HD; auto).
      cbn [m_dims m_strides] in HCk. rewrite HD in HCk. exact HCk.
    + apply rinv_init; auto. apply repeat_length.
Qed.

(** An empty view takes every shape of length 0. *)
Theorem m_reshape_empty m ty req nd :
  prodZ nd = 0 -> sh_reshape (m_dims m) ty req = Ok nd -> typed ty nd ->
  exists m', m_reshape m ty req = Ok m'.
Proof.
  intros HP HS HT.
  destruct m as [ty0 dims|ty0 dims strides]; cbn [m_reshape m_dims] in *; rewrite HS; cbn [bind]; eauto.
  rewrite (dims_new_spec ty nd) by (auto; now apply accepts_typed). cbn [bind].
  set (s0 := {| rs_old_len := 1; rs_new_len := 1; rs_old_stride := 1; rs_new_stride := 1;
                rs_valid := true; rs_j := length nd; rs_strides := repeat 0 (length nd) |}).
  set (s := reshape_loop (length dims) dims strides nd s0).
  destruct (reshape_rest (rs_j s) nd (rs_new_len s) (rs_new_stride s) (rs_strides s)) as [nl ns2] eqn:RR.
  assert (SI : sinv nd s).
  { apply reshape_loop_sinv. unfold sinv. simpl. rewrite skipn_all. split; [lia|]. split; [|reflexivity].
    apply repeat_length. }
  destruct SI as (SI1 & SI2 & SI3). apply reshape_rest_len in RR as [_ RP]; auto.
  rewrite assert_true; [eexists; reflexivity|]. rewrite RP, HP by auto. reflexivity.
Qed.
