(** Owned arrays: the facts about the operations in the vocabulary of TensorSpec.v only. *)
From Verif Require Import MappingFacts MapOps ReshapeFacts.
From Verif Require Import Base Spec SpecFacts Shape Mapping Index View Wf MappingFacts ViewFacts.
From Verif Require Import Expr ExprSpec ExprFacts IterFacts SourceFacts ExprTree ExprMore.
From Verif Require Import Tensor TraceFacts TensorSpec TensorFacts ResizeFacts TensorOps DrainFacts OwnFacts ZipFacts OwnMore History HistoryFacts.
Unset Strict Implicit.

(** The first dimension exists and is not constant. *)
Definition has_rows {T} (t : tensor T) (n : Z) (ds : list Z) : Prop :=
  tn_dims t = n :: ds /\ sh_head (tn_ty t) = DDyn.

Lemma has_rows_ok {T} (t : tensor T) n ds : has_rows t n ds -> outer_ok t = true.
Proof. intros [E H]. unfold outer_ok, head_dyn. now rewrite E, H. Qed.

Lemma rows_cases {T} (t : tensor T) :
  (exists n ds, has_rows t n ds) \/ (outer_ok t = false /\ forall n ds, ~ has_rows t n ds).
Proof.
  unfold has_rows, outer_ok, head_dyn. destruct (tn_dims t) as [|n ds]; cbn [length Nat.ltb Nat.leb andb].
  - right. split; auto. intros n ds [E _]. discriminate.
  - destruct (sh_head (tn_ty t)); [|left; eauto]. right. split; auto. intros n' ds' [_ E]. discriminate.
Qed.

Lemma no_rows {T} (t : tensor T) : (forall n ds, ~ has_rows t n ds) -> outer_ok t = false.
Proof. intros H. destruct (rows_cases t) as [(n & ds & E)|[E _]]; auto. now apply H in E. Qed.

Lemma rows_facts {T} (t : tensor T) n ds : tensor_ok t -> has_rows t n ds ->
  0 <= n /\ nonneg ds /\ zlen (tn_mem t) = n * prodZ ds.
Proof.
  intros Ht [E _]. pose proof (to_nonneg Ht) as HN. pose proof (to_len Ht) as HL. rewrite E in *. inversion HN; subst.
  rewrite prodZ_cons in HL. auto.
Qed.

Lemma rows_whole {T} n ds (l : list T) : zlen l = n * prodZ ds -> rows_of (n :: ds) l 0 n = l.
Proof.
  intros H. unfold rows_of. cbn [tl]. rewrite Z.sub_0_r, Z.mul_0_l. cbn [Z.to_nat skipn]. unfold zlen in H.
  apply firstn_all2. lia.
Qed.

(** ** expand *)

Lemma expand_rows {T Y C} al (e : expression Y) (cl : Y -> C -> call T C) ys xs c t w n ds m :
  tensor_ok t -> has_rows t n ds -> 0 < prodZ (tn_dims t) -> (forall k, al_ok al k = true) ->
  e_dims e = m :: ds -> 0 < m -> e_collect e = Ok ys -> zlen ys = prodZ (e_dims e) ->
  gives (map cl ys) (w_clo w) = (xs, c, true) ->
  exists cap, zlen (tn_mem t ++ xs) <= cap /\
    tn_expand al e cl (t, w) = Done tt (mkTensor (tn_ty t) (n + m :: ds) (tn_mem t ++ xs) cap, after c xs [] w).
Proof.
  intros Ht HR HP HA HE Hm HC HY HG. destruct (rows_facts Ht HR) as (Hn & HN & HL). pose proof (prodZ_nonneg HN).
  pose proof (proj1 HR) as ED. assert (0 < n * prodZ ds) by (rewrite <- prodZ_cons, <- ED; auto).
  assert (0 < prodZ ds) by nia.
  destruct (@expand_done T Y C al e cl ys xs c t w) as (cap & G1 & G2 & G3); auto.
  - eapply has_rows_ok; eauto.
  - rewrite HE. constructor; auto. lia.
  - rewrite HE, prodZ_cons. nia.
  - unfold growable. rewrite ED, HE. cbn [length tl]. destruct (Z.eqb_spec (prodZ (n :: ds)) 0); [rewrite prodZ_cons in *; lia|]. auto.
  - exists cap. split; auto. rewrite G3. unfold grown. rewrite ED, HE. cbn [nth upd].
    destruct (Z.eqb_spec (prodZ (n :: ds)) 0); [rewrite prodZ_cons in *; lia|]. reflexivity.
Qed.

Lemma expand_empty {T Y C} al (e : expression Y) (cl : Y -> C -> call T C) ys xs c t w n ds :
  tensor_ok t -> has_rows t n ds -> prodZ (tn_dims t) = 0 -> (forall k, al_ok al k = true) ->
  nonneg (e_dims e) -> typed (tn_ty t) (e_dims e) -> 0 < prodZ (e_dims e) ->
  e_collect e = Ok ys -> zlen ys = prodZ (e_dims e) -> gives (map cl ys) (w_clo w) = (xs, c, true) ->
  exists cap, zlen xs <= cap /\
    tn_expand al e cl (t, w) = Done tt (mkTensor (tn_ty t) (e_dims e) xs cap, after c xs [] w).
Proof.
  intros Ht HR HP HA HE HT Hm HC HY HG.
  destruct (@expand_done T Y C al e cl ys xs c t w) as (cap & H1 & H2 & H3); auto.
  - eapply has_rows_ok; eauto.
  - unfold growable. now rewrite HP.
  - assert (EM : tn_mem t = []).
    { pose proof (to_len Ht) as HL. rewrite HP in HL. destruct (tn_mem t); [auto|cbn in HL; lia]. }
    rewrite EM in *. cbn [app] in *. exists cap. split; auto. rewrite H3. unfold grown. now rewrite HP.
Qed.

Lemma expand_refused {T Y C} al (e : expression Y) (cl : Y -> C -> call T C) t w n ds :
  tensor_ok t -> has_rows t n ds -> (forall k, al_ok al k = true) -> 0 < prodZ (e_dims e) ->
  (0 < prodZ (tn_dims t) -> tl (e_dims e) <> ds \/ e_dims e = []) ->
  (prodZ (tn_dims t) = 0 -> ~ typed (tn_ty t) (e_dims e)) ->
  exists cap, tn_cap t <= cap /\
    tn_expand al e cl (t, w) = Unwound (mkTensor (tn_ty t) (tn_dims t) (tn_mem t) cap, w).
Proof.
  intros Ht HR HA Hm H1 H2. apply expand_mismatch; auto; [eapply has_rows_ok; eauto|].
  unfold growable. pose proof (prodZ_nonneg (to_nonneg Ht)). destruct (Z.eqb_spec (prodZ (tn_dims t)) 0) as [E|E]; [auto|].
  destruct HR as [ED _]. rewrite ED. cbn [length tl]. intros [G1 G2]. destruct (H1 ltac:(lia)) as [K|K]; [auto|].
  rewrite K in G1. discriminate.
Qed.

Lemma expand_nothing {T Y C} al (e : expression Y) (cl : Y -> C -> call T C) t w n ds :
  has_rows t n ds -> prodZ (e_dims e) <= 0 -> tn_expand al e cl (t, w) = Done tt (t, w).
Proof. intros HR H. apply expand_other; auto. eapply has_rows_ok; eauto. Qed.

Lemma expand_no_rows {T Y C} al (e : expression Y) (cl : Y -> C -> call T C) t w :
  (forall n ds, ~ has_rows t n ds) -> tn_expand al e cl (t, w) = Unwound (t, w).
Proof. intros H. apply expand_other. now apply no_rows. Qed.

(** ** append *)

Lemma append_rows {T C} al (t u : tensor T) (w : world T C) n m ds :
  tensor_ok t -> tensor_ok u -> has_rows t n ds -> has_rows u m ds -> 0 < n -> 0 < m -> 0 < prodZ ds ->
  (forall k, al_ok al k = true) ->
  exists cap, zlen (tn_mem t ++ tn_mem u) <= cap /\
    tn_append al (t, u, w) =
    Done tt (mkTensor (tn_ty t) (n + m :: ds) (tn_mem t ++ tn_mem u) cap,
             mkTensor (tn_ty u) (0 :: ds) [] (tn_cap u), w).
Proof.
  intros Ht Hu HR HU Hn Hm HP HA.
  destruct (@append_cases T C al t u w Ht Hu (has_rows_ok HU)) as [[_ [[H _]|(_ & _ & cap & H1 & H2 & H3)]]|[[H|[H|[k H]]] _]].
  - exfalso. rewrite (proj1 HU), prodZ_cons in H. nia.
  - exists cap. split; auto. rewrite H3. unfold grown, emptied. rewrite (proj1 HR), (proj1 HU). cbn [nth upd].
    destruct (Z.eqb_spec (prodZ (n :: ds)) 0) as [E|E]; [rewrite prodZ_cons in E; nia|reflexivity].
  - rewrite (has_rows_ok HR) in H. discriminate.
  - exfalso. apply H. unfold growable. rewrite (proj1 HR), (proj1 HU).
    destruct (Z.eqb_spec (prodZ (n :: ds)) 0) as [E|E]; [rewrite prodZ_cons in E; nia|]. auto.
  - rewrite HA in H. discriminate.
Qed.

Lemma append_empty {T C} al (t u : tensor T) (w : world T C) n ds m dt :
  tensor_ok t -> tensor_ok u -> has_rows t n ds -> has_rows u m dt -> prodZ (tn_dims t) = 0 -> 0 < prodZ (tn_dims u) ->
  typed (tn_ty t) (tn_dims u) -> (forall k, al_ok al k = true) ->
  exists cap, zlen (tn_mem u) <= cap /\
    tn_append al (t, u, w) =
    Done tt (mkTensor (tn_ty t) (tn_dims u) (tn_mem u) cap, mkTensor (tn_ty u) (0 :: dt) [] (tn_cap u), w).
Proof.
  intros Ht Hu HR HU HP Hm HY HA.
  destruct (@append_cases T C al t u w Ht Hu (has_rows_ok HU)) as [[_ [[H _]|(_ & _ & cap & H1 & H2 & H3)]]|[[H|[H|[k H]]] _]].
  - exfalso. lia.
  - assert (EM : tn_mem t = []).
    { pose proof (to_len Ht) as HL. rewrite HP in HL. destruct (tn_mem t); [auto|cbn in HL; lia]. }
    rewrite EM in *. cbn [app] in *.
    exists cap. split; auto. rewrite H3. unfold grown, emptied. rewrite HP. rewrite (proj1 HU). reflexivity.
  - rewrite (has_rows_ok HR) in H. discriminate.
  - exfalso. apply H. unfold growable. rewrite HP. cbn [Z.eqb]. exact HY.
  - rewrite HA in H. discriminate.
Qed.

Lemma append_refused {T C} al (t u : tensor T) (w : world T C) m dt :
  tensor_ok t -> tensor_ok u -> has_rows u m dt -> 0 < prodZ (tn_dims u) ->
  (forall n ds, has_rows t n ds -> 0 < prodZ (tn_dims t) -> dt <> ds) ->
  (forall n ds, has_rows t n ds -> prodZ (tn_dims t) = 0 -> ~ typed (tn_ty t) (tn_dims u)) ->
  exists cap, tn_cap t <= cap /\
    tn_append al (t, u, w) =
    Unwound (mkTensor (tn_ty t) (tn_dims t) (tn_mem t) cap, mkTensor (tn_ty u) (0 :: dt) [] (tn_cap u),
             w_drop (tn_mem u) w).
Proof.
  intros Ht Hu HU Hm H1 H2.
  assert (EE : emptied u = mkTensor (tn_ty u) (0 :: dt) [] (tn_cap u)) by (unfold emptied; rewrite (proj1 HU); reflexivity).
  rewrite <- EE.
  destruct (@append_cases T C al t u w Ht Hu (has_rows_ok HU)) as [[HO [[H _]|(_ & H & _)]]|[_ (cap & K1 & K2)]].
  - exfalso. lia.
  - exfalso. destruct (rows_cases t) as [(n & ds & HR)|[E _]]; [|congruence].
    unfold growable in H. pose proof (prodZ_nonneg (to_nonneg Ht)).
    destruct (Z.eqb_spec (prodZ (tn_dims t)) 0) as [E|E]; [now apply (H2 n ds HR E)|].
    destruct H as [_ H]. rewrite (proj1 HR), (proj1 HU) in H. cbn [tl] in H. apply (H1 n ds HR); [lia|auto].
  - exists cap. auto.
Qed.

Lemma append_nothing {T C} al (t u : tensor T) (w : world T C) n ds m dt :
  tensor_ok t -> tensor_ok u -> has_rows t n ds -> has_rows u m dt -> prodZ (tn_dims u) = 0 ->
  tn_append al (t, u, w) = Done tt (t, mkTensor (tn_ty u) (0 :: dt) [] (tn_cap u), w).
Proof.
  intros Ht Hu HR HU HP.
  assert (EE : emptied u = mkTensor (tn_ty u) (0 :: dt) [] (tn_cap u)) by (unfold emptied; rewrite (proj1 HU); reflexivity).
  rewrite <- EE. apply append_none; auto; eapply has_rows_ok; eauto.
Qed.

(** ** drain *)

Lemma drain_rows {T} (t : tensor T) lo hi n ds :
  tensor_ok t -> has_rows t n ds -> n <= usize_max -> bound_arg lo -> bound_arg hi ->
  range_lo lo <= range_hi n hi <= n ->
  let a := range_lo lo in let b := range_hi n hi in
  exists d, tn_drain t lo hi = Ok d /\
    forall k C (w : world T C),
      let out := rows_of (n :: ds) (tn_mem t) a b in
      exists it, it_nexts k (it_new (e_drain d)) = Ok (map Some (firstn k out) ++ repeat None (k - length out), it) /\
        drain_drop (it_st it) w =
          Done tt (mkTensor (tn_ty t) (n - (b - a) :: ds)
                     (rows_of (n :: ds) (tn_mem t) 0 a ++ rows_of (n :: ds) (tn_mem t) b n) (tn_cap t),
                   w_drop (skipn k out) w) /\
        drain_leak (it_st it) = Some (mkTensor (tn_ty t) (a :: ds) (rows_of (n :: ds) (tn_mem t) 0 a) (tn_cap t)).
Proof.
  intros Ht HR HU Hl Hh HB a b. pose proof (has_rows_ok HR) as HO. pose proof (proj1 HR) as ED.
  exists (drained t a b). assert (EN : nth 0 (tn_dims t) 0 = n) by (rewrite ED; reflexivity). split.
  - rewrite drain_ok_eq by (auto; lia). rewrite HO, EN. fold a b. cbn [andb].
    destruct (Z.leb_spec a b); [|unfold a, b in *; lia]. destruct (Z.leb_spec b n); [|unfold b in *; lia]. reflexivity.
  - intros k C w.
    assert (Ha : 0 <= a <= b).
    { split; [|unfold a, b; lia]. unfold a. destruct lo; unfold bound_arg, usize, range_lo in *; lia. }
    assert (Hb : b <= nth 0 (tn_dims t) 0) by (rewrite EN; unfold b; lia).
    assert (ER : forall x y, rows_of (n :: ds) (tn_mem t) x y = rows t x y) by (intros; unfold rows_of, rows, cells; now rewrite ED).
    cbv zeta. rewrite !ER. destruct (drain_nexts Ht HO Ha Hb k) as (it & E & ES). exists it. split; [exact E|].
    rewrite ES. split.
    + rewrite drain_drop_eq by (auto; lia). unfold remaining. rewrite ED. cbn [upd nth]. f_equal.
      assert (EK : skipn (Nat.min k (length (rows t a b))) (rows t a b) = skipn k (rows t a b)).
      { destruct (Nat.le_ge_cases k (length (rows t a b))); [now rewrite Nat.min_l|]. rewrite Nat.min_r, !skipn_all2 by lia. reflexivity. }
      now rewrite EK.
    + rewrite (drain_leak_eq Ht HO Ha Hb). now rewrite ED.
Qed.

Lemma drain_panics {T} (t : tensor T) lo hi :
  tensor_ok t -> bound_arg lo -> bound_arg hi ->
  (forall n ds, has_rows t n ds -> n <= usize_max /\ ~ (range_lo lo <= range_hi n hi <= n)) ->
  tn_drain t lo hi = Panic.
Proof.
  intros Ht Hl Hh H. destruct (rows_cases t) as [(n & ds & HR)|[E _]].
  - destruct (H n ds HR) as [HU HN]. rewrite drain_ok_eq; auto; [|now rewrite (proj1 HR)].
    rewrite (has_rows_ok HR), (proj1 HR). cbn [nth andb].
    destruct (Z.leb_spec (range_lo lo) (range_hi n hi)); cbn [andb]; auto.
    destruct (Z.leb_spec (range_hi n hi) n); auto. lia.
  - unfold tn_drain. unfold outer_ok in E. destruct (0 <? length (tn_dims t))%nat; cbn [andb] in E; cbn [assert bind]; [|reflexivity].
    rewrite E. reflexivity.
Qed.

(** ** truncate *)

Lemma truncate_rows {T C} (t : tensor T) (w : world T C) n ds size :
  tensor_ok t -> has_rows t n ds -> 0 <= size ->
  let k := Z.min size n in
  tn_truncate size (t, w) =
  Done tt (mkTensor (tn_ty t) (k :: ds) (rows_of (n :: ds) (tn_mem t) 0 k) (tn_cap t),
           w_drop (rows_of (n :: ds) (tn_mem t) k n) w).
Proof.
  intros Ht HR Hs k. destruct (rows_facts Ht HR) as (Hn & HN & HL). pose proof (prodZ_nonneg HN) as HP.
  rewrite truncate_done; auto; [|eapply has_rows_ok; eauto]. rewrite (proj1 HR). cbn [nth upd tl]. fold k.
  unfold rows_of. cbn [tl]. rewrite Z.sub_0_r, Z.mul_0_l. cbn [Z.to_nat skipn]. cbv zeta.
  rewrite (@firstn_all2 _ (Z.to_nat ((n - k) * prodZ ds))) by (rewrite skipn_length; unfold zlen in HL; nia).
  reflexivity.
Qed.

Lemma truncate_no_rows {T C} (t : tensor T) (w : world T C) size :
  (forall n ds, ~ has_rows t n ds) -> tn_truncate size (t, w) = Unwound (t, w).
Proof. intros H. apply truncate_panics. now apply no_rows. Qed.

(** ** resize *)

Lemma resize_elem {T C} al new (f : C -> call T C) t w vs c :
  tensor_ok t -> nonneg new -> typed (tn_ty t) new -> length new = length (tn_dims t) -> fits new ->
  (forall n, al_ok al n = true) ->
  gives (repeat f (fresh (tn_dims t) new)) (w_clo w) = (vs, c, true) ->
  exists cap xs, zlen xs = prodZ new /\ zlen xs <= cap /\
    tn_resize_with al new f (t, w) =
    Done tt (mkTensor (tn_ty t) new xs cap, after c vs (lost (tn_dims t) (tn_mem t) new) w) /\
    (forall idx, in_bounds new idx ->
      elem_at new xs idx = if inside (tn_dims t) idx then elem_at (tn_dims t) (tn_mem t) idx
                           else nth_error vs (fresh_before (tn_dims t) new idx)).
Proof.
  intros Ht Hn HY HL HF HA HG. pose proof (gives_length HG) as [_ HV]. specialize (HV eq_refl). rewrite repeat_length in HV.
  pose proof (to_len Ht) as HM. destruct new as [|n0 nt] eqn:EN.
  - destruct (tn_dims t) as [|? ?] eqn:ED; [|discriminate].
    assert (EF : fresh [] [] = 0%nat) by reflexivity. rewrite EF in *. destruct vs; [|discriminate].
    cbn in HG. inversion HG; subst c. exists (tn_cap t), (tn_mem t). split; [exact HM|]. split; [apply (to_cap Ht)|].
    split.
    + rewrite resize_rank0 by auto. rewrite (@lost_same T [] (tn_mem t)), after_nil.
      destruct t as [ty0 d0 m0 c0]. cbn in ED. subst d0. reflexivity.
    + intros idx Hi. rewrite (proj2 (inside_spec [] idx) Hi). reflexivity.
  - rewrite <- EN in *. destruct (@resize_done T C al new f t w vs c) as (cap & H1 & H2); auto; [subst; discriminate|].
    exists cap, (fill_missing (elem_at (tn_dims t) (tn_mem t)) (indices new) vs).
    assert (EL : zlen (fill_missing (elem_at (tn_dims t) (tn_mem t)) (indices new) vs) = prodZ new).
    { unfold zlen. rewrite fill_length by (rewrite HV; now apply fresh_missing). rewrite indices_length by auto.
      pose proof (prodZ_nonneg Hn). lia. }
    split; auto. split; [lia|]. split; auto. intros idx Hi. now apply fill_elem.
Qed.

(** A failed resize. *)
Lemma has_dyn_default ty : (exists i, nth_error (match ty with STuple ds => ds | SDynRank => [DDyn] end) i = Some DDyn) ->
  prodZ (sh_default ty) = 0.
Proof.
  intros [i H]. destruct ty as [|ds]; [reflexivity|]. cbn [sh_default].
  revert i H. induction ds as [|d ds IH]; intros [|i] H; try discriminate; cbn [nth_error] in H; cbn [map]; rewrite prodZ_cons.
  - inversion H. reflexivity.
  - rewrite (IH _ H). lia.
Qed.

Lemma resize_unwound {T C} al new (f : C -> call T C) t (w : world T C) :
  tensor_ok t -> nonneg new -> prodZ (sh_default (tn_ty t)) = 0 ->
  match tn_resize_with al new f (t, w) with
  | Done _ (t', w') | Unwound (t', w') =>
      tensor_ok t' /\ tn_ty t' = tn_ty t /\
      Permutation (tn_mem t ++ w_made w' ++ w_used w ++ w_dropped w)
                  (tn_mem t' ++ w_made w ++ w_used w' ++ w_dropped w')
  | _ => False
  end.
Proof.
  intros Ht Hn HD.
  assert (HB : balanced (tn_mem t ++ w_used w ++ w_dropped w) (w_made w ++ tn_mem t) w).
  { unfold balanced. perm. }
  pose proof (@resize_post T C al new f t w _ _ Ht Hn HB) as H.
  destruct (tn_resize_with al new f (t, w)) as [a [t' w']|[t' w']| |]; cbn [tpost] in H; try (destruct H as (H1 & H2 & H3));
    try (split; [auto|split; [auto|]]; unfold balanced in H3;
         transitivity ((tn_mem t ++ w_used w ++ w_dropped w) ++ w_made w'); [perm|rewrite H3; perm]); auto.
Qed.

(** ** Histories *)

Definition start {T C} (c : C) : state T C := mkState [] (mkWorld c [] [] []).

Lemma start_consistent {T C} (c : C) : consistent (T := T) (start c) [].
Proof. split; cbn; auto. Qed.

Theorem history_shape {T C} al (ops : list (op T C)) c :
  ops_ok al ops (start c) ->
  match run_ops al ops (start c) with
  | Done _ st => forall i t, var st i = Some t ->
      nonneg (tn_dims t) /\ typed (tn_ty t) (tn_dims t) /\
      tn_len t = prodZ (tn_dims t) /\ zlen (tn_mem t) = tn_len t /\ tn_len t <= tn_cap t
  | Aborted => exists ops1 ops2 st i t, ops = ops1 ++ ops2 /\ run_ops al ops1 (start c) = Done tt st /\
      var st i = Some t /\ prodZ (sh_default (tn_ty t)) <> 0
  | _ => False
  end.
Proof.
  intros HO. pose proof (run_ok (start_consistent c) HO) as H.
  destruct (run_ops al ops (start c)) as [[] st|st| |]; auto.
  - destruct H as (more & HC & _). intros i t HV. pose proof (var_ok HC HV) as Ht.
    pose proof (to_len Ht). pose proof (to_cap Ht). unfold tn_len. rewrite sh_len_prod. unfold zlen.
    split; [apply Ht|]. split; [apply Ht|]. split; [reflexivity|]. split; auto. lia.
  - destruct H as (ops1 & ops2 & st1 & E1 & E2 & i & t & E3 & E4). exists ops1, ops2, st1, i, t. auto.
Qed.

Theorem history_elements {T C} al (ops : list (op T C)) c st :
  ops_ok al ops (start c) -> run_ops al ops (start c) = Done tt st ->
  exists leaked,
    Permutation (w_made (st_w st)) (held (st_vars st) ++ leaked ++ w_used (st_w st) ++ w_dropped (st_w st)) /\
    within leaked (leak_limits ops) /\
    (NoDup (w_made (st_w st)) -> NoDup (held (st_vars st) ++ leaked ++ w_used (st_w st) ++ w_dropped (st_w st))).
Proof.
  intros HO E. pose proof (run_ok (start_consistent c) HO) as H. rewrite E in H.
  destruct H as (more & [_ HP] & HW). exists more. split; auto. split; auto.
  intros HN. eapply Permutation_NoDup; eauto.
Qed.

(** ** from_fn *)
Lemma from_fn_fine {T F} ty dims (f : list Z -> F -> outcome (T * F)) f0 e :
  nonneg dims -> typed ty dims -> (ty = SDynRank -> dims = []) ->
  positive (removelast dims) \/ last dims 1 = 0 -> (forall idx s, proper (f idx s)) ->
  e_from_fn ty dims f f0 = Ok e ->
  let tr := TFromFn ty dims f f0 in
  t_leaves tr /\ t_build tr = Ok e /\ t_fine tr /\ t_safe tr /\ e_ty e = ty.
Proof.
  intros HN HT HD HF HS E tr.
  assert (HL : t_leaves tr).
  { cbn. repeat split; auto. unfold e_from_fn in E.
    destruct (sh_checked_len dims) as [n|] eqn:EL; [|discriminate]. now apply checked_len_inv in EL. }
  split; [exact HL|]. split; [exact E|]. split.
  - split; [cbn; lia|]. unfold t_outer, tr. cbn [t_inner t_dims]. destruct (Nat.ltb_spec 0 (length dims)).
    + destruct HF as [HF|HF].
      * left. now rewrite <- removelast_firstn'.
      * right. rewrite (@app_removelast_last _ dims 1) by (destruct dims; [simpl in *; lia|discriminate]).
        rewrite HF, app_length, removelast_firstn', firstn_length, Nat.min_l by lia. cbn [length].
        rewrite skipn_app, skipn_firstn_comm, firstn_length, Nat.min_l by lia.
        replace (length dims - 1 + 1 - 1 - (length dims - 1))%nat with 0%nat by lia.
        replace (length dims - 1 - (length dims - 1 + 1 - 1))%nat with 0%nat by lia. reflexivity.
    + left. constructor.
  - split.
    + intros idx s Hi. cbn. apply HS.
    + unfold e_from_fn in E. destruct (sh_checked_len dims); [|discriminate]. injection E as <-. reflexivity.
Qed.

Lemma from_fn_tensor {T F C} al ty dims (f : list Z -> F -> outcome (T * F)) f0 e (w : world T C) xs o :
  (forall n, al_ok al n = true) -> nonneg dims -> typed ty dims -> (ty = SDynRank -> dims = []) ->
  positive (removelast dims) \/ last dims 1 = 0 -> (forall idx s, proper (f idx s)) ->
  e_from_fn ty dims f f0 = Ok e -> produce (index_action f) (indices dims) f0 = (xs, o) ->
  match o with
  | Ok _ => exists cap, zlen xs = prodZ dims /\ zlen xs <= cap /\
      tn_from_expr al e w = Done (mkTensor ty dims xs cap) (after (w_clo w) xs [] w)
  | _ => tn_from_expr al e w = Unwound (after (w_clo w) xs xs w)
  end.
Proof.
  intros HA HN HT HD HF HS E HP. destruct (from_fn_fine HN HT HD HF HS E) as (HL & HB & HF' & HS' & ET).
  pose proof (@eval_tree _ _ _ HL HB HF' HS' C al w xs o HA HP) as K.
  destruct o; auto. destruct K as (cap & K1 & K2 & _ & K4). rewrite ET in K4. exists cap. auto.
Qed.

Lemma from_fn_array {T F C} ds dims (f : list Z -> F -> outcome (T * F)) f0 e (w : world T C) xs o :
  consts ds -> nonneg dims -> typed (STuple ds) dims ->
  positive (removelast dims) \/ last dims 1 = 0 -> (forall idx s, proper (f idx s)) ->
  e_from_fn (STuple ds) dims f f0 = Ok e -> produce (index_action f) (indices dims) f0 = (xs, o) ->
  match o with
  | Ok _ => zlen xs = prodZ dims /\ ar_from_expr ds e w = Done xs (after (w_clo w) xs [] w)
  | _ => ar_from_expr ds e w = Unwound (after (w_clo w) xs xs w)
  end.
Proof.
  intros HC HN HT HF HS E HP.
  destruct (from_fn_fine HN HT (fun H => ltac:(discriminate)) HF HS E) as (HL & HB & HF' & HS' & ET).
  exact (@array_tree _ _ _ HL HB HF' HS' C ds w xs o HC HT HP).
Qed.

(** ** resize with a value *)
Lemma resize_value {T C} al new (x : T) (clone : T -> C -> call T C) t w vs c :
  tensor_ok t -> nonneg new -> typed (tn_ty t) new -> length new = length (tn_dims t) -> fits new ->
  (forall n, al_ok al n = true) ->
  gives (repeat (clone x) (fresh (tn_dims t) new)) (w_clo w) = (vs, c, true) ->
  exists cap xs, zlen xs = prodZ new /\ zlen xs <= cap /\
    tn_resize al new x clone (t, w) =
    Done tt (mkTensor (tn_ty t) new xs cap, after c (x :: vs) (lost (tn_dims t) (tn_mem t) new ++ [x]) w) /\
    (forall idx, in_bounds new idx ->
      elem_at new xs idx = if inside (tn_dims t) idx then elem_at (tn_dims t) (tn_mem t) idx
                           else nth_error vs (fresh_before (tn_dims t) new idx)).
Proof.
  intros Ht HN HT HL HF HA HG. unfold tn_resize. cbn [fst snd].
  set (w1 := mkWorld (w_clo w) (w_made w ++ [x]) (w_used w) (w_dropped w)).
  destruct (@resize_elem T C al new (clone x) t w1 vs c Ht HN HT HL HF HA HG) as (cap & xs & H1 & H2 & E & H3).
  exists cap, xs. split; [exact H1|]. split; [exact H2|]. split; [|exact H3].
  rewrite E. unfold after, w_drop, w1. cbn [w_clo w_made w_used w_dropped]. do 3 f_equal; now rewrite <- app_assoc.
Qed.

(** ** into_shape *)
Lemma into_shape_iff {T C} ty dims (t : tensor T) (w : world T C) :
  tensor_ok t -> nonneg dims -> typed ty dims -> const_small ty ->
  (forall nd, fits (known dims) -> resolves (prodZ (tn_dims t)) dims nd ->
     tn_into_shape ty dims t w = Done (mkTensor ty nd (tn_mem t) (tn_cap t)) w) /\
  (~ (exists nd, fits (known dims) /\ resolves (prodZ (tn_dims t)) dims nd) ->
     tn_into_shape ty dims t w = Unwound (w_drop (tn_mem t) w)).
Proof.
  intros Ht HN HT HC.
  assert (HR : match sh_rank ty with Some k => length dims = k | None => True end)
    by (eapply typed_length; [exact HT|reflexivity]).
  rewrite (into_shape_eq w Ht HN HR). destruct (@sh_reshape_iff (tn_dims t) ty dims HT HC) as [H1 H2]. split.
  - intros nd HF HV. now rewrite (proj2 (H1 nd) (conj HF HV)).
  - intros HX. destruct H2 as [->|[nd E]]; [reflexivity|]. exfalso. apply HX. exists nd. now apply H1.
Qed.
