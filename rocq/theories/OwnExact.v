(** Facts for the exact forms of C32 and C53. *)
From Verif Require Import Base Spec SpecFacts Shape Mapping Index View Wf MappingFacts MapOps ReshapeFacts ViewFacts ViewMore.
From Verif Require Import Expr ExprSpec ExprFacts IterFacts SourceFacts ExprTree ExprMore.
From Verif Require Import Tensor TraceFacts TensorSpec TensorFacts ResizeFacts TensorOps DrainFacts OwnFacts ZipFacts OwnMore History HistoryFacts OwnProps.
From Verif Require Import Consume ConsumeSpec ConsumeFacts.
From Coq Require Import Permutation.
Unset Strict Implicit.

(** Whatever the clones and the allocator do: the old elements and the clones made are the new elements and those
    that are lost. *)
Lemma clone_from_kept_all {T C} al (clone : T -> C -> call T C) src (p : parts T C) :
  zlen (p_items p) <= p_cap p ->
  match vec_clone_from_kept al clone src p with
  | Done _ p' | Unwound p' => exists ys c lost,
      p_w p' = after c ys [] (p_w p) /\ Permutation (p_items p ++ ys) (p_items p' ++ lost)
  | _ => False
  end.
Proof.
  intros HC. set (n := Nat.min (length src) (length (p_items p))).
  assert (EN : length (firstn (length src) (p_items p)) = n) by (rewrite firstn_length; unfold n; lia).
  unfold vec_clone_from_kept. unfold seqM at 1 2. cbn [p_items p_cap p_dims p_w]. rewrite EN.
  rewrite assign_kept_spec by (cbn [p_items]; rewrite EN, firstn_length; lia).
  cbn [p_items p_cap p_dims p_w]. destruct (gives (map clone (firstn n src)) (w_clo (p_w p))) as [[y1 c1] b1] eqn:E1.
  destruct (gives_length E1) as [LE L1]. rewrite map_length, firstn_length in LE, L1. cbn [firstn app Nat.add].
  assert (SP : p_items p = firstn (length src) (p_items p) ++ skipn (length src) (p_items p)) by now rewrite firstn_skipn.
  set (m := firstn (length src) (p_items p)) in *. set (r := skipn (length src) (p_items p)) in *.
  assert (SM : m = firstn (length y1) m ++ skipn (length y1) m) by now rewrite firstn_skipn.
  destruct b1; cbn [finish].
  - specialize (L1 eq_refl). rewrite (skipn_all2 (n := length y1)) by lia. rewrite app_nil_r.
    set (p1 := mkParts y1 (p_cap p) (p_dims p) _). unfold seqM at 1.
    destruct (reserve_cases al (zlen (skipn n src)) p1) as [(cap & ER & H1 & H2)|[ER _]]; rewrite ER.
    + rewrite clone_loop_spec by (cbn [p1 p_items p_cap] in *; lia).
      destruct (gives (map clone (skipn n src)) _) as [[y2 c2] b2] eqn:E2. cbn [p1 p_items p_cap p_dims p_w] in *.
      destruct b2; cbn [finish pushed p_items p_cap p_dims p_w];
        (exists (y1 ++ y2), c2, (p_items p); split; [now rewrite after_after|apply Permutation_app_comm]).
    + cbn [p1 p_items p_w]. exists y1, c1, (p_items p). split; [reflexivity|]. apply Permutation_app_comm.
  - cbn [p_items p_w]. exists y1, c1, (firstn (length y1) m ++ r). split; [reflexivity|].
    rewrite SP. rewrite SM at 1. rewrite <- !app_assoc.
    rewrite (Permutation_app_comm y1). rewrite <- app_assoc.
    transitivity (skipn (length y1) m ++ firstn (length y1) m ++ r ++ y1).
    { apply Permutation_app_swap_app. }
    apply Permutation_app_head. rewrite app_assoc. rewrite Permutation_app_comm. apply Permutation_app_head. reflexivity.
Qed.

Lemma in_clone_from_all {T C} al (clone : T -> C -> call T C) (src e : into T) (w : world T C) :
  tensor_ok (in_buf e) -> tensor_ok (in_buf src) -> tn_ty (in_buf src) = tn_ty (in_buf e) ->
  match in_clone_from al clone src (e, w) with
  | Done _ (e', w') | Unwound (e', w') => exists ys c lost,
      w' = after c ys [] w /\ Permutation (tn_mem (in_buf e) ++ ys) (tn_mem (in_buf e') ++ lost)
  | _ => False
  end.
Proof.
  intros Ht Hs TY. pose proof (@in_clone_from_post T C al clone src e w Ht Hs TY) as POST. revert POST.
  unfold in_clone_from. destruct (_ && _).
  2:{ intros _. exists [], (w_clo w), []. split; [now rewrite after_nil|]. now rewrite !app_nil_r. }
  unfold with_mut_parts_kept. rewrite (to_vec_ok Ht). unfold seqM at 1.
  set (p0 := mkParts (tn_mem (in_buf e)) (tn_cap (in_buf e)) (tn_dims (in_buf e)) w).
  pose proof (@clone_from_kept_all T C al clone (tn_mem (in_buf src)) p0 (to_cap Ht)) as H.
  unfold seqM. fold p0.
  destruct (vec_clone_from_kept al clone (tn_mem (in_buf src)) p0) as [a p|p| |]; try contradiction;
    destruct H as (ys & c & lost & EW & HP).
  - unfold p_set_dims. cbn [p_items p_cap p_dims p_w]. destruct (_ =? _); [|tauto]. intros _. cbn [in_buf tn_mem].
    exists ys, c, lost. auto.
  - destruct (_ =? _).
    + intros _. cbn [in_buf tn_mem]. exists ys, c, lost. auto.
    + destruct (_ =? _); [|tauto]. intros _. cbn [in_buf tn_mem app]. exists ys, c, (p_items p ++ lost). auto.
Qed.

Lemma lost_after {T C} (start now now' lost ys : list T) c (w : world T C) :
  balanced start now w -> Permutation (now ++ ys) (now' ++ lost) ->
  Permutation (start ++ w_made (after c ys [] w)) (now' ++ lost ++ w_used (after c ys [] w) ++ w_dropped (after c ys [] w)) /\
  (balanced start now' (after c ys [] w) <-> lost = []).
Proof.
  unfold balanced, after. cbn [w_made w_used w_dropped]. rewrite app_nil_r. intros HB HP.
  assert (ALL : Permutation (start ++ w_made w ++ ys) (now' ++ lost ++ w_used w ++ w_dropped w)).
  { rewrite app_assoc, HB. rewrite (app_assoc now'), <- HP. rewrite <- !app_assoc. apply Permutation_app_head.
    rewrite app_assoc. apply Permutation_app_comm. }
  split; [exact ALL|]. split.
  - intros H. rewrite H in ALL. apply Permutation_app_inv_l in ALL.
    apply Permutation_length in ALL. rewrite !app_length in ALL. destruct lost; [reflexivity|cbn in ALL; lia].
  - intros ->. exact ALL.
Qed.

(** ** [expand] *)

Lemma expand_exact {T Y C} al (e : expression Y) (cl : Y -> C -> call T C) ys xs c (t : tensor T) (w : world T C) n ds :
  tensor_ok t -> has_rows t n ds -> (forall k, al_ok al k = true) ->
  nonneg (e_dims e) -> e_collect e = Ok ys -> zlen ys = prodZ (e_dims e) -> gives (map cl ys) (w_clo w) = (xs, c, true) ->
  (match tn_expand al e cl (t, w) with
   | Done _ (t', _) => tn_mem t' = tn_mem t ++ xs /\
       (0 < prodZ (tn_dims t) -> exists m, e_dims e = m :: ds /\ tn_dims t' = n + m :: ds) /\
       (prodZ (tn_dims t) = 0 -> tn_dims t' = e_dims e)
   | Unwound (t', _) => tn_mem t' = tn_mem t /\ tn_dims t' = tn_dims t /\
       (0 < prodZ (tn_dims t) -> forall m, e_dims e <> m :: ds) /\
       (prodZ (tn_dims t) = 0 -> ~ typed (tn_ty t) (e_dims e))
   | _ => False
   end <->
   0 < prodZ (e_dims e) \/ e_dims e = tn_dims t \/ 0 < prodZ (tn_dims t) /\ e_dims e = 0 :: ds).
Proof.
  intros Ht HR Hal HN HE HZ HG.
  pose proof (prodZ_nonneg HN) as PN. pose proof (prodZ_nonneg (to_nonneg Ht)) as PT.
  assert (TM : Z.of_nat (length (tn_mem t)) = prodZ (tn_dims t)) by apply Ht.
  destruct (Z.eq_dec (prodZ (e_dims e)) 0) as [E0|NE].
  - rewrite (@expand_nothing T Y C al e cl t w n ds HR) by lia.
    assert (ys = []) by (destruct ys; [reflexivity|unfold zlen in HZ; cbn in HZ; lia]). subst ys.
    cbn [map gives] in HG. injection HG as <- <-. rewrite app_nil_r. split.
    + intros (_ & H1 & H2). destruct (Z.eq_dec (prodZ (tn_dims t)) 0) as [T0|TN]; [right; left; symmetry; auto|].
      destruct (H1 ltac:(lia)) as (m & ED & EQ). right; right. split; [lia|]. rewrite ED. f_equal.
      rewrite (proj1 HR) in EQ. injection EQ as EQ. lia.
    + intros [H|[H|[H1 H2]]]; [lia| |].
      * split; [reflexivity|]. split; [rewrite <- H; lia|intros; now symmetry].
      * split; [reflexivity|]. split; [|lia]. intros _. exists 0. split; [exact H2|]. rewrite (proj1 HR). f_equal. lia.
  - assert (POS : 0 < prodZ (e_dims e)) by lia. split; [auto|]. intros _.
    destruct (Z.eq_dec (prodZ (tn_dims t)) 0) as [T0|TN].
    + destruct (accepts (tn_ty t) (e_dims e)) eqn:K.
      * apply accepts_typed in K.
        destruct (@expand_empty T Y C al e cl ys xs c t w n ds Ht HR T0 Hal HN K POS HE HZ HG) as (cap & _ & ->).
        cbn [tn_mem tn_dims]. assert (M : tn_mem t = []) by (destruct (tn_mem t); [reflexivity|cbn in TM; lia]).
        rewrite M. split; [reflexivity|]. split; [lia|auto].
      * apply accepts_false_typed in K.
        destruct (@expand_refused T Y C al e cl t w n ds Ht HR Hal POS) as (cap & _ & ->); [lia|auto|].
        cbn [tn_mem tn_dims]. split; [reflexivity|]. split; [reflexivity|]. split; [lia|auto].
    + assert (DEC : (exists m, e_dims e = m :: ds) \/ (tl (e_dims e) <> ds \/ e_dims e = [])).
      { destruct (e_dims e) as [|m d]; [auto|]. destruct (list_eq_dec Z.eq_dec d ds) as [->|N]; [left; eauto|right; left; exact N]. }
      destruct DEC as [(m & ED)|N].
      * assert (Hm : 0 < m). { rewrite ED in HN, POS. inversion HN; subst. rewrite prodZ_cons in POS. destruct (Z.eq_dec m 0) as [->|]; lia. }
        destruct (@expand_rows T Y C al e cl ys xs c t w n ds m Ht HR) as (cap & _ & ->); auto; [lia|].
        cbn [tn_mem tn_dims]. split; [reflexivity|]. split; [eauto|lia].
      * destruct (@expand_refused T Y C al e cl t w n ds Ht HR Hal POS) as (cap & _ & ->); [auto|lia|].
        cbn [tn_mem tn_dims]. split; [reflexivity|]. split; [reflexivity|]. split; [|lia].
        intros _ m ED. rewrite ED in N. destruct N as [N|N]; [now apply N|discriminate].
Qed.

(** ** [zip_with] *)

Lemma zip_with_exact {T Y C} (e : expression Y) (f : T * Y -> C -> call T C) (t : tensor T) w z ys o S0 R :
  tensor_ok t -> e_zip (e_view (zlen (tn_mem t)) false (whole (tn_ty t) (tn_dims t))) e = Ok z ->
  e_trace z = (combine (zrange (zlen (tn_mem t))) ys, o) -> (length ys <= length (tn_mem t))%nat ->
  (o = Ok tt -> length ys = length (tn_mem t)) -> balanced S0 (R ++ tn_mem t) w ->
  let '(rs, c, b) := gives (map f (combine (tn_mem t) ys)) (w_clo w) in
  match tn_zip_with e f t w with
  | Done t' w' => balanced S0 (R ++ tn_mem t') w'
  | Unwound w' => balanced S0 R w' <-> ~ (b = true /\ o = Panic /\ rs <> [])
  | _ => o = UB \/ o = NoFuel
  end.
Proof.
  intros Ht HZ HE HL HO HB. rewrite (zip_with_items f w Ht HZ HE HL HO).
  destruct (gives _ _) as [[rs c] b] eqn:EG. destruct (gives_length EG) as [LE LT].
  rewrite map_length, combine_length in LE, LT.
  unfold balanced in *. cbn [w_made w_used w_dropped w_drop] in *.
  assert (SPLIT : forall n, Permutation (S0 ++ w_made w ++ rs)
            (R ++ (firstn n (tn_mem t) ++ skipn n (tn_mem t)) ++ w_used w ++ w_dropped w ++ rs)).
  { intros n. rewrite firstn_skipn. rewrite app_assoc, HB. rewrite <- !app_assoc. reflexivity. }
  destruct b.
  - specialize (LT eq_refl). destruct o as [[]| | |]; auto.
    + cbn [w_made w_used w_dropped tn_mem]. specialize (HO eq_refl).
      rewrite firstn_all2 by lia. rewrite app_assoc, HB. perm.
    + cbn [w_made w_used w_dropped w_drop]. split.
      * intros H (_ & _ & N). specialize (SPLIT (length rs)). rewrite H in SPLIT. apply Permutation_length in SPLIT.
        destruct (@exists_last _ rs N) as (l & x & EL). rewrite EL in SPLIT. rewrite removelast_last in SPLIT.
        rewrite !app_length in SPLIT. cbn [length] in SPLIT. lia.
      * intros N. assert (rs = []) by (destruct rs; [reflexivity|exfalso; apply N; repeat split; discriminate]). subst rs.
        cbn [removelast app length firstn skipn]. rewrite !app_nil_r. rewrite HB. perm.
  - cbn [w_made w_used w_dropped w_drop]. split; [intros _ (H & _); discriminate|]. intros _.
    rewrite (SPLIT (S (length rs))). perm.
Qed.
