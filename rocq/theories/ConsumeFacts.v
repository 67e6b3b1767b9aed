(** Iterators that move elements out of an array; cloning them; copies of subarrays. *)
From Verif Require Import Base Spec SpecFacts Shape Mapping Index View Wf MappingFacts MapOps ReshapeFacts.
From Verif Require Import IndexFacts ViewFacts ViewMore Expr ExprSpec ExprFacts IterFacts SourceFacts ExprTree ExprMore.
From Verif Require Import Tensor TraceFacts TensorSpec TensorFacts TensorOps DrainFacts OwnFacts OwnMore OwnProps ZipFacts Consume ConsumeSpec.
Unset Strict Implicit.

(** Iterating [e] moves the elements of [l] out one after the other: in a state [s] with [R s k], [k]
    of them have gone; [out] finds the element in the item. *)
Record moves {A B} (e : expression A) (l : list B) (out : A -> B) (R : e_st e -> nat -> Prop) : Prop := {
  mv_get : forall i st k a st', R st k -> e_get e i st = Ok (a, st') -> nth_error l k = Some (out a) /\ R st' (S k);
  mv_reset : forall d c st k st', R st k -> e_reset e d c st = Ok st' -> R st' k;
  mv_step : forall d st k st', R st k -> e_step e d st = Ok st' -> R st' k
}.

Section Moves.
  Variables (A B : Type) (e : expression A) (l : list B) (out : A -> B) (R : e_st e -> nat -> Prop).
  Hypothesis HM : moves l out R.

  Lemma step_loop_moves : forall olimit n st k outer b st' outer',
    R st k -> step_loop e olimit n st outer = Ok (b, st', outer') -> R st' k.
  Proof.
    intros olimit n. induction n as [|i IH]; intros st k outer b st' outer' HR H; cbn [step_loop] in H.
    - now injection H as <- <- <-.
    - destruct (nth i outer 0 + 1 <? nth i olimit 0).
      + destruct (e_step e i st) as [s| | |] eqn:E; try discriminate. injection H as <- <- <-. exact (mv_step HM HR E).
      + destruct (e_reset e i (nth i outer 0) st) as [s| | |] eqn:E; try discriminate. cbn [bind] in H.
        exact (IH _ _ _ _ _ _ (mv_reset HM HR E) H).
  Qed.

  Lemma step_outer_moves : forall (it : iter e) k b it', R (it_st it) k -> step_outer it = Ok (b, it') -> R (it_st it') k.
  Proof.
    intros it k b it' HR H. unfold step_outer in H.
    destruct (if (outer_rank e <? e_rank e)%nat then e_reset e (e_rank e - 1) 0 (it_st it) else Ok (it_st it)) as [s| | |] eqn:E; try discriminate.
    cbn [bind] in H.
    destruct (step_loop e (it_olimit it) (outer_rank e) s (it_outer it)) as [[[b0 st] o]| | |] eqn:E2; try discriminate.
    cbn [bind] in H. injection H as <- <-. cbn [it_st]. apply (fun K => step_loop_moves K E2).
    destruct (outer_rank e <? e_rank e)%nat; [exact (mv_reset HM HR E)|]. now injection E as <-.
  Qed.

  Lemma next_moves : forall (it : iter e) k x it', R (it_st it) k -> it_next it = Ok (x, it') ->
    match x with
    | Some a => nth_error l k = Some (out a) /\ R (it_st it') (S k)
    | None => R (it_st it') k
    end.
  Proof.
    intros it k x it' HR H. unfold it_next in H.
    assert (TK : forall it1 : iter e, R (it_st it1) k ->
      (let* (a, st) := e_get e (it_index it1 + 1 - 1) (it_st it1) in
       Ok (Some a, mkIter st (it_index it1 + 1) (it_limit it1) (it_outer it1) (it_olimit it1))) = Ok (x, it') ->
      match x with
      | Some a => nth_error l k = Some (out a) /\ R (it_st it') (S k)
      | None => R (it_st it') k
      end).
    { intros it1 R1 H1. destruct (e_get e (it_index it1 + 1 - 1) (it_st it1)) as [[a st]| | |] eqn:E; try discriminate.
      cbn [bind] in H1. injection H1 as <- <-. cbn [it_st]. exact (mv_get HM R1 E). }
    destruct (it_index it =? it_limit it).
    - destruct (step_outer it) as [[b it2]| | |] eqn:E; try discriminate. cbn [bind] in H.
      pose proof (step_outer_moves HR E) as S2. destruct b.
      + apply TK in H; [exact H|exact S2].
      + injection H as <- <-. exact S2.
    - apply TK in H; [exact H|exact HR].
  Qed.

  Lemma nexts_moves : forall n (it : iter e) k xs it', R (it_st it) k -> it_nexts n it = Ok (xs, it') ->
    R (it_st it') (k + length (somes xs)) /\ map out (somes xs) = firstn (length (somes xs)) (skipn k l) /\
    (k <= length l -> k + length (somes xs) <= length l)%nat.
  Proof.
    intros n. induction n as [|n IH]; intros it k xs it' HR H; cbn [it_nexts] in H.
    - injection H as <- <-. cbn. rewrite Nat.add_0_r. split; [exact HR|]. split; [reflexivity|lia].
    - destruct (it_next it) as [[x it1]| | |] eqn:E; try discriminate. cbn [bind] in H.
      destruct (it_nexts n it1) as [[ys it2]| | |] eqn:E2; try discriminate. cbn [bind] in H. injection H as <- <-.
      pose proof (next_moves HR E) as N. destruct x as [a|]; cbn [somes].
      + destruct N as [N1 N2]. destruct (IH _ _ _ _ N2 E2) as (I1 & I2 & I3). cbn [length map].
        split; [replace (k + S (length (somes ys)))%nat with (S k + length (somes ys))%nat by lia; exact I1|].
        assert (K : (k < length l)%nat) by (apply nth_error_Some; congruence). split; [|intros _; specialize (I3 K); lia].
        rewrite I2. clear - N1. generalize (length (somes ys)) as m. intros m.
        revert l N1. induction k as [|j IHj]; intros [|y l'] N1; try discriminate.
        * cbn in N1. injection N1 as ->. reflexivity.
        * cbn [skipn]. apply IHj. exact N1.
      + exact (IH _ _ _ _ N E2).
  Qed.
End Moves.

(** ** The sources and adapters that move *)

Lemma into_moves {A} ty dims (l : list A) :
  @moves A A (e_into ty dims l) l (fun x => x) (fun st k => st = Z.of_nat k).
Proof.
  split.
  - intros i st k a st' -> H. cbn [e_into e_get] in H. rewrite Nat2Z.id in H.
    destruct (nth_error l k) eqn:E; [|discriminate]. injection H as <- <-. split; [reflexivity|lia].
  - intros d c st k st' -> H. cbn [e_into e_reset] in H. now injection H as <-.
  - intros d st k st' -> H. cbn [e_into e_step] in H. now injection H as <-.
Qed.

Lemma zip_left_moves {A B C} (a : expression A) (b : expression C) (l : list B) out R dims :
  @moves A B a l out R -> @moves (A * C) B (zip_expr a b dims) l (fun x => out (fst x)) (fun st k => R (fst st) k).
Proof.
  intros HM. split.
  - intros i st k x st' HR H. cbn [zip_expr e_get] in H.
    destruct (e_get a i (fst st)) as [[y sa]| | |] eqn:E; try discriminate. cbn [bind] in H.
    destruct (e_get b i (snd st)) as [[z sb]| | |]; try discriminate. cbn [bind] in H. injection H as <- <-.
    exact (mv_get HM HR E).
  - intros d c st k st' HR H. cbn [zip_expr e_reset] in H.
    destruct (if (length dims - d <=? e_rank a)%nat then _ else Ok (fst st)) as [sa| | |] eqn:E; try discriminate. cbn [bind] in H.
    destruct (if (length dims - d <=? e_rank b)%nat then _ else Ok (snd st)) as [sb| | |]; try discriminate. cbn [bind] in H.
    injection H as <-. cbn [fst]. destruct (length dims - d <=? e_rank a)%nat; [exact (mv_reset HM HR E)|now injection E as <-].
  - intros d st k st' HR H. cbn [zip_expr e_step] in H.
    destruct (if (length dims - d <=? e_rank a)%nat then _ else Ok (fst st)) as [sa| | |] eqn:E; try discriminate. cbn [bind] in H.
    destruct (if (length dims - d <=? e_rank b)%nat then _ else Ok (snd st)) as [sb| | |]; try discriminate. cbn [bind] in H.
    injection H as <-. cbn [fst]. destruct (length dims - d <=? e_rank a)%nat; [exact (mv_step HM HR E)|now injection E as <-].
Qed.

Lemma zip_right_moves {A B C} (a : expression C) (b : expression A) (l : list B) out R dims :
  @moves A B b l out R -> @moves (C * A) B (zip_expr a b dims) l (fun x => out (snd x)) (fun st k => R (snd st) k).
Proof.
  intros HM. split.
  - intros i st k x st' HR H. cbn [zip_expr e_get] in H.
    destruct (e_get a i (fst st)) as [[y sa]| | |]; try discriminate. cbn [bind] in H.
    destruct (e_get b i (snd st)) as [[z sb]| | |] eqn:E; try discriminate. cbn [bind] in H. injection H as <- <-.
    exact (mv_get HM HR E).
  - intros d c st k st' HR H. cbn [zip_expr e_reset] in H.
    destruct (if (length dims - d <=? e_rank a)%nat then _ else Ok (fst st)) as [sa| | |]; try discriminate. cbn [bind] in H.
    destruct (if (length dims - d <=? e_rank b)%nat then _ else Ok (snd st)) as [sb| | |] eqn:E; try discriminate. cbn [bind] in H.
    injection H as <-. cbn [snd]. destruct (length dims - d <=? e_rank b)%nat; [exact (mv_reset HM HR E)|now injection E as <-].
  - intros d st k st' HR H. cbn [zip_expr e_step] in H.
    destruct (if (length dims - d <=? e_rank a)%nat then _ else Ok (fst st)) as [sa| | |]; try discriminate. cbn [bind] in H.
    destruct (if (length dims - d <=? e_rank b)%nat then _ else Ok (snd st)) as [sb| | |] eqn:E; try discriminate. cbn [bind] in H.
    injection H as <-. cbn [snd]. destruct (length dims - d <=? e_rank b)%nat; [exact (mv_step HM HR E)|now injection E as <-].
Qed.

Lemma e_zip_shape {A B} (a : expression A) (b : expression B) z :
  e_zip a b = Ok z -> z = zip_expr a b (e_dims z).
Proof.
  unfold e_zip, assert, bind. destruct (_ || _); [|discriminate]. destruct (_ || _); [|discriminate].
  destruct (zip_dims _ _ _); try discriminate. intros [= <-]. reflexivity.
Qed.

(** ** A consumed array in a zip *)

Lemma zip_into_left {A B} ty dims (l : list A) (b : expression B) d n xs it :
  it_nexts n (it_new (zip_expr (e_into ty dims l) b d)) = Ok (xs, it) ->
  map fst (somes xs) = firstn (length (somes xs)) l /\
  into_dropped l (fst (it_st it)) = skipn (length (somes xs)) l.
Proof.
  intros H. pose proof (zip_left_moves b d (into_moves ty dims l)) as HM.
  destruct (@nexts_moves _ _ _ _ _ _ HM n (it_new _) 0%nat xs it eq_refl H) as (H1 & H2 & H3).
  split; [exact H2|]. cbn beta in H1. unfold into_dropped. rewrite H1. f_equal. lia.
Qed.

Lemma zip_into_right {A B} ty dims (l : list A) (b : expression B) d n xs it :
  it_nexts n (it_new (zip_expr b (e_into ty dims l) d)) = Ok (xs, it) ->
  map snd (somes xs) = firstn (length (somes xs)) l /\
  into_dropped l (snd (it_st it)) = skipn (length (somes xs)) l.
Proof.
  intros H. pose proof (zip_right_moves b d (into_moves ty dims l)) as HM.
  destruct (@nexts_moves _ _ _ _ _ _ HM n (it_new _) 0%nat xs it eq_refl H) as (H1 & H2 & H3).
  split; [exact H2|]. cbn beta in H1. unfold into_dropped. rewrite H1. f_equal. lia.
Qed.

Section DrainZip.
  Context {T : Type}.
  Variables (t : tensor T) (lo hi : bound) (n : Z) (ds : list Z).
  Hypotheses (Ht : tensor_ok t) (HR : has_rows t n ds) (HU : n <= usize_max) (Hl : bound_arg lo) (Hh : bound_arg hi).
  Hypothesis HB : range_lo lo <= range_hi n hi <= n.
  Let a := range_lo lo.
  Let b := range_hi n hi.

  Local Lemma drain_bounds : 0 <= a <= b /\ b <= nth 0 (tn_dims t) 0.
  Proof.
    rewrite (proj1 HR). cbn [nth]. split; [split; [|unfold a, b; lia]|unfold b; lia].
    unfold a. destruct lo; unfold bound_arg, usize, range_lo in *; lia.
  Qed.

  Lemma drain_moves : @moves T T (e_drain (drained t a b)) (rows t a b) (fun x => x)
    (fun st k => st = drain_at k (drained t a b) /\ (k <= length (rows t a b))%nat).
  Proof.
    destruct drain_bounds as [Ha Hb]. pose proof (has_rows_ok HR) as HO. split.
    - intros i st k x st' [-> HK] H. cbn [e_drain e_get] in H.
      assert (HL : (k < length (rows t a b))%nat).
      { pose proof (drain_moving_dims Ht HO Ha Hb) as HD. unfold drain_take in H.
        change (d_view (drain_at k (drained t a b))) with (d_view (drained t a b)) in H. rewrite sh_len_prod in H.
        change (d_view (drained t a b)) with (e_dims (e_drain (drained t a b))) in H. rewrite <- HD in H.
        change (d_index (drain_at k (drained t a b))) with (Z.of_nat k) in H. unfold zlen in H.
        destruct (Z.ltb_spec (Z.of_nat k) (Z.of_nat (length (rows t a b)))); [lia|discriminate]. }
      destruct (nth_error (rows t a b) k) as [y|] eqn:E; [|apply nth_error_None in E; lia].
      rewrite (drain_take_at Ht HO Ha Hb E) in H. injection H as <- <-. auto.
    - intros d c st k st' HK H. cbn [e_drain e_reset] in H. now injection H as <-.
    - intros d st k st' HK H. cbn [e_drain e_step] in H. now injection H as <-.
  Qed.

  Local Lemma drain_end {C} k (w : world T C) : (k <= length (rows t a b))%nat ->
    drain_drop (drain_at k (drained t a b)) w =
    Done tt (mkTensor (tn_ty t) (n - (b - a) :: ds)
               (rows_of (n :: ds) (tn_mem t) 0 a ++ rows_of (n :: ds) (tn_mem t) b n) (tn_cap t),
             w_drop (skipn k (rows_of (n :: ds) (tn_mem t) a b)) w).
  Proof.
    intros HK. destruct drain_bounds as [Ha Hb]. pose proof (proj1 HR) as ED.
    assert (ER : forall x y, rows_of (n :: ds) (tn_mem t) x y = rows t x y) by (intros; unfold rows_of, rows, cells; now rewrite ED).
    rewrite (drain_drop_eq Ht (has_rows_ok HR) Ha Hb w HK). rewrite !ER. unfold remaining. rewrite ED. reflexivity.
  Qed.

  Lemma drain_zip_left : exists d, tn_drain t lo hi = Ok d /\
    forall B (e : expression B) dims m xs it,
      it_nexts m (it_new (zip_expr (e_drain d) e dims)) = Ok (xs, it) ->
      let out := rows_of (n :: ds) (tn_mem t) a b in
      map fst (somes xs) = firstn (length (somes xs)) out /\
      forall C (w : world T C),
        drain_drop (fst (it_st it)) w =
        Done tt (mkTensor (tn_ty t) (n - (b - a) :: ds)
                   (rows_of (n :: ds) (tn_mem t) 0 a ++ rows_of (n :: ds) (tn_mem t) b n) (tn_cap t),
                 w_drop (skipn (length (somes xs)) out) w).
  Proof.
    destruct (drain_rows Ht HR HU Hl Hh HB) as (d & E & _). exists d. split; [exact E|].
    assert (ED : d = drained t a b).
    { rewrite (drain_ok_eq Ht) in E; try assumption; [|rewrite (proj1 HR); cbn [nth]; lia].
      rewrite (has_rows_ok HR), (proj1 HR) in E. cbn [nth andb] in E. fold a b in E. destruct ((a <=? b) && (b <=? n)); [|discriminate]. now injection E as <-. }
    subst d. intros B e dims m xs it H out.
    assert (ER : out = rows t a b) by (unfold out, rows_of, rows, cells; now rewrite (proj1 HR)).
    assert (I0 : e_init (e_drain (drained t a b)) = drain_at 0 (drained t a b)) by reflexivity.
    destruct (@nexts_moves _ _ _ _ _ _ (zip_left_moves e dims drain_moves) m (it_new _) 0%nat xs it (conj I0 (Nat.le_0_l _)) H) as ((H1 & H1') & H2 & _).
    split; [rewrite ER; exact H2|]. intros C w. rewrite H1. exact (drain_end w H1').
  Qed.

  Lemma drain_zip_right : exists d, tn_drain t lo hi = Ok d /\
    forall B (e : expression B) dims m xs it,
      it_nexts m (it_new (zip_expr e (e_drain d) dims)) = Ok (xs, it) ->
      let out := rows_of (n :: ds) (tn_mem t) a b in
      map snd (somes xs) = firstn (length (somes xs)) out /\
      forall C (w : world T C),
        drain_drop (snd (it_st it)) w =
        Done tt (mkTensor (tn_ty t) (n - (b - a) :: ds)
                   (rows_of (n :: ds) (tn_mem t) 0 a ++ rows_of (n :: ds) (tn_mem t) b n) (tn_cap t),
                 w_drop (skipn (length (somes xs)) out) w).
  Proof.
    destruct (drain_rows Ht HR HU Hl Hh HB) as (d & E & _). exists d. split; [exact E|].
    assert (ED : d = drained t a b).
    { rewrite (drain_ok_eq Ht) in E; try assumption; [|rewrite (proj1 HR); cbn [nth]; lia].
      rewrite (has_rows_ok HR), (proj1 HR) in E. cbn [nth andb] in E. fold a b in E. destruct ((a <=? b) && (b <=? n)); [|discriminate]. now injection E as <-. }
    subst d. intros B e dims m xs it H out.
    assert (ER : out = rows t a b) by (unfold out, rows_of, rows, cells; now rewrite (proj1 HR)).
    assert (I0 : e_init (e_drain (drained t a b)) = drain_at 0 (drained t a b)) by reflexivity.
    destruct (@nexts_moves _ _ _ _ _ _ (zip_right_moves e dims drain_moves) m (it_new _) 0%nat xs it (conj I0 (Nat.le_0_l _)) H) as ((H1 & H1') & H2 & _).
    split; [rewrite ER; exact H2|]. intros C w. rewrite H1. exact (drain_end w H1').
  Qed.
End DrainZip.

(** ** Cloning [IntoExpr] *)

Lemma clone_kept_spec {T C} (clone : T -> C -> call T C) done xs (w : world T C) :
  clone_kept clone done xs w =
  let '(ys, c, b) := gives (map clone xs) (w_clo w) in
  if b then Done (done ++ ys) (after c ys [] w) else Unwound (after c ys [] w).
Proof.
  revert done w. induction xs as [|x xs IH]; intros done w; cbn [clone_kept map gives].
  - rewrite app_nil_r. f_equal. unfold after. rewrite !app_nil_r. now destruct w.
  - destruct (clone x (w_clo w)) as [y c|c].
    + rewrite IH. cbn [w_make w_clo]. destruct (gives (map clone xs) c) as [[ys c'] b].
      rewrite <- app_assoc. unfold after, w_make. cbn [w_made w_used w_dropped app]. rewrite <- app_assoc. reflexivity.
    + unfold after, w_set. now rewrite !app_nil_r.
Qed.

Lemma in_clone_eq {T C} (clone : T -> C -> call T C) (e : into T) (w : world T C) :
  tensor_ok (in_buf e) -> in_index e = 0 ->
  in_clone clone e w =
  let '(ys, c, b) := gives (map clone (tn_mem (in_buf e))) (w_clo w) in
  if b then Done (mkInto (mkTensor (tn_ty (in_buf e)) (tn_dims (in_buf e)) ys (zlen ys)) 0) (after c ys [] w)
  else Unwound (after c ys [] w).
Proof.
  intros Ht HI. pose proof (@clone_done T C clone (in_buf e) w Ht) as HC. unfold in_clone, tn_clone in *. rewrite HI.
  change (0 =? 0) with true. unfold check, seqM. cbn [assert lift].
  destruct (to_vec_raw (in_buf e)) as [items|] eqn:EV.
  - rewrite clone_kept_spec. unfold seqM in HC. rewrite clone_items_spec in HC.
    assert (EI : items = tn_mem (in_buf e)). { rewrite (to_vec_ok Ht) in EV. now injection EV as <-. }
    subst items. destruct (gives (map clone (tn_mem (in_buf e))) (w_clo w)) as [[ys c] b]. destruct b; [|reflexivity].
    cbn [app] in *. rewrite HC. reflexivity.
  - rewrite (to_vec_ok Ht) in EV. discriminate.
Qed.

Lemma assign_kept_spec {T C} (clone : T -> C -> call T C) src i (p : parts T C) :
  (i + length src <= length (p_items p))%nat ->
  assign_kept clone i src p =
  let '(ys, c, b) := gives (map clone src) (w_clo (p_w p)) in
  finish b tt (mkParts (firstn i (p_items p) ++ ys ++ skipn (i + length ys) (p_items p)) (p_cap p) (p_dims p)
                 (after c ys [] (p_w p))).
Proof.
  revert i p. induction src as [|x src IH]; intros i p Hi; cbn [assign_kept map gives].
  - cbn. rewrite after_nil, Nat.add_0_r, firstn_skipn. now destruct p.
  - unfold seqM at 1, vec_call. destruct (clone x (w_clo (p_w p))) as [y c|c].
    + unfold seqM at 1. cbn [p_items p_cap p_dims p_w length] in *.
      destruct (nth_error (p_items p) i) as [old|] eqn:E; [|apply nth_error_None in E; lia].
      rewrite IH by (cbn [p_items]; rewrite upd_length; lia). cbn [p_items p_cap p_dims p_w w_drop w_make w_clo].
      destruct (gives (map clone src) c) as [[ys c'] b]. f_equal.
      assert (SPLIT : exists l1 l2, p_items p = l1 ++ old :: l2 /\ length l1 = i) by now apply nth_error_split.
      destruct SPLIT as (l1 & l2 & EP & EL). rewrite EP in *. clear EP E. subst i.
      assert (EU : upd (l1 ++ old :: l2) (length l1) y = l1 ++ y :: l2).
      { clear. induction l1 as [|z l1 IH]; cbn; auto. now rewrite IH. }
      rewrite EU. clear EU.
      assert (F1 : forall (z : T), firstn (S (length l1)) (l1 ++ z :: l2) = l1 ++ [z]).
      { intros z. rewrite firstn_app. replace (S (length l1) - length l1)%nat with 1%nat by lia.
        rewrite firstn_all2 by lia. reflexivity. }
      assert (F2 : forall k (z : T), skipn (length l1 + S k) (l1 ++ z :: l2) = skipn k l2).
      { intros k z. rewrite skipn_app. rewrite skipn_all2 by lia. replace (length l1 + S k - length l1)%nat with (S k) by lia. reflexivity. }
      assert (F3 : forall (z : T), skipn (length l1) (l1 ++ z :: l2) = z :: l2).
      { intros z. rewrite skipn_app, skipn_all, Nat.sub_diag. reflexivity. }
      assert (F4 : forall (z : T), skipn (S (length l1)) (l1 ++ z :: l2) = l2).
      { intros z. replace (S (length l1)) with (length l1 + 1)%nat by lia. now rewrite F2. }
      rewrite F1. cbn [length].
      replace (S (length l1) + length ys)%nat with (length l1 + S (length ys))%nat by lia. rewrite !F2.
      rewrite firstn_app, firstn_all, Nat.sub_diag. cbn [firstn]. rewrite app_nil_r.
      unfold after, w_drop, w_make. cbn [w_made w_used w_dropped]. rewrite <- !app_assoc. reflexivity.
    + cbn. unfold after, w_set. cbn. rewrite Nat.add_0_r, firstn_skipn, !app_nil_r. reflexivity.
Qed.

Lemma in_clone_from_eq {T C} al (clone : T -> C -> call T C) (src : into T) (e : into T) (w : world T C) ys c :
  tensor_ok (in_buf e) -> tensor_ok (in_buf src) -> in_index e = 0 -> in_index src = 0 -> (forall n, al_ok al n = true) ->
  gives (map clone (tn_mem (in_buf src))) (w_clo w) = (ys, c, true) ->
  exists cap, zlen ys <= cap /\
    in_clone_from al clone src (e, w) =
    Done tt (mkInto (mkTensor (tn_ty (in_buf e)) (tn_dims (in_buf src)) ys cap) 0, after c ys [] w).
Proof.
  intros Ht Hts HI HJ Hal HG. set (t := in_buf e) in *. unfold in_clone_from. rewrite HI, HJ. change ((0 =? 0) && (0 =? 0)) with true. cbn iota.
  fold t. set (dims := tn_dims (in_buf src)).
  pose proof (to_len Hts) as Hs. fold dims in Hs. revert HG Hs. generalize (tn_mem (in_buf src)) as src0. intros src0 HG Hs.
  fold (zlen src0) in Hs. set (m := tn_mem t). set (n := Nat.min (length src0) (length m)).
  rewrite <- (firstn_skipn n src0) in HG. rewrite map_app, gives_app in HG.
  destruct (gives (map clone (firstn n src0)) (w_clo w)) as [[y1 c1] b1] eqn:E1. destruct b1; [|discriminate].
  destruct (gives (map clone (skipn n src0)) c1) as [[y2 c2] b2] eqn:E2. injection HG as <- <- ->.
  destruct (gives_length E1) as [_ L1]. destruct (gives_length E2) as [_ L2].
  specialize (L1 eq_refl). specialize (L2 eq_refl). rewrite map_length in *.
  assert (EN : length (firstn (length src0) m) = n) by (rewrite firstn_length; unfold n; lia).
  rewrite firstn_length in L1. rewrite skipn_length in L2.
  set (p1 := mkParts y1 (tn_cap t) (tn_dims t) (after c1 y1 [] w)).
  destruct (reserve_cases al (zlen (skipn n src0)) p1) as [(cap & ER & H1 & H2)|[ER HF]].
  2:{ rewrite Hal in HF. discriminate. }
  exists cap. split. { cbn [p1 p_items] in H2. rewrite zlen_app. unfold zlen in *. rewrite skipn_length in H2. lia. }
  assert (LY : zlen (y1 ++ y2) = prodZ dims) by (rewrite zlen_app; unfold zlen in *; lia).
  unfold with_mut_parts_kept. rewrite (to_vec_ok Ht).
  unfold vec_clone_from_kept. unfold seqM at 1 2. cbn [p_items p_cap p_dims p_w]. fold m. rewrite EN.
  unfold seqM at 1. rewrite assign_kept_spec by (cbn [p_items]; rewrite EN, firstn_length; lia).
  cbn [p_items p_cap p_dims p_w w_clo]. rewrite E1. cbn [finish firstn skipn app Nat.add].
  rewrite (skipn_all2 (n := length y1)) by (rewrite firstn_length; lia). rewrite app_nil_r.
  fold p1. unfold seqM at 1. rewrite ER.
  rewrite clone_loop_spec by (cbn [p1 p_items p_cap] in *; lia). cbn [p_w p1 after w_clo]. rewrite E2. cbn [finish].
  unfold p_set_dims, pushed. cbn [p_items p_cap p_dims p_w p1]. rewrite sh_len_prod, LY, Z.eqb_refl.
  rewrite after_after. reflexivity.
Qed.

(** [clone_from] with clones that may panic and an allocator that may refuse. *)
Lemma clone_from_kept_cases {T C} al (clone : T -> C -> call T C) src (p : parts T C) :
  zlen (p_items p) <= p_cap p ->
  match vec_clone_from_kept al clone src p with
  | Done _ p' => length (p_items p') = length src /\ zlen (p_items p') <= p_cap p' /\ p_dims p' = p_dims p
  | Unwound p' => zlen (p_items p') <= p_cap p' /\ p_dims p' = p_dims p /\
      (length (p_items p) = length src -> length (p_items p') = length src)
  | _ => False
  end.
Proof.
  intros HC. set (n := Nat.min (length src) (length (p_items p))).
  assert (EN : length (firstn (length src) (p_items p)) = n) by (rewrite firstn_length; unfold n; lia).
  unfold vec_clone_from_kept. unfold seqM at 1 2. cbn [p_items p_cap p_dims p_w]. rewrite EN.
  rewrite assign_kept_spec by (cbn [p_items]; rewrite EN, firstn_length; lia).
  cbn [p_items p_cap p_dims p_w]. destruct (gives (map clone (firstn n src)) (w_clo (p_w p))) as [[y1 c1] b1] eqn:E1.
  destruct (gives_length E1) as [LE L1]. rewrite map_length, firstn_length in LE, L1. cbn [firstn app Nat.add].
  destruct b1; cbn [finish].
  - specialize (L1 eq_refl). rewrite (skipn_all2 (n := length y1)) by lia. rewrite app_nil_r.
    set (p1 := mkParts y1 (p_cap p) (p_dims p) _). unfold seqM at 1.
    destruct (reserve_cases al (zlen (skipn n src)) p1) as [(cap & ER & H1 & H2)|[ER _]]; rewrite ER.
    + rewrite clone_loop_spec by (cbn [p1 p_items p_cap] in *; lia).
      destruct (gives (map clone (skipn n src)) _) as [[y2 c2] b2] eqn:E2. destruct (gives_length E2) as [LE2 L2].
      rewrite map_length, skipn_length in LE2, L2. cbn [p1 p_items p_cap p_dims] in *. unfold zlen in H2. rewrite skipn_length in H2.
      destruct b2; cbn [finish pushed p_items p_cap p_dims]; rewrite ?zlen_app; unfold zlen; rewrite ?app_length; repeat split; lia.
    + cbn [p1 p_items p_cap p_dims]. unfold zlen in *. repeat split; lia.
  - cbn [p_items p_cap p_dims]. unfold zlen in *. rewrite app_length, skipn_length, EN. repeat split; lia.
Qed.

(** A shape type whose default is not empty has no other values. *)
Lemma default_only ty dims : typed ty dims -> prodZ (sh_default ty) <> 0 -> dims = sh_default ty.
Proof.
  destruct ty as [|ds]; cbn [sh_default]; [intros _ H; now destruct H|]. cbn [typed].
  intros H HP. revert HP. induction H as [|d x ds xs Hd _ IH]; [reflexivity|]. rewrite map_cons, prodZ_cons. intros HP.
  destruct d as [c|]; cbn [dim_default] in *; [|lia]. cbn in Hd. rewrite IH by (intros E; rewrite E in HP; lia). now rewrite Hd.
Qed.

Lemma in_clone_from_post {T C} al (clone : T -> C -> call T C) (src e : into T) (w : world T C) :
  tensor_ok (in_buf e) -> tensor_ok (in_buf src) -> tn_ty (in_buf src) = tn_ty (in_buf e) ->
  match in_clone_from al clone src (e, w) with
  | Done _ (e', _) | Unwound (e', _) =>
      tensor_ok (in_buf e') /\ tn_ty (in_buf e') = tn_ty (in_buf e) /\ in_index e' = in_index e
  | _ => False
  end.
Proof.
  intros Ht Hs TY. unfold in_clone_from. destruct (_ && _); [|auto].
  unfold with_mut_parts_kept. rewrite (to_vec_ok Ht). unfold seqM at 1.
  pose proof (@clone_from_kept_cases T C al clone (tn_mem (in_buf src))
                (mkParts (tn_mem (in_buf e)) (tn_cap (in_buf e)) (tn_dims (in_buf e)) w) (to_cap Ht)) as H.
  destruct (vec_clone_from_kept _ _ _ _) as [a p|p| |]; try contradiction.
  - destruct H as (H1 & H2 & H3). unfold p_set_dims. cbn [p_items p_cap p_dims p_w]. rewrite sh_len_prod.
    unfold zlen at 1. rewrite H1, (to_len Hs), Z.eqb_refl. cbn [in_buf in_index tn_ty]. split; [|auto].
    constructor; cbn [tn_dims tn_ty tn_mem tn_cap]; try apply Hs; try apply Ht; [rewrite <- TY; apply Hs| |exact H2].
    rewrite H1. apply Hs.
  - destruct H as (H1 & H2 & H3). cbn [p_dims] in H2. rewrite H2. destruct (Z.eqb_spec (zlen (p_items p)) (sh_len (tn_dims (in_buf e)))) as [E|E].
    + rewrite sh_len_prod in E. cbn [in_buf in_index tn_ty]. split; [|auto].
      constructor; cbn [tn_dims tn_ty tn_mem tn_cap]; try apply Ht; auto.
    + rewrite sh_len_prod. destruct (Z.eqb_spec (prodZ (sh_default (tn_ty (in_buf e)))) 0) as [E0|E0].
      2:{ apply E. rewrite sh_len_prod. unfold zlen. cbn [p_items] in H3. rewrite <- (to_len Ht).
          assert (ED : tn_dims (in_buf src) = tn_dims (in_buf e)).
          { rewrite (default_only (to_typed Ht) E0). apply default_only; [rewrite <- TY; apply Hs|exact E0]. }
          assert (EL : length (tn_mem (in_buf e)) = length (tn_mem (in_buf src))).
          { apply Nat2Z.inj. rewrite (to_len Ht), (to_len Hs). now rewrite ED. }
          rewrite H3 by exact EL. now rewrite EL. }
      cbn [in_buf in_index tn_ty]. split; [|auto].
      constructor; cbn [tn_dims tn_ty tn_mem tn_cap length].
      * apply (default_nonneg (to_typed Ht) (to_nonneg Ht)).
      * apply default_typed.
      * apply Ht.
      * now rewrite E0.
      * unfold zlen in H1. lia.
Qed.

Lemma in_drop_eq {T C} (e : into T) (w : world T C) :
  tensor_ok (in_buf e) -> 0 <= in_index e <= prodZ (tn_dims (in_buf e)) ->
  in_drop e w = Done tt (w_drop (skipn (Z.to_nat (in_index e)) (tn_mem (in_buf e))) w).
Proof.
  intros Ht HI. unfold in_drop, tn_len. rewrite sh_len_prod. unfold zlen. rewrite (to_len Ht), Z.eqb_refl.
  destruct (Z.leb_spec (in_index e) (prodZ (tn_dims (in_buf e)))); [reflexivity|lia].
Qed.

(** ** Copies of subarrays *)

Lemma produce_clones {T C} (mem : list T) (clone : T -> C -> outcome (T * C)) v l src c :
  (forall idx, In idx l -> 0 <= v_addr v idx) ->
  map (fun idx => nth_error mem (Z.to_nat (v_addr v idx))) l = map Some src ->
  exists o, produce (map_action (clone_at mem clone) (pure_action (v_addr v))) l (tt, c) = (fst (clones clone src c), o) /\
    match snd (clones clone src c), o with Ok _, Ok _ | Panic, Panic | UB, UB | NoFuel, NoFuel => True | _, _ => False end.
Proof.
  revert src c. induction l as [|i l IH]; intros src c HP HE; destruct src as [|x src]; try discriminate.
  - exists (Ok (tt, c)). split; [reflexivity|exact I].
  - cbn [map] in HE. injection HE as HX HE. cbn [produce clones]. unfold map_action at 1, pure_action at 1. cbn [bind fst snd].
    unfold clone_at at 1, read at 1. destruct (Z.ltb_spec (v_addr v i) 0) as [N|N]; [specialize (HP i (or_introl eq_refl)); lia|].
    rewrite HX. cbn [bind]. destruct (clone x c) as [[y c']| | |]; cbn [bind].
    2-4: eexists; split; [reflexivity|exact I].
    destruct (IH src c' (fun idx H => HP idx (or_intror H)) HE) as (o & E & M). rewrite E.
    destruct (clones clone src c') as [ys o']. cbn [fst snd] in *. exists o. split; [reflexivity|exact M].
Qed.

Section Copies.
  Context {T C W : Type}.
  Variables (mem : list T) (clone : T -> C -> outcome (T * C)) (c0 : C) (v : view).
  Hypotheses (HV : valid_view (zlen mem) v) (HF : view_fine v) (HC : forall x c, proper (clone x c)).

  Local Lemma view_cells : exists src, map Some src = elements mem v.
  Proof.
    unfold elements. assert (G : forall l, Forall (in_bounds (v_dims v)) l ->
      exists src, map Some src = map (fun idx => nth_error mem (Z.to_nat (v_addr v idx))) l).
    { intros l. induction 1 as [|i l Hi _ [src E]]; [now exists []|].
      pose proof (vv_range HV Hi) as HB. destruct (nth_error mem (Z.to_nat (v_addr v i))) as [x|] eqn:EX.
      - exists (x :: src). cbn [map]. now rewrite E, EX.
      - apply nth_error_None in EX. unfold zlen in HB. lia. }
    apply G. apply Forall_forall. intros i Hi. now apply in_indices.
  Qed.

  Let tr := TCloned (clone_at mem clone) c0 (TView (zlen mem) true v).

  Local Lemma tr_safe : t_safe tr.
  Proof.
    intros idx [[] c] Hi. unfold tr. cbn [t_act]. unfold map_action, pure_action, clone_at, read. cbn [bind fst snd].
    cbn [tr t_dims] in Hi. pose proof (vv_range HV Hi) as HB. destruct (Z.ltb_spec (v_addr v idx) 0); [lia|].
    destruct (nth_error mem (Z.to_nat (v_addr v idx))) as [x|] eqn:E; [|apply nth_error_None in E; unfold zlen in HB; lia].
    cbn [bind]. specialize (HC x c). destruct (clone x c) as [[y c']| | |]; exact HC || exact I.
  Qed.

  Lemma copy_view : exists src, map Some src = elements mem v /\
    (forall al (w : world T W), (forall n, al_ok al n = true) ->
       match clones clone src c0 with
       | (ys, Ok _) => exists cap, zlen ys = prodZ (v_dims v) /\ zlen ys <= cap /\
           v_to_tensor al mem clone c0 v w = Done (mkTensor (v_ty v) (v_dims v) ys cap) (after (w_clo w) ys [] w)
       | (ys, _) => v_to_tensor al mem clone c0 v w = Unwound (after (w_clo w) ys ys w)
       end) /\
    (forall ds (w : world T W), consts ds -> typed (STuple ds) (v_dims v) ->
       match clones clone src c0 with
       | (ys, Ok _) => zlen ys = prodZ (v_dims v) /\ v_to_array ds mem clone c0 v w = Done ys (after (w_clo w) ys [] w)
       | (ys, _) => v_to_array ds mem clone c0 v w = Unwound (after (w_clo w) ys ys w)
       end).
  Proof.
    destruct view_cells as [src ES]. exists src. split; [exact ES|].
    destruct (@produce_clones T C mem clone v (indices (v_dims v)) src c0) as (o & EP & EM).
    { intros idx Hi. apply in_indices in Hi. pose proof (vv_range HV Hi). lia. }
    { rewrite ES. reflexivity. }
    assert (HFt : t_fine tr) by exact (@view_tree_fine (zlen mem) true v (vv_wf HV) HF).
    split.
    - intros al w HA.
      pose proof (@eval_tree T tr (v_cloned mem clone c0 v) HV eq_refl HFt tr_safe W al w _ _ HA EP) as H.
      destruct (clones clone src c0) as [ys oc]. cbn [fst snd] in *.
      destruct oc, o; try contradiction; try exact H. destruct H as (cap & H1 & H2 & _ & H4). exists cap. auto.
    - intros ds w HK HT.
      pose proof (@array_tree T tr (v_cloned mem clone c0 v) HV eq_refl HFt tr_safe W ds w _ _ HK HT EP) as H.
      destruct (clones clone src c0) as [ys oc]. cbn [fst snd] in *. destruct oc, o; try contradiction; exact H.
  Qed.
End Copies.

(** The cells of a subarray in terms of the view it is taken from. *)
Lemma sub_elements {T} (mem : list T) v ix v' :
  shows v v' (sub_index (v_dims v) ix) -> v_dims v' = sub_dims (v_dims v) ix ->
  elements mem v' = map (fun idx => nth_error mem (Z.to_nat (v_addr v (sub_index (v_dims v) ix idx)))) (indices (sub_dims (v_dims v) ix)).
Proof.
  intros HS HD. unfold elements. rewrite <- HD. apply map_ext_in. intros i Hi. apply in_indices in Hi.
  now rewrite (proj2 (HS i Hi)).
Qed.

Lemma copy_sub {T C W} (mem : list T) (clone : T -> C -> outcome (T * C)) c0 v ix :
  valid_view (zlen mem) v -> Forall ix_arg ix -> Forall (fun d => d <= usize_max) (v_dims v) ->
  length ix = length (v_dims v) -> Forall2 ix_ok (v_dims v) ix -> (forall x c, proper (clone x c)) ->
  (forall v', v_view v ix = Ok v' -> view_fine v') ->
  let dims := sub_dims (v_dims v) ix in
  exists src, map Some src = map (fun idx => nth_error mem (Z.to_nat (v_addr v (sub_index (v_dims v) ix idx)))) (indices dims) /\
    (forall al (w : world T W), (forall n, al_ok al n = true) ->
       match clones clone src c0 with
       | (ys, Ok _) => exists ty cap, typed ty dims /\ zlen ys = prodZ dims /\ zlen ys <= cap /\
           v_tensor al mem clone c0 v ix w = Done (mkTensor ty dims ys cap) (after (w_clo w) ys [] w)
       | (ys, _) => v_tensor al mem clone c0 v ix w = Unwound (after (w_clo w) ys ys w)
       end) /\
    (forall ds (w : world T W), consts ds -> typed (STuple ds) dims ->
       match clones clone src c0 with
       | (ys, Ok _) => zlen ys = prodZ dims /\ v_array ds mem clone c0 v ix w = Done ys (after (w_clo w) ys [] w)
       | (ys, _) => v_array ds mem clone c0 v ix w = Unwound (after (w_clo w) ys ys w)
       end).
Proof.
  intros HV HA HS HL HO HC HF dims. destruct (@view_ok v ix (vv_wf HV) HA HS HL HO) as (v' & E & ED & Hw & HSh).
  assert (HV' : valid_view (zlen mem) v').
  { apply (@shows_valid (zlen mem) v v' _ HV Hw HSh). intros i j Hi Hj. rewrite ED in Hi, Hj.
    apply sub_index_inj; auto. apply (wf_nonneg (vv_wf HV)). }
  destruct (@copy_view T C W mem clone c0 v' HV' (HF v' E) HC) as (src & ES & H1 & H2).
  exists src. rewrite (sub_elements mem HSh ED) in ES. split; [exact ES|]. split.
  - intros al w Hal. unfold v_tensor, seqM, lift. rewrite E. specialize (H1 al w Hal).
    destruct (clones clone src c0) as [ys [o| | |]]; auto. destruct H1 as (cap & K1 & K2 & K3). fold dims in ED. rewrite ED in *.
    exists (v_ty v'), cap. repeat split; auto. rewrite <- ED. apply (wf_typed Hw).
  - intros ds w HK HT. unfold v_array, seqM, lift. rewrite E. fold dims in ED. rewrite <- ED in HT. specialize (H2 ds w HK HT).
    destruct (clones clone src c0) as [ys [o| | |]]; auto. rewrite ED in H2. exact H2.
Qed.

(** ** The [nightly] guard *)

Lemma nightly_same {T C A} (m : shty -> M (parts T C) A) t (w : world T C) :
  prodZ (sh_default (tn_ty t)) = 0 -> with_mut_parts_nightly m (t, w) = with_mut_parts m (t, w).
Proof.
  intros H. unfold with_mut_parts_nightly, with_mut_parts. rewrite <- sh_len_prod in H. rewrite H. reflexivity.
Qed.

Lemma nightly_done {T C A} (m : shty -> M (parts T C) A) t (w : world T C) a s :
  with_mut_parts m (t, w) = Done a s -> with_mut_parts_nightly m (t, w) = Done a s.
Proof.
  unfold with_mut_parts_nightly, with_mut_parts. destruct (to_vec_raw t); [|discriminate].
  destruct (m _ _); auto. destruct (_ =? _); [discriminate|]. destruct (_ =? _); discriminate.
Qed.

Lemma nightly_resize_same {T C} al new (f : C -> call T C) t (w : world T C) :
  prodZ (sh_default (tn_ty t)) = 0 -> tn_resize_with_nightly al new f (t, w) = tn_resize_with al new f (t, w).
Proof.
  intros H. unfold tn_resize_with_nightly, tn_resize_with. cbn [fst]. unfold seqM at 1 3, check at 1 3.
  destruct (length new =? length (tn_dims t))%nat; [|reflexivity]. destruct new as [|d new]; [reflexivity|].
  destruct (sh_checked_len (d :: new)); [|reflexivity]. now apply nightly_same.
Qed.
Lemma nightly_resize_done {T C} al new (f : C -> call T C) t (w : world T C) s :
  tn_resize_with al new f (t, w) = Done tt s -> tn_resize_with_nightly al new f (t, w) = Done tt s.
Proof.
  unfold tn_resize_with_nightly, tn_resize_with. cbn [fst]. unfold seqM at 1 3, check at 1 3.
  destruct (length new =? length (tn_dims t))%nat; [|discriminate]. destruct new as [|d new]; [auto|].
  destruct (sh_checked_len (d :: new)); [|discriminate]. apply nightly_done.
Qed.

Lemma zip_into_dims {A B} ty dims (l : list A) (b : expression B) z :
  e_zip (e_into ty dims l) b = Ok z -> (length (e_dims b) <= length dims)%nat.
Proof.
  unfold e_zip, assert, bind. cbn [e_into e_rep orb]. change (e_rank (e_into ty dims l)) with (length dims). unfold e_rank.
  destruct (Nat.leb_spec (length (e_dims b)) (length dims)); [auto|discriminate].
Qed.

Lemma somes_map {A} (xs : list A) : somes (map Some xs) = xs.
Proof. induction xs; cbn; congruence. Qed.

Lemma zip_into_pass {A B} ty dims (l : list A) (t : tree B) b d n xs s :
  let z := zip_expr (e_into ty dims l) b d in
  let tz := TZip (TInto ty dims l) t in
  t_leaves tz -> t_build t = Ok b -> e_zip (e_into ty dims l) b = Ok z -> t_next_fine tz ->
  (n <= length l)%nat -> items (t_act tz) (firstn n (indices (t_dims tz))) (t_init tz) = Ok (xs, s) ->
  t_dims tz = dims /\
  exists it, it_nexts n (it_new z) = Ok (map Some xs, it) /\ map fst xs = firstn n l /\
    into_dropped l (fst (it_st it)) = skipn n l /\
    (n = length l -> exists it', it_next it = Ok (None, it') /\ into_dropped l (fst (it_st it')) = [] /\
       (t_outer tz = 0%nat -> forall k, exists it'', it_nexts k it' = Ok (repeat None k, it''))).
Proof.
  intros z tz HL HB HZ HF HN HI. destruct HL as [HL1 HL2].
  assert (ED : t_dims tz = dims).
  { unfold tz. cbn [t_dims]. pose proof (zip_into_dims HZ) as HD.
    destruct (build_cases HL2) as [(_ & e & E & BU)|(_ & E)]; rewrite HB in E; [|discriminate]. injection E as <-.
    rewrite (bu_dims BU) in HD. unfold longer. destruct (Nat.ltb_spec (length dims) (length (t_dims t))); [lia|reflexivity]. }
  split; [exact ED|].
  assert (HBz : t_build tz = Ok z) by (unfold tz; cbn [t_build bind]; rewrite HB; exact HZ).
  cbn [t_leaves] in HL1. destruct HL1 as (HNN & HT & HLen).
  assert (HN' : (n <= Z.to_nat (prodZ (t_dims tz)))%nat) by (rewrite ED, <- HLen; lia).
  destruct (@tree_next_built (A * B) tz z n xs s (conj (conj HNN (conj HT HLen)) HL2) HBz HF HN' HI) as (it & H1 & _ & _ & H4).
  exists it. split; [exact H1|]. destruct (zip_into_left H1) as [M1 M2]. rewrite somes_map in M1, M2.
  assert (LX : length xs = n).
  { pose proof (items_length HI) as LI. rewrite LI, firstn_length. pose proof (indices_length HNN) as LX. rewrite ED. lia. }
  rewrite LX in M1, M2. split; [exact M1|]. split; [exact M2|]. intros En.
  destruct (H4 ltac:(rewrite ED, <- HLen; lia)) as (it' & N1 & N2). exists it'. split; [exact N1|]. split.
  - assert (NX : it_nexts (n + 1) (it_new z) = Ok (map Some xs ++ [None], it')).
    { rewrite it_nexts_app, H1. cbn [bind it_nexts]. rewrite N1. reflexivity. }
    destruct (zip_into_left NX) as [_ M3]. etransitivity; [exact M3|]. apply skipn_all2.
    assert (SE : forall ys : list (A * B), somes (map Some ys ++ [None]) = ys) by (intros ys; induction ys; cbn; congruence).
    rewrite SE. lia.
  - intros HO k. destruct (N2 HO k) as (it'' & K & _). eauto.
Qed.
