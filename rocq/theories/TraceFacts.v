(** What [for_each] gives to its closure: the trace of an expression. *)
From Verif Require Import Base Spec SpecFacts Shape Mapping Index View Wf MappingFacts MapOps ReshapeFacts.
From Verif Require Import IndexFacts ViewFacts Expr ExprSpec ExprFacts IterFacts SourceFacts ExprTree ExprMore Tensor.
Unset Strict Implicit.

Definition done {A} (o : outcome A) : outcome unit := let* _ := o in Ok tt.

Lemma foldM_app {A T} (f : T -> A -> outcome T) l1 l2 t :
  foldM f (l1 ++ l2) t = let* t' := foldM f l1 t in foldM f l2 t'.
Proof. revert t. induction l1 as [|a l1 IH]; intros t; cbn; auto. destruct (f t a); cbn; auto. Qed.

(** ** [fold] is giving the trace to the closure *)

Lemma inner_loop_trace {A T} (e : expression A) (f : T -> A -> outcome T) n i st acc :
  inner_loop e f n i st acc =
  let (xs, o) := inner_trace e n i st in let* a := foldM f xs acc in let* st' := o in Ok (st', a).
Proof.
  revert i st acc. induction n as [|n IH]; intros i st acc; cbn [inner_loop inner_trace]; [reflexivity|].
  destruct (e_get e i st) as [[a st']| | |]; cbn [bind fail foldM]; auto.
  destruct (inner_trace e n (i + 1) st') as [xs o] eqn:E. cbn [foldM].
  destruct (f acc a) as [acc'| | |]; cbn [bind]; auto. rewrite IH, E. reflexivity.
Qed.

Lemma fold_loop_trace {A T} (e : expression A) (f : T -> A -> outcome T) fuel (it : iter e) acc :
  fold_loop f fuel it acc =
  let (xs, o) := loop_trace fuel it in let* a := foldM f xs acc in let* _ := o in Ok a.
Proof.
  revert it acc. induction fuel as [|fuel IH]; intros it acc; cbn [fold_loop loop_trace]; [reflexivity|].
  rewrite inner_loop_trace. destruct (inner_trace _ _ _ _) as [xs o].
  destruct o as [st| | |]; cbn [fail];
    try (destruct (foldM f xs acc); reflexivity).

  destruct (foldM f xs acc) as [acc'| | |] eqn:EF; cbn [bind].
  - destruct (step_outer _) as [[b it']| | |]; cbn [fail bind]; try (rewrite EF; reflexivity).
    destruct b; [|rewrite EF; reflexivity].
    destruct (loop_trace fuel _) as [ys o] eqn:E. rewrite foldM_app, EF. cbn [bind]. rewrite IH, E. reflexivity.
  - destruct (step_outer _) as [[[] it']| | |]; cbn [fail]; [destruct (loop_trace fuel _); rewrite foldM_app| | | |]; now rewrite EF.
  - destruct (step_outer _) as [[[] it']| | |]; cbn [fail]; [destruct (loop_trace fuel _); rewrite foldM_app| | | |]; now rewrite EF.
  - destruct (step_outer _) as [[[] it']| | |]; cbn [fail]; [destruct (loop_trace fuel _); rewrite foldM_app| | | |]; now rewrite EF.
Qed.

Lemma e_fold_trace {A T} (e : expression A) (f : T -> A -> outcome T) acc :
  e_fold e f acc = let* a := foldM f (fst (e_trace e)) acc in let* _ := snd (e_trace e) in Ok a.
Proof. unfold e_fold, it_fold. rewrite fold_loop_trace. unfold e_trace. destruct (loop_trace _ _). reflexivity. Qed.

Lemma e_collect_trace {A} (e : expression A) xs : e_collect e = Ok xs <-> e_trace e = (xs, Ok tt).
Proof.
  unfold e_collect. rewrite e_fold_trace, foldM_collect. destruct (e_trace e) as [ys o]. cbn [fst snd bind].
  destruct o as [[]| | |]; cbn [bind]; split; intros H; try congruence.
  - injection H as <-. now rewrite rev_involutive.
  - injection H as ->. now rewrite rev_involutive.
Qed.

(** ** The trace of an expression that computes an action *)

Lemma produce_app {A S} (act : action A S) l1 l2 s :
  produce act (l1 ++ l2) s =
  let (xs, o) := produce act l1 s in
  match o with
  | Ok s' => let (ys, o') := produce act l2 s' in (xs ++ ys, o')
  | Panic => (xs, Panic) | UB => (xs, UB) | NoFuel => (xs, NoFuel)
  end.
Proof.
  revert s. induction l1 as [|i l1 IH]; intros s; cbn.
  - destruct (produce act l2 s). reflexivity.
  - destruct (act i s) as [[a s']| | |]; auto. rewrite IH.
    destruct (produce act l1 s') as [xs [s''| | |]]; auto. destruct (produce act l2 s''). reflexivity.
Qed.

Section Trace.
  Variables (A S : Type) (e : expression A) (act : action A S).
  Let D := e_dims e.
  Let q := outer_rank e.
  Let P := prodZ (skipn q D).
  Let O := olim q D.
  Variables (R : list Z -> Z -> e_st e -> S -> Prop) (Q : list Z -> nat -> e_st e -> S -> Prop).
  Hypothesis HL : laws e act D q R Q.
  Hypothesis HD : nonneg D.
  Hypothesis HF : positive (firstn q D) \/ P = 0.

  Lemma inner_trace_spec o n i st s :
    R o i st s -> in_bounds O o -> 0 <= i -> Z.of_nat n = P - i ->
    fst (inner_trace e n i st) = fst (produce act (map (unflat D) (positions (flat O o * P + i) (flat O o * P + P))) s) /\
    agree (R o P) (snd (inner_trace e n i st))
      (snd (produce act (map (unflat D) (positions (flat O o * P + i) (flat O o * P + P))) s)).
  Proof.
    intros HR B Hi. revert i st s HR Hi.
    induction n as [|n IH]; intros i st s HR Hi Hn.
    - replace i with P in * by lia. rewrite positions_nil by lia. cbn. auto.
    - rewrite positions_cons by lia. cbn [inner_trace map produce].
      destruct HF as [Hp|E0]; [|lia].
      pose proof (flat_bounds B) as FB.
      assert (Hi' : 0 <= i < P) by lia.
      assert (EI : unflat D (flat O o * P + i) = unflat O (flat O o) ++ unflat (skipn q D) i)
        by exact (@pos_index _ e HD _ _ Hp FB Hi').
      rewrite EI. rewrite unflat_flat by auto.
      assert (B' : in_bounds (firstn q D) o) by (unfold O in B; rewrite olim_pos_eq in B; auto).
      assert (HG : agree (fun x y => fst x = fst y /\ R o (i + 1) (snd x) (snd y)) (e_get e i st)
                     (act (o ++ unflat (skipn q D) i) s)).
      { rewrite <- (@e_rank_lastn _ e (o ++ unflat (skipn q D) i)).
        - apply (@l_get _ _ _ _ _ _ _ _ HL); auto.
        - rewrite app_length, unflat_length, skipn_length. apply in_bounds_length in B'.
          rewrite firstn_length in B'. pose proof (outer_rank_le e) as Hq. fold q in Hq.
          change (e_rank e) with (length D) in Hq. fold D. lia. }
      destruct (e_get e i st) as [[a st']| | |], (act (o ++ unflat (skipn q D) i) s) as [[a' s']| | |];
        cbn in HG; try contradiction; cbn [fail fst snd]; auto.
      destruct HG as [<- HR'].
      specialize (IH (i + 1) st' s' HR' ltac:(lia) ltac:(lia)).
      replace (flat O o * P + i + 1) with (flat O o * P + (i + 1)) by lia.
      destruct (inner_trace e n (i + 1) st') as [xs oo].
      destruct (produce act (map (unflat D) (positions (flat O o * P + (i + 1)) (flat O o * P + P))) s') as [ys oo'].
      cbn [fst snd] in *. destruct IH as [-> IH]. auto.
  Qed.

  Lemma loop_trace_spec fuel it o i s :
    at_pos R it o i s -> it_index it = i -> 0 <= i <= P ->
    (Z.to_nat (prodZ O - flat O o) <= fuel)%nat ->
    loop_trace fuel it =
    let (xs, o) := produce act (map (unflat D) (positions (flat O o * P + i) (prodZ O * P))) s in (xs, done o).
  Proof.
    revert it o i s. induction fuel as [|fuel IH]; intros it o i s HA Hidx Hi Hfuel.
    - pose proof (flat_bounds (ap_in HA)) as FB. change (0 <= flat O o < prodZ O) in FB. lia.
    - destruct HA as [Hr Hlim Hout Holim B]. change (it_limit it = P) in Hlim. change (in_bounds O o) in B.
      pose proof (flat_bounds B) as FB.
      cbn [loop_trace]. rewrite Hidx, Hlim.
      rewrite (@positions_app (flat O o * P + i) (flat O o * P + P) (prodZ O * P)) by nia.
      rewrite map_app, produce_app.
      pose proof (@inner_trace_spec o (Z.to_nat (P - i)) i (it_st it) s Hr B ltac:(lia) ltac:(lia)) as HI.
      destruct (inner_trace _ _ _ _) as [xs [st'| | |]],
               (produce act (map _ (positions _ (flat O o * P + P))) _) as [ys [s'| | |]];
        cbn [fst snd agree] in HI; destruct HI as [-> HI]; try contradiction; cbn [fail]; auto.
      assert (HA' : at_pos R (mkIter st' i P (it_outer it) (it_olimit it)) o P s').
      { rewrite Hout, Holim. constructor; cbn; auto. }
      destruct (step_outer_spec HL HA') as (b & it' & E & Ei & Hb).
      rewrite E. cbn [bind]. destruct b.
      + destruct Hb as (o1 & F1 & HA1). change (flat O o1 = flat O o + 1) in F1.
        rewrite (IH _ o1 0 s').
        * replace (flat O o1 * P + 0) with (flat O o * P + P) by (rewrite F1; lia).
          destruct (produce act _ s'). reflexivity.
        * destruct HA1. constructor; cbn; auto.
        * reflexivity.
        * assert (0 <= P) by exact (prodZ_nonneg (nonneg_skipn q HD)). lia.
        * rewrite F1. lia.
      + change (flat O o + 1 = prodZ O) in Hb. replace (prodZ O * P) with (flat O o * P + P) by (rewrite <- Hb; lia).
        rewrite positions_nil by lia. cbn. now rewrite app_nil_r.
  Qed.
End Trace.

Theorem trace_computes {A S} (e : expression A) (act : action A S) s0 need :
  computes e act s0 need -> (need <= e_rank e - outer_rank e)%nat -> outer_fine e ->
  e_trace e = let (xs, o) := produce act (indices (e_dims e)) s0 in (xs, done o).
Proof.
  intros HC Hneed HF. destruct (new_inv HC Hneed) as (R & Q & HL & (o & i & HA & Hidx & Hi & Hp)).
  pose proof (proj1 HC) as HD.
  assert (HOP : prodZ (olim (outer_rank e) (e_dims e)) * prodZ (skipn (outer_rank e) (e_dims e)) = prodZ (e_dims e)).
  { destruct HF as [H|H]; [now apply (@prod_pos _ e)|]. rewrite H. rewrite (@prod_zero _ e) by auto. lia. }
  unfold e_trace. rewrite (@loop_trace_spec _ _ _ _ _ _ HL HD HF _ _ o i s0); auto.
  - rewrite <- Hp, HOP, positions_zrange, <- indices_unflat by auto. reflexivity.
  - pose proof (flat_bounds (ap_in HA)) as FB.
    unfold it_fuel. rewrite fold_mul_prod, Z.mul_1_l.
    assert (E : map (Z.max 1) (firstn (outer_rank e) (it_olimit (it_new e))) = olim (outer_rank e) (e_dims e)).
    { unfold it_new, olim. cbn [it_olimit]. destruct (Nat.ltb_spec 0 (outer_rank e)); auto.
      replace (outer_rank e) with 0%nat by lia. reflexivity. }
    rewrite E. lia.
Qed.

(** The trace of any expression tree. *)
Lemma tree_trace {A} (t : tree A) e :
  built t e -> t_fine t ->
  e_trace e = let (xs, o) := produce (t_act t) (indices (t_dims t)) (t_init t) in (xs, done o).
Proof.
  intros B [H1 H2]. rewrite <- (bu_dims B).
  eapply trace_computes; [exact (bu_computes B)| |].
  - unfold e_rank. now rewrite (built_outer B), (bu_dims B).
  - unfold outer_fine. now rewrite (built_outer B), (bu_dims B).
Qed.

Lemma produce_items {A S} (act : action A S) l s xs s' :
  items act l s = Ok (xs, s') <-> produce act l s = (xs, Ok s').
Proof.
  revert s xs. induction l as [|i l IH]; intros s xs; cbn.
  - split; intros [= <- <-]; auto.
  - destruct (act i s) as [[a s1]| | |]; cbn; try (split; discriminate).
    destruct (produce act l s1) as [zs o] eqn:E2. split.
    + destruct (items act l s1) as [[ys s2]| | |] eqn:E1; cbn; try discriminate.
      intros [= <- <-]. apply IH in E1. congruence.
    + intros [= <- ->]. apply IH in E2. rewrite E2. reflexivity.
Qed.

Lemma produce_length {A S} (act : action A S) l s :
  (length (fst (produce act l s)) <= length l)%nat /\
  (forall s', snd (produce act l s) = Ok s' -> length (fst (produce act l s)) = length l).
Proof.
  revert s. induction l as [|i l IH]; intros s; cbn; auto.
  destruct (act i s) as [[a s1]| | |]; cbn; try (split; [lia|discriminate]).
  specialize (IH s1). destruct (produce act l s1) as [xs o]. cbn in *. destruct IH as [H1 H2].
  split; [lia|]. intros s' E. f_equal. eauto.
Qed.
