(** The iterator over an expression that computes an action. *)
From Verif Require Import Base Spec SpecFacts Shape Mapping Index View Wf MappingFacts Expr ExprSpec ExprFacts.
Unset Strict Implicit.

Lemma firstn_repeat {A} (x : A) n m : firstn n (repeat x m) = repeat x (Nat.min n m).
Proof. revert m. induction n; intros [|m]; simpl; auto. now rewrite IHn. Qed.

Lemma olim_length q D : (q <= length D)%nat -> length (olim q D) = q.
Proof. intros H. unfold olim. rewrite map_length, firstn_length. lia. Qed.

Lemma olim_nth q D j : (j < q)%nat -> (q <= length D)%nat -> nth j (olim q D) 0 = Z.max 1 (nth j D 0).
Proof.
  intros Hj Hq. unfold olim. rewrite (nth_indep _ 0 (Z.max 1 0)) by (rewrite map_length, firstn_length; lia).
  rewrite map_nth. f_equal. clear Hq.
  revert q D Hj. induction j; intros [|q] [|d D] Hj; simpl; auto; try lia. apply IHj. lia.
Qed.

Lemma olim_positive q D : positive (olim q D).
Proof. unfold olim, positive. apply Forall_forall. intros x Hx. apply in_map_iff in Hx as (y & <- & _). lia. Qed.

Lemma olim_pos_eq q D : positive (firstn q D) -> olim q D = firstn q D.
Proof.
  unfold olim. induction 1 as [|d l Hd Hl IH]; simpl; [reflexivity|]. rewrite IH. f_equal. lia.
Qed.

(** No element is visited for a wrong reason: the outer dimensions are non-zero or the inner
    part is empty. *)
Definition outer_fine {A} (e : expression A) : Prop :=
  positive (firstn (outer_rank e) (e_dims e)) \/ prodZ (skipn (outer_rank e) (e_dims e)) = 0.

(** [next] moreover needs a non-empty inner part when there are outer dimensions. *)
Definition next_fine {A} (e : expression A) : Prop :=
  outer_rank e = 0%nat \/ positive (e_dims e).

Lemma next_outer_fine {A} (e : expression A) : next_fine e -> outer_fine e.
Proof.
  intros [E|H]; left.
  - rewrite E. constructor.
  - rewrite <- (firstn_skipn (outer_rank e) (e_dims e)) in H. apply positive_app in H. tauto.
Qed.

Lemma outer_rank_le {A} (e : expression A) : (outer_rank e <= e_rank e)%nat.
Proof. unfold outer_rank. destruct (e_inner e); lia. Qed.

Section Iteration.
  Variables (A S : Type) (e : expression A) (act : action A S).
  Let D := e_dims e.
  Let q := outer_rank e.
  Let r := e_rank e.
  Let P := prodZ (skipn q D).
  Let O := olim q D.
  Variables (R : list Z -> Z -> e_st e -> S -> Prop) (Q : list Z -> nat -> e_st e -> S -> Prop).
  Hypothesis HL : laws e act D q R Q.
  Hypothesis HD : nonneg D.

  Local Lemma Hq : (q <= length D)%nat.
  Proof. exact (outer_rank_le e). Qed.

  Definition oz (o : list Z) : list Z := if (0 <? q)%nat then o ++ repeat 0 (r - q) else [].

  (** The iterator [it] stands at inner element [i] of outer index [o]. *)
  Record at_pos (it : iter e) (o : list Z) (i : Z) (s : S) : Prop := {
    ap_r : R o i (it_st it) s;
    ap_limit : it_limit it = P;
    ap_outer : it_outer it = oz o;
    ap_olimit : it_olimit it = if (0 <? q)%nat then D else [];
    ap_in : in_bounds O o
  }.

  Lemma step_loop_spec o n m st s :
    (n + m = q)%nat -> in_bounds O o -> Q o m st s ->
    (forall j, (q - m <= j < q)%nat -> nth j o 0 + 1 = nth j O 0) ->
    exists b st' o', step_loop e D n st (zero_tail o m ++ repeat 0 (r - q)) = Ok (b, st', o') /\
      (if b
       then exists o1, o' = o1 ++ repeat 0 (r - q) /\ R o1 0 st' s /\ in_bounds O o1 /\
              flat O o1 = flat O o + 1
       else flat O o + 1 = prodZ O /\ o' = repeat 0 q ++ repeat 0 (r - q)).
  Proof.
    pose proof Hq as Hq'.
    assert (HO : length O = q) by (apply olim_length; auto).
    intros E B. pose proof (in_bounds_length B) as Lo. rewrite HO in Lo.
    revert m st E. induction n as [|n IH]; intros m st E HQ Hmax.
    - cbn [step_loop]. exists false, st. eexists. split; [reflexivity|]. split.
      + apply flat_max; auto. intros j Hj. apply Hmax. lia.
      + replace m with (length o) by lia. rewrite zero_tail_all. now rewrite Lo.
    - assert (Hn : n = (q - 1 - m)%nat) by lia.
      assert (Hm : (m < q)%nat) by lia.
      assert (Hnth : nth n (zero_tail o m ++ repeat 0 (r - q)) 0 = nth n o 0).
      { rewrite app_nth1 by (rewrite zero_tail_length; lia). apply zero_tail_nth. lia. }
      cbn [step_loop]. rewrite Hnth.
      assert (HO' : nth n O 0 = Z.max 1 (nth n D 0)) by (apply olim_nth; lia).
      assert (Bn : 0 <= nth n o 0 < nth n O 0) by (apply in_bounds_nth; auto; lia).
      destruct (Z.ltb_spec (nth n o 0 + 1) (nth n D 0)) as [Lt|Ge].
      + destruct (@l_step _ _ _ _ _ _ _ _ HL o m st s HQ B Hm) as (s1 & E1 & R1).
        { intros j Hj. apply Hmax. lia. }
        { rewrite <- Hn. fold O. lia. }
        unfold step_at in E1. rewrite <- Hn in E1.
        change (length D) with (e_rank e) in E1.
        destruct (Nat.leb_spec (e_rank e - n) (e_rank e)); [|lia].
        assert (n < e_rank e)%nat by (change (e_rank e) with (length D); lia).
        replace (e_rank e - (e_rank e - n))%nat with n in E1 by lia.
        rewrite E1. cbn [bind]. exists true, s1. eexists. split; [reflexivity|].
        exists (succ_at o m).
        assert (Bd : in_bounds O (succ_at o m) /\ flat O (succ_at o m) = flat O o + 1).
        { apply flat_succ; auto; try lia.
          - intros j Hj. apply Hmax. lia.
          - rewrite Lo, <- Hn. lia. }
        split; [|tauto].
        unfold succ_at. rewrite Lo, <- Hn. rewrite upd_app_l by (rewrite zero_tail_length; lia).
        reflexivity.
      + destruct (@l_reset _ _ _ _ _ _ _ _ HL o m st s HQ B Hm) as (s1 & E1 & Q1).
        unfold reset_at in E1. rewrite <- Hn in E1.
        change (length D) with (e_rank e) in E1.
        destruct (Nat.leb_spec (e_rank e - n) (e_rank e)); [|lia].
        assert (n < e_rank e)%nat by (change (e_rank e) with (length D); lia).
        replace (e_rank e - (e_rank e - n))%nat with n in E1 by lia.
        rewrite E1. cbn [bind].
        rewrite upd_app_l by (rewrite zero_tail_length; lia).
        replace (upd (zero_tail o m) n 0) with (zero_tail o (m + 1)).
        2:{ replace (m + 1)%nat with (Datatypes.S m) by lia. rewrite zero_tail_S by lia. f_equal; lia. }
        apply IH; auto; try lia.
        intros j Hj. destruct (Nat.eq_dec j n) as [->|NE]; [lia|]. apply Hmax. lia.
  Qed.

  Lemma step_outer_spec it o s :
    at_pos it o P s ->
    exists b it', step_outer it = Ok (b, it') /\ it_index it' = it_index it /\
      (if b
       then exists o1, flat O o1 = flat O o + 1 /\ at_pos it' o1 0 s
       else flat O o + 1 = prodZ O).
  Proof.
    intros [Hr Hlim Hout Holim B]. pose proof Hq as Hq'.
    assert (HO : length O = q) by (apply olim_length; auto).
    pose proof (in_bounds_length B) as Lo. rewrite HO in Lo.
    assert (H1 : exists st1, (if (q <? e_rank e)%nat then e_reset e (e_rank e - 1) 0 (it_st it) else Ok (it_st it)) = Ok st1
                 /\ Q o 0%nat st1 s).
    { destruct (Nat.ltb_spec q (e_rank e)) as [Lt|Ge].
      - destruct (@l_inner _ _ _ _ _ _ _ _ HL o (it_st it) s Hr B Lt) as (s1 & E1 & Q1).
        unfold reset_at in E1. change (length D) with (e_rank e) in E1.
        replace (e_rank e - (e_rank e - 1))%nat with 1%nat in E1 by lia.
        destruct (Nat.leb_spec 1 (e_rank e)); [|lia]. eauto.
      - exists (it_st it). split; auto. apply (@l_inner0 _ _ _ _ _ _ _ _ HL); auto.
        change (length D) with (e_rank e). change (length D) with (e_rank e) in Hq'. lia. }
    destruct H1 as (st1 & E1 & Q1). unfold step_outer. fold q. rewrite E1. cbn [bind].
    assert (Hloop : exists b st' o', step_loop e (it_olimit it) q st1 (it_outer it) = Ok (b, st', o') /\
      (if b
       then exists o1, o' = oz o1 /\ R o1 0 st' s /\ in_bounds O o1 /\ flat O o1 = flat O o + 1
       else flat O o + 1 = prodZ O)).
    { destruct (Nat.eq_dec q 0) as [Z0|NZ].
      - rewrite Z0. cbn [step_loop]. exists false, st1. eexists. split; [reflexivity|].
        assert (O = []) as -> by (destruct O; simpl in *; congruence || lia). reflexivity.
      - destruct (@step_loop_spec o q 0 st1 s) as (b & st' & o' & E2 & H2); auto; try lia.
        rewrite zero_tail_0 in E2.
        rewrite Holim, Hout. unfold oz. destruct (Nat.ltb_spec 0 q); [|lia].
        rewrite E2. exists b, st', o'. split; auto. destruct b.
        + destruct H2 as (o1 & -> & H2). exists o1. split; [|tauto]. auto.
        + tauto. }
    destruct Hloop as (b & st' & o' & E2 & H2). rewrite E2. cbn [bind].
    eexists b, _. split; [reflexivity|]. split; [reflexivity|].
    destruct b; [|exact H2]. destruct H2 as (o1 & -> & R1 & B1 & F1).
    exists o1. split; auto. constructor; cbn; auto.
  Qed.

  (** *** Internal iteration *)

  Hypothesis HF : positive (firstn q D) \/ P = 0.

  Lemma pos_index k i :
    positive (firstn q D) -> 0 <= k < prodZ O -> 0 <= i < P ->
    unflat D (k * P + i) = unflat O k ++ unflat (skipn q D) i.
  Proof.
    intros Hp Hk Hi. unfold O in *. rewrite olim_pos_eq in * by auto.
    rewrite <- (firstn_skipn q D) at 1. apply unflat_app; auto using nonneg_firstn, nonneg_skipn.
  Qed.

  Lemma P_nonneg : 0 <= P.
  Proof. apply prodZ_nonneg, nonneg_skipn, HD. Qed.

  Lemma prod_pos : positive (firstn q D) -> prodZ O * P = prodZ D.
  Proof.
    intros Hp. unfold O. rewrite olim_pos_eq by auto. unfold P. rewrite <- prodZ_app. now rewrite firstn_skipn.
  Qed.

  Lemma prod_zero : P = 0 -> prodZ D = 0.
  Proof. intros E. rewrite <- (firstn_skipn q D), prodZ_app. fold P. lia. Qed.

  Lemma e_rank_lastn (l : list Z) : length l = length D -> lastn (e_rank e) l = l.
  Proof. intros H. apply lastn_all. change (e_rank e) with (length D). lia. Qed.

  Section Fold.
    Variables (T : Type) (f : T -> A -> outcome T).

    Lemma inner_loop_spec o n i st s acc :
      R o i st s -> in_bounds O o -> 0 <= i -> Z.of_nat n = P - i -> 
      agree (fun x y => R o P (fst x) (fst y) /\ snd x = snd y)
        (inner_loop e f n i st acc)
        (run act f (map (unflat D) (positions (flat O o * P + i) (flat O o * P + P))) s acc).
    Proof.
      intros HR B Hi. revert i st s acc HR Hi.
      induction n as [|n IH]; intros i st s acc HR Hi Hn.
      - replace i with P in * by lia. rewrite positions_nil by lia. cbn. split; auto.
      - rewrite positions_cons by lia. cbn [inner_loop map run].
        destruct HF as [Hp|E0]; [|lia].
        pose proof (flat_bounds B) as FB.
        rewrite pos_index by (auto; lia). rewrite unflat_flat by auto.
        assert (B' : in_bounds (firstn q D) o) by (unfold O in B; rewrite olim_pos_eq in B; auto).
        eapply agree_bind.
        + rewrite <- (@e_rank_lastn (o ++ unflat (skipn q D) i)).
          * apply (@l_get _ _ _ _ _ _ _ _ HL); auto. lia.
          * rewrite app_length, unflat_length, skipn_length. apply in_bounds_length in B'.
            rewrite firstn_length in B'. pose proof Hq. lia.
        + intros [a st'] [a' s'] [Ea HR']. cbn in Ea, HR'. subst a'.
          destruct (f acc a) as [acc'| | |]; cbn [bind agree]; auto.
          replace (flat O o * P + i + 1) with (flat O o * P + (i + 1)) by lia.
          apply IH; auto; lia.
    Qed.

    Lemma fold_loop_spec fuel it o i s acc :
      at_pos it o i s -> it_index it = i -> 0 <= i <= P ->
      (Z.to_nat (prodZ O - flat O o) <= fuel)%nat ->
      fold_loop f fuel it acc =
      run_value act f (map (unflat D) (positions (flat O o * P + i) (prodZ O * P))) s acc.
    Proof.
      revert it o i s acc. induction fuel as [|fuel IH]; intros it o i s acc HA Hidx Hi Hfuel.
      - pose proof (flat_bounds (ap_in HA)). lia.
      - destruct HA as [Hr Hlim Hout Holim B].
        pose proof (flat_bounds B) as FB.
        cbn [fold_loop]. rewrite Hidx, Hlim.
        rewrite (@positions_app (flat O o * P + i) (flat O o * P + P) (prodZ O * P)) by nia.
        rewrite map_app. unfold run_value. rewrite run_app.
        pose proof (@inner_loop_spec o (Z.to_nat (P - i)) i (it_st it) s acc Hr B ltac:(lia) ltac:(lia)) as HI.
        destruct (inner_loop _ _ _ _ _ _) as [[st' acc']| | |],
                 (run _ _ (map _ (positions _ (flat O o * P + P))) _ _) as [[s' acc'']| | |];
          cbn in HI; try tauto; cbn [bind]; auto.
        destruct HI as [HR' ->].
        assert (HA' : at_pos (mkIter st' i P (it_outer it) (it_olimit it)) o P s').
        { rewrite Hout, Holim. constructor; cbn; auto. }
        destruct (step_outer_spec HA') as (b & it' & E & Ei & Hb).
        rewrite E. cbn [bind]. destruct b.
        + destruct Hb as (o1 & F1 & HA1).
          rewrite (IH _ o1 0 s').
          * unfold run_value. replace (flat O o1 * P + 0) with (flat O o * P + P) by (rewrite F1; lia).
            reflexivity.
          * destruct HA1. constructor; cbn; auto.
          * reflexivity.
          * pose proof P_nonneg. lia.
          * rewrite F1. lia.
        + replace (prodZ O * P) with (flat O o * P + P) by (rewrite <- Hb; lia).
          rewrite positions_nil by lia. reflexivity.
    Qed.
  End Fold.

  (** The iterator has produced the first [p] items. *)
  Definition Inv (it : iter e) (p : Z) (s : S) : Prop :=
    exists o i, at_pos it o i s /\ it_index it = i /\ 0 <= i <= P /\ p = flat O o * P + i.

  Lemma prod_OP : prodZ O * P = prodZ D.
  Proof.
    destruct HF as [H|E]; [now apply prod_pos|]. rewrite E. rewrite prod_zero by auto. lia.
  Qed.

  Lemma inv_range it p s : Inv it p s -> 0 <= p <= prodZ D.
  Proof.
    intros (o & i & HA & _ & Hi & ->). rewrite <- prod_OP.
    pose proof (flat_bounds (ap_in HA)). nia.
  Qed.

  Lemma fold_inv T (f : T -> A -> outcome T) it p s acc :
    Inv it p s ->
    it_fold f it acc = run_value act f (map (unflat D) (positions p (prodZ D))) s acc.
  Proof.
    intros (o & i & HA & Hidx & Hi & ->). unfold it_fold.
    rewrite <- prod_OP. apply fold_loop_spec; auto.
    unfold it_fuel. fold q. rewrite fold_mul_prod, Z.mul_1_l.
    assert (E : map (Z.max 1) (firstn q (it_olimit it)) = O).
    { rewrite (ap_olimit HA). destruct (Nat.ltb_spec 0 q) as [L|L]; [reflexivity|].
      unfold O, olim. replace q with 0%nat by lia. reflexivity. }
    rewrite E. pose proof (flat_bounds (ap_in HA)). lia.
  Qed.

  Hypothesis HN : q = 0%nat \/ positive D.

  Lemma next_pos it p s : 
    Inv it p s -> p < prodZ D ->
    agree (fun x y => fst x = Some (fst y) /\ Inv (snd x) (p + 1) (snd y))
      (it_next it) (act (unflat D p) s).
  Proof.
    assert (Hp : positive (firstn q D)).
    { destruct HN as [E|H]; [rewrite E; constructor|]. rewrite <- (firstn_skipn q D) in H. apply positive_app in H. tauto. }
    assert (TAKE : forall (it : iter e) o i, at_pos it o i s -> it_index it = i -> 0 <= i < P ->
      agree (fun x y => fst x = Some (fst y) /\ Inv (snd x) (flat O o * P + i + 1) (snd y))
        (let i := it_index it + 1 in
         let* (a, st) := e_get e (i - 1) (it_st it) in
         Ok (Some a, mkIter st i (it_limit it) (it_outer it) (it_olimit it)))
        (act (unflat D (flat O o * P + i)) s)).
    { intros jt o i [Hr Hlim Hout Holim B] Hidx Hi. cbv zeta. rewrite Hidx.
      replace (i + 1 - 1) with i by lia.
      pose proof (flat_bounds B) as FB.
      rewrite pos_index by (auto; lia). rewrite unflat_flat by auto.
      assert (B' : in_bounds (firstn q D) o) by (unfold O in B; rewrite olim_pos_eq in B; auto).
      rewrite <- (@e_rank_lastn (o ++ unflat (skipn q D) i)).
      2:{ rewrite app_length, unflat_length, skipn_length. apply in_bounds_length in B'.
          rewrite firstn_length in B'. pose proof Hq. lia. }
      pose proof (@l_get _ _ _ _ _ _ _ _ HL o i (it_st jt) s Hr B' Hi) as G.
      destruct (e_get e i (it_st jt)) as [[a st']| | |],
               (act _ s) as [[a' s']| | |]; cbn in G |- *; auto.
      destruct G as [-> G]. split; auto.
      exists o, (i + 1). split; [constructor; cbn; auto|]. cbn. split; auto. split; lia. }
    intros (o & i & HA & Hidx & Hi & ->) Hlt.
    unfold it_next. rewrite Hidx, (ap_limit HA).
    destruct (Z.eqb_spec i P) as [->|NE].
    - destruct (step_outer_spec HA) as (b & it' & E & Ei & Hb). rewrite E. cbn [bind].
      destruct b.
      + destruct Hb as (o1 & F1 & HA1).
        assert (HP : 0 < P).
        { destruct HN as [E0|H].
          - exfalso. assert (LO : O = []) by (unfold O, olim; rewrite E0; reflexivity).
            pose proof (flat_bounds (ap_in HA1)) as B1. pose proof (flat_bounds (ap_in HA)) as B2.
            rewrite LO in *. simpl in *. lia.
          - unfold P. apply prodZ_pos. rewrite <- (firstn_skipn q D) in H. apply positive_app in H. tauto. }
        replace (flat O o * P + P) with (flat O o1 * P + 0) by (rewrite F1; lia).
        apply (TAKE (mkIter (it_st it') 0 (it_limit it') (it_outer it') (it_olimit it'))); cbn; auto; try lia.
        destruct HA1. constructor; cbn; auto.
      + exfalso. rewrite <- prod_OP in Hlt. nia.
    - pose proof (TAKE it o i HA Hidx ltac:(lia)) as G. cbv zeta in G. rewrite Hidx, (ap_limit HA) in G. exact G.
  Qed.

  Lemma size_loop_spec n limit index len :
    length index = length limit -> (n <= length limit)%nat ->
    size_loop n limit index len =
      len * prodZ (firstn n limit) - flat (firstn n limit) (firstn n index).
  Proof.
    revert n index len. induction limit as [|l limit IH]; intros [|n] [|i index] len H H2; simpl in *; try lia.
    rewrite IH by lia. fold (prodZ (firstn n limit)). nia.
  Qed.

  Lemma size_inv it p s : Inv it p s -> it_size it = prodZ D - p.
  Proof.
    assert (Hp : positive (firstn q D)).
    { destruct HN as [E|H]; [rewrite E; constructor|]. rewrite <- (firstn_skipn q D) in H. apply positive_app in H. tauto. }
    intros (o & i & HA & Hidx & Hi & ->). unfold it_size. fold q.
    rewrite Hidx, (ap_limit HA), (ap_outer HA), (ap_olimit HA), <- prod_OP.
    assert (E : size_loop q (if (0 <? q)%nat then D else []) (oz o) 1 = prodZ O - flat O o).
    { unfold oz. destruct (Nat.ltb_spec 0 q) as [L|L].
      - pose proof (in_bounds_length (ap_in HA)) as LO. unfold O in LO. rewrite olim_length in LO by apply Hq.
        rewrite size_loop_spec.
        + unfold O. rewrite olim_pos_eq by auto.
          rewrite firstn_app, firstn_all2 with (l := o) by lia.
          replace (q - length o)%nat with 0%nat by lia. cbn [firstn]. rewrite app_nil_r. lia.
        + rewrite app_length, repeat_length, LO. pose proof Hq. unfold r. change (e_rank e) with (length D). lia.
        + apply Hq.
      - assert (Z0 : q = 0%nat) by lia. unfold O, olim. rewrite Z0. simpl. lia. }
    rewrite E. lia.
  Qed.

  (** The iterator has returned [None]. *)
  Definition Done (it : iter e) (s : S) : Prop :=
    exists o, in_bounds O o /\ (r = q \/ Q o 0%nat (it_st it) s) /\ it_index it = P /\ it_limit it = P /\
      it_outer it = [] /\ it_olimit it = [].

  Lemma next_end it s :
    Inv it (prodZ D) s -> exists it', it_next it = Ok (None, it') /\ (q = 0%nat -> Done it' s).
  Proof.
    intros (o & i & HA & Hidx & Hi & Hp).
    assert (HPP : positive (firstn q D)).
    { destruct HN as [E|H]; [rewrite E; constructor|]. rewrite <- (firstn_skipn q D) in H. apply positive_app in H. tauto. }
    pose proof (flat_bounds (ap_in HA)) as FB.
    assert (EP : i = P).
    { rewrite <- prod_OP in Hp. nia. }
    rewrite EP in *. clear EP i. unfold it_next. rewrite Hidx, (ap_limit HA), Z.eqb_refl by auto.
    assert (F : q <> 0%nat -> flat O o + 1 = prodZ O).
    { intros NE. destruct HN as [E|H]; [lia|]. rewrite <- prod_OP in Hp.
      assert (0 < P) by (unfold P; apply prodZ_pos; rewrite <- (firstn_skipn q D) in H; apply positive_app in H; tauto).
      nia. }
    destruct (Nat.eq_dec q 0) as [Z0|NZ].
    - (* no outer dimensions *)
      destruct HA as [Hr Hlim Hout Holim B].
      unfold step_outer. fold q. rewrite Z0. cbn [step_loop].
      assert (H1 : exists st1, (if (0 <? e_rank e)%nat then e_reset e (e_rank e - 1) 0 (it_st it) else Ok (it_st it)) = Ok st1
                   /\ (r = q \/ Q o 0%nat st1 s)).
      { destruct (Nat.ltb_spec 0 (e_rank e)) as [Lt|Ge].
        - destruct (@l_inner _ _ _ _ _ _ _ _ HL o (it_st it) s Hr B) as (s1 & E1 & Q1).
          { change (length D) with (e_rank e). lia. }
          unfold reset_at in E1. change (length D) with (e_rank e) in E1.
          replace (e_rank e - (e_rank e - 1))%nat with 1%nat in E1 by lia.
          destruct (Nat.leb_spec 1 (e_rank e)); [|lia]. eauto.
        - exists (it_st it). split; auto. left. unfold r. lia. }
      destruct H1 as (st1 & E1 & Q1). rewrite E1. cbn [bind]. eexists. split; [reflexivity|]. intros _.
      exists o. cbn. split; auto. split; auto. split; auto. split; auto.
      rewrite Hout, Holim. unfold oz. rewrite Z0. auto.
    - destruct (step_outer_spec HA) as (b & it' & E & Ei & Hb). rewrite E. cbn [bind].
      destruct b.
      + destruct Hb as (o1 & F1 & HA1). exfalso. pose proof (flat_bounds (ap_in HA1)). specialize (F NZ). lia.
      + exists it'. split; auto. intros; lia.
  Qed.

  Lemma done_next it s :
    q = 0%nat -> Done it s -> exists it', it_next it = Ok (None, it') /\ Done it' s.
  Proof.
    intros Z0 (o & B & HQ & Hidx & Hlim & Hout & Holim).
    unfold it_next. rewrite Hidx, Hlim, Z.eqb_refl.
    unfold step_outer. fold q. rewrite Z0. cbn [step_loop].
    assert (H1 : exists st1, (if (0 <? e_rank e)%nat then e_reset e (e_rank e - 1) 0 (it_st it) else Ok (it_st it)) = Ok st1
                 /\ (r = q \/ Q o 0%nat st1 s)).
    { destruct (Nat.ltb_spec 0 (e_rank e)) as [Lt|Ge].
      - destruct HQ as [E|HQ]; [unfold r in E; lia|].
        destruct (@l_again _ _ _ _ _ _ _ _ HL o (it_st it) s HQ B) as (s1 & E1 & Q1).
        { change (length D) with (e_rank e). lia. }
        unfold reset_at in E1. change (length D) with (e_rank e) in E1.
        replace (e_rank e - (e_rank e - 1))%nat with 1%nat in E1 by lia.
        destruct (Nat.leb_spec 1 (e_rank e)); [|lia]. eauto.
      - exists (it_st it). split; auto. }
    destruct H1 as (st1 & E1 & Q1). rewrite E1. cbn [bind]. eexists. split; [reflexivity|].
    exists o. cbn. rewrite Hout. repeat split; auto.
  Qed.

  Lemma done_size it s : q = 0%nat -> Done it s -> it_size it = 0.
  Proof.
    intros Z0 (o & B & HQ & Hidx & Hlim & Hout & Holim). unfold it_size. fold q. rewrite Z0, Hidx, Hlim.
    cbn [size_loop]. lia.
  Qed.
End Iteration.

Lemma in_bounds_zeros l : positive l -> in_bounds l (repeat 0 (length l)).
Proof. induction 1; simpl; constructor; auto. lia. Qed.

Lemma flat_zeros l : flat l (repeat 0 (length l)) = 0.
Proof. induction l; simpl; auto. Qed.

(** The new iterator of an expression that computes [act]. *)
Lemma new_inv {A S} (e : expression A) (act : action A S) s0 need :
  computes e act s0 need -> (need <= e_rank e - outer_rank e)%nat ->
  exists R Q, laws e act (e_dims e) (outer_rank e) R Q /\ Inv R (it_new e) 0 s0.
Proof.
  intros [Hn H] Hneed.
  destruct (H (e_dims e) (outer_rank e)) as (R & Q & HL & R0).
  { constructor; auto.
    - apply outer_rank_le.
    - apply lastn_all. reflexivity.
    - unfold outer_rank, e_rank. destruct (e_inner e); auto. lia. }
  exists R, Q. split; auto.
  exists (repeat 0 (outer_rank e)), 0.
  pose proof (outer_rank_le e) as Hq.
  assert (LO : length (olim (outer_rank e) (e_dims e)) = outer_rank e) by (apply olim_length; auto).
  split; [|split; [reflexivity|]].
  - constructor.
    + exact R0.
    + unfold it_new. cbn [it_limit]. rewrite fold_mul_prod, Z.mul_1_l. reflexivity.
    + unfold it_new. cbn [it_outer]. unfold oz. destruct (Nat.ltb_spec 0 (outer_rank e)); auto.
      rewrite <- repeat_app. f_equal. lia.
    + reflexivity.
    + rewrite <- LO at 2. apply in_bounds_zeros, olim_positive.
  - split.
    + pose proof (prodZ_nonneg (nonneg_skipn (outer_rank e) Hn)). lia.
    + rewrite <- LO at 2. rewrite flat_zeros. lia.
Qed.

(** *** Internal iteration is the run over all indices in row-major order. *)
Theorem fold_computes {A S T} (e : expression A) (act : action A S) s0 need (f : T -> A -> outcome T) acc :
  computes e act s0 need -> (need <= e_rank e - outer_rank e)%nat -> outer_fine e ->
  e_fold e f acc = run_value act f (indices (e_dims e)) s0 acc.
Proof.
  intros HC Hneed HF. destruct (new_inv HC Hneed) as (R & Q & HL & HI).
  unfold e_fold. rewrite (@fold_inv _ _ _ _ _ _ HL (proj1 HC) HF _ f _ _ _ acc HI).
  rewrite positions_zrange, <- indices_unflat by apply HC. reflexivity.
Qed.

(** *** External iteration *)
Lemma nexts_inv {A S} (e : expression A) (act : action A S) R Q n it p s :
  laws e act (e_dims e) (outer_rank e) R Q -> nonneg (e_dims e) -> next_fine e ->
  Inv R it p s -> p + Z.of_nat n <= prodZ (e_dims e) ->
  agree (fun x y => fst x = map Some (fst y) /\ Inv R (snd x) (p + Z.of_nat n) (snd y))
    (it_nexts n it) (items act (map (unflat (e_dims e)) (positions p (p + Z.of_nat n))) s).
Proof.
  intros HL HD HN. pose proof (next_outer_fine HN) as HF. revert it p s.
  induction n as [|n IH]; intros it p s HI Hle.
  - rewrite positions_nil by lia. cbn. rewrite Z.add_0_r. auto.
  - rewrite positions_cons by lia. cbn [it_nexts map items].
    eapply agree_bind; [apply (next_pos HL HD HF HN HI); lia|].
    intros [x it'] [a s'] [Ex HI']. cbn in Ex, HI'. subst x.
    replace (p + Z.of_nat (Datatypes.S n)) with (p + 1 + Z.of_nat n) by lia.
    eapply agree_bind; [apply IH; auto; lia|].
    intros [l it''] [l' s''] [El HI'']. cbn in El, HI''. subst l. cbn. auto.
Qed.

Lemma firstn_zrange n m : (n <= Z.to_nat m)%nat -> firstn n (zrange m) = zrange (Z.of_nat n).
Proof.
  intros H. unfold zrange. rewrite firstn_map. rewrite Nat2Z.id.
  f_equal. replace (Z.to_nat m) with (n + (Z.to_nat m - n))%nat by lia.
  rewrite seq_app, firstn_app, seq_length, Nat.sub_diag. cbn [firstn]. rewrite app_nil_r.
  apply firstn_all2. rewrite seq_length. lia.
Qed.

Lemma done_nexts {A S} (e : expression A) (act : action A S) R Q m it s :
  laws e act (e_dims e) (outer_rank e) R Q -> outer_rank e = 0%nat ->
  Done Q it s -> exists it', it_nexts m it = Ok (repeat None m, it') /\ it_size it' = 0.
Proof.
  intros HL Z0. revert it. induction m as [|m IH]; intros it HDn.
  - exists it. split; auto. eapply done_size; eauto.
  - cbn [it_nexts repeat]. destruct (done_next HL (or_introl Z0) Z0 HDn) as (it' & -> & HDn'). cbn [bind].
    destruct (IH it' HDn') as (it'' & -> & Hs). cbn [bind]. eauto.
Qed.

Theorem next_computes {A S} (e : expression A) (act : action A S) s0 need n :
  computes e act s0 need -> (need <= e_rank e - outer_rank e)%nat -> next_fine e ->
  (n <= Z.to_nat (prodZ (e_dims e)))%nat ->
  agree (fun x y =>
      fst x = map Some (fst y) /\
      it_size (snd x) = prodZ (e_dims e) - Z.of_nat n /\
      (forall T (f : T -> A -> outcome T) acc,
         it_fold f (snd x) acc = run_value act f (skipn n (indices (e_dims e))) (snd y) acc) /\
      (n = Z.to_nat (prodZ (e_dims e)) -> exists it', it_next (snd x) = Ok (None, it') /\
         (outer_rank e = 0%nat -> forall m, exists it'',
            it_nexts m it' = Ok (repeat None m, it'') /\ it_size it'' = 0)))
    (it_nexts n (it_new e)) (items act (firstn n (indices (e_dims e))) s0).
Proof.
  intros HC Hneed HN Hn. destruct (new_inv HC Hneed) as (R & Q & HL & HI).
  pose proof (proj1 HC) as HD. pose proof (prodZ_nonneg HD) as HP.
  pose proof (next_outer_fine HN) as HF.
  pose proof (@nexts_inv _ _ _ _ _ _ n _ 0 s0 HL HD HN HI ltac:(lia)) as G.
  rewrite Z.add_0_l in G. rewrite positions_zrange in G.
  rewrite indices_unflat by auto. rewrite firstn_map, firstn_zrange by auto.
  eapply agree_weaken; [exact G|]. intros [l it] [l' s] [El HI']. cbn [fst snd] in *.
  split; auto. split; [apply (size_inv HF HN HI')|]. split.
  - intros T f acc. rewrite (@fold_inv _ _ _ _ _ _ HL HD HF _ f _ _ _ acc HI').
    rewrite skipn_map, skipn_positions by lia. reflexivity.
  - intros E. assert (HI2 : Inv R it (prodZ (e_dims e)) s).
    { replace (prodZ (e_dims e)) with (Z.of_nat n) by lia. exact HI'. }
    destruct (next_end HL HF HN HI2) as (it' & E' & HDn). exists it'. split; auto.
    intros Z0 m. eapply done_nexts; eauto.
Qed.
