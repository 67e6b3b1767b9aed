(** Owned arrays, [from_fn] and [enumerate] with machine integers. *)
From Verif Require Import Base Spec SpecFacts Shape Mapping Index View Wf MappingFacts MapOps ReshapeFacts.
From Verif Require Import IndexFacts ViewFacts ViewMore Expr ExprSpec ExprFacts IterFacts SourceFacts ExprTree ExprMore Pointer PointerFacts.
From Verif Require Import Machine MachineSpec MachineFacts MachineViews MachineIter MachineIterFacts.
Unset Strict Implicit.

Lemma u_ok dbg x : 0 <= x <= usize_max -> u_res dbg x = Ok x.
Proof. intros H. apply u_res_fit. split; lia. Qed.

Lemma computes_x_into {A} dbg ty dims (l : list A) :
  positive dims -> prodZ dims <= usize_max -> Z.of_nat (length l) = prodZ dims ->
  computes (x_into dbg ty dims l) (list_action dims l) tt 0.
Proof.
  intros HPos HU HL0. pose proof (positive_nonneg HPos) as Hn. split; [exact Hn|]. intros D q C.
  assert (ED : D = dims).
  { destruct (cp_rep C) as [H|H]; [discriminate H|].
    pose proof (cp_dims C) as H1. rewrite lastn_all in H1 by lia. exact H1. }
  subst D. set (P := prodZ (skipn q dims)).
  assert (HP : 0 <= P) by (apply prodZ_nonneg, nonneg_skipn, Hn).
  exists (fun o i s (_ : unit) => s = flat (olim q dims) o * P + i).
  exists (fun o (m : nat) s (_ : unit) => s = (flat (olim q dims) o + 1) * P).
  assert (NOP : forall j c (p : Z), reset_at (x_into dbg ty dims l) (length dims) j c p = Ok p).
  { intros. unfold reset_at. destruct (_ <=? _)%nat; reflexivity. }
  split; [constructor|].
  - intros o i s [] -> B Hi. cbn [x_into e_get]. unfold list_action.
    assert (E : flat dims (lastn (e_rank (x_into dbg ty dims l)) (o ++ unflat (skipn q dims) i)) =
                flat (olim q dims) o * P + i).
    { rewrite (olim_inb B). pose proof (cp_q C) as Hq. pose proof (in_bounds_length B) as HL.
      rewrite firstn_length in HL.
      rewrite lastn_all.
      2:{ rewrite app_length, unflat_length, skipn_length. unfold e_rank. cbn. lia. }
      rewrite <- (firstn_skipn q dims) at 1. rewrite flat_app by (rewrite firstn_length; lia).
      rewrite flat_unflat by (auto using nonneg_skipn). reflexivity. }
    pose proof (compat_index C B Hi) as HB.
    match type of HB with in_bounds ?x _ => change x with dims in HB end.
    apply flat_bounds in HB. rewrite E in HB. rewrite E. set (k := flat (olim q dims) o * P + i) in *.
    assert (EA : (if dbg then let* n := x_len dbg dims in assert (k <? n) else Ok tt) = Ok tt).
    { destruct dbg; auto. rewrite x_len_fit.
      - cbn [bind]. replace (k <? prodZ dims) with true by (symmetry; apply Z.ltb_lt; lia). reflexivity.
      - exact Hn.
      - rewrite mx_positive by auto. exact HU. }
    rewrite EA. cbn [bind]. rewrite u_ok by lia. cbn [bind]. rewrite u_ok by lia. cbn [bind].
    replace (k + 1 - 1) with k by lia. destruct (nth_error l _); cbn; auto. split; auto. unfold k. lia.
  - intros o s [] -> B Hlt. rewrite NOP. eexists. split; [reflexivity|]. unfold P. lia.
  - intros o s [] -> B Hlt. rewrite NOP. eexists. split; [reflexivity|]. reflexivity.
  - intros o s [] -> B Hlt. unfold P. lia.
  - intros o m s [] -> B Hm. rewrite NOP. eexists. split; [reflexivity|]. reflexivity.
  - intros o m s [] -> B Hm Hmax Hlt. eexists. split.
    { unfold step_at. destruct (_ <=? _)%nat; reflexivity. }
    pose proof (olim_in_length (cp_q C) B) as Lo.
    destruct (@flat_succ (olim q dims) o m) as [_ E]; auto; try lia.
    + intros j Hj. apply Hmax. lia.
    + now rewrite Lo.
  - cbn. assert (E : length (olim q dims) = q) by (apply olim_length, (cp_q C)).
    rewrite <- E at 2. rewrite flat_zeros. lia.
Qed.

(** ** from_fn *)
Lemma nth_firstn' (q i : nat) (D : list Z) : (i < q)%nat -> nth i (firstn q D) 0 = nth i D 0.
Proof. revert i D. induction q as [|q IH]; intros i D H; [lia|]. destruct D, i; cbn; auto. apply IH. lia. Qed.

Lemma x_incr_ok dbg l i : (i < length l)%nat -> 0 <= nth i l 0 < usize_max ->
  x_incr dbg l i = Ok (upd l i (nth i l 0 + 1)).
Proof.
  intros H HB. unfold x_incr, get_nth. destruct (nth_error l i) eqn:E.
  - cbn [bind]. apply (nth_error_nth l i 0) in E. rewrite E in *. rewrite u_ok by lia. reflexivity.
  - apply nth_error_None in E. lia.
Qed.

Section FromFn.
  Context (dbg : bool) {A F : Type} (ty : shty) (dims : list Z) (f : list Z -> F -> outcome (A * F)) (f0 : F).
  Hypothesis Hty : dims_default ty = repeat 0 (length dims).
  Hypothesis Hn : nonneg dims.
  Hypothesis Hb : forall j, nth j dims 0 <= usize_max.

  Let rank := length dims.
  Let e : expression A :=
    mkExpr (list Z * F) (dims_default ty, f0) ty dims
      (if (0 <? rank)%nat then Some 1%nat else None) true
      (fun _ s =>
         let* (a, fs) := f (fst s) (snd s) in
         let* index := if (0 <? rank)%nat
                       then x_incr dbg (fst s) (rank - 1) else Ok (fst s) in
         Ok (a, (index, fs)))
      (fun d _ s => let* index := upd_checked (fst s) d (fun _ => 0) in Ok (index, snd s))
      (fun d s =>
         if (d + 1 <? rank)%nat
         then let* index := x_incr dbg (fst s) d in Ok (index, snd s)
         else Ok s).

  (** The last dimension is the inner one: [k] coordinates of the outer index and the inner one. *)
  Lemma xf_reset (o : list Z) k c (x : Z) fs m :
    (k <= length o)%nat -> (m < length o)%nat -> rank = (k + 1)%nat ->
    reset_at e (length o + 1) (length o - 1 - m) c (lastn k o ++ [x], fs) =
      Ok (lastn k (upd o (length o - 1 - m) 0) ++ [x], fs).
  Proof.
    intros Hk Hm Hr. unfold reset_at. change (e_rank e) with rank.
    destruct (Nat.leb_spec (length o + 1 - (length o - 1 - m)) rank) as [L|L].
    - unfold e. cbn [e_reset fst snd]. rewrite upd_checked_ok.
      2:{ rewrite app_length, lastn_length by lia. lia. }
      cbn [bind]. rewrite upd_app_l by (rewrite lastn_length; lia).
      rewrite upd_lastn by lia. do 5 f_equal. lia.
    - rewrite lastn_upd_out by lia. reflexivity.
  Qed.

  Lemma xf_step (o : list Z) k (x : Z) fs m :
    (k <= length o)%nat -> (m < length o)%nat -> rank = (k + 1)%nat ->
    ((length o + 1 - (length o - 1 - m) <= rank)%nat -> 0 <= nth (length o - 1 - m) o 0 < usize_max) ->
    step_at e (length o + 1) (length o - 1 - m) (lastn k o ++ [x], fs) =
      Ok (lastn k (upd o (length o - 1 - m) (nth (length o - 1 - m) o 0 + 1)) ++ [x], fs).
  Proof.
    intros Hk Hm Hr HB. unfold step_at. change (e_rank e) with rank.
    destruct (Nat.leb_spec (length o + 1 - (length o - 1 - m)) rank) as [L|L].
    - unfold e. cbn [e_step fst snd].
      destruct (Nat.ltb_spec (rank - (length o + 1 - (length o - 1 - m)) + 1) rank); [|lia].
      rewrite x_incr_ok.
      2:{ rewrite app_length, lastn_length by lia. lia. }
      2:{ rewrite app_nth1 by (rewrite lastn_length; lia). rewrite lastn_nth by lia.
          replace (length o - k + (rank - (length o + 1 - (length o - 1 - m))))%nat with (length o - 1 - m)%nat by lia. auto. }
      cbn [bind]. rewrite app_nth1 by (rewrite lastn_length; lia).
      rewrite upd_app_l by (rewrite lastn_length; lia).
      rewrite lastn_nth, upd_lastn by lia. 
      replace (length o - k + (rank - (length o + 1 - (length o - 1 - m))))%nat with (length o - 1 - m)%nat by lia.
      reflexivity.
    - rewrite lastn_upd_out by lia. reflexivity.
  Qed.

  (** No inner dimension. *)
  Lemma xf_reset' (o : list Z) q c fs m :
    length o = q -> (rank <= q)%nat -> (m < q)%nat ->
    reset_at e q (q - 1 - m) c (lastn rank o, fs) =
      Ok (lastn rank (upd o (q - 1 - m) 0), fs).
  Proof.
    intros <- Hk Hm. unfold reset_at. change (e_rank e) with rank.
    destruct (Nat.leb_spec (length o - (length o - 1 - m)) rank) as [L|L].
    - unfold e. cbn [e_reset fst snd]. rewrite upd_checked_ok by (rewrite lastn_length; lia).
      cbn [bind]. rewrite upd_lastn by lia. do 4 f_equal. lia.
    - rewrite lastn_upd_out by lia. reflexivity.
  Qed.

  Lemma xf_step' (o : list Z) q fs m :
    length o = q -> (rank <= q)%nat -> (0 < m < q)%nat ->
    ((q - (q - 1 - m) <= rank)%nat -> 0 <= nth (q - 1 - m) o 0 < usize_max) ->
    step_at e q (q - 1 - m) (lastn rank o, fs) =
      Ok (lastn rank (upd o (q - 1 - m) (nth (q - 1 - m) o 0 + 1)), fs).
  Proof.
    intros <- Hk Hm HB. unfold step_at. change (e_rank e) with rank.
    destruct (Nat.leb_spec (length o - (length o - 1 - m)) rank) as [L|L].
    - unfold e. cbn [e_step fst snd].
      destruct (Nat.ltb_spec (rank - (length o - (length o - 1 - m)) + 1) rank); [|lia].
      rewrite x_incr_ok.
      2:{ rewrite lastn_length; lia. }
      2:{ rewrite lastn_nth by lia.
          replace (length o - rank + (rank - (length o - (length o - 1 - m))))%nat with (length o - 1 - m)%nat by lia. auto. }
      cbn [bind]. rewrite lastn_nth, upd_lastn by lia.
      replace (length o - rank + (rank - (length o - (length o - 1 - m))))%nat with (length o - 1 - m)%nat by lia.
      reflexivity.
    - rewrite lastn_upd_out by lia. reflexivity.
  Qed.

  Lemma xf_bound D q j : compat e 0 D q -> (j < length D)%nat -> (length D - j <= rank)%nat -> nth j D 0 <= usize_max.
  Proof.
    intros C Hj Hr. pose proof (cp_dims C) as HD. pose proof (cp_rank C) as HR.
    change (e_rank e) with rank in HD, HR. change (e_dims e) with dims in HD.
    pose proof (@Hb (j - (length D - rank))%nat) as H. rewrite <- HD in H. rewrite lastn_nth in H by lia.
    replace (length D - rank + (j - (length D - rank)))%nat with j in H by lia. exact H.
  Qed.

  Lemma xf_rank0 D q : rank = 0%nat -> compat e 0 D q ->
    exists R Q, laws e (index_action f) D q R Q /\ R (repeat 0 q) 0 (e_init e) f0.
  Proof.
    intros H0 C.
    exists (fun _ _ s t => s = ([], t)), (fun _ _ s t => s = ([], t)).
    assert (NR : forall j c s, (j < length D)%nat -> reset_at e (length D) j c s = Ok s).
    { intros j c s Hj. unfold reset_at. change (e_rank e) with rank. rewrite H0.
      destruct (Nat.leb_spec (length D - j) 0); [lia|reflexivity]. }
    assert (NS : forall j s, (j < length D)%nat -> step_at e (length D) j s = Ok s).
    { intros j s Hj. unfold step_at. change (e_rank e) with rank. rewrite H0.
      destruct (Nat.leb_spec (length D - j) 0); [lia|reflexivity]. }
    pose proof (cp_q C).
    split; [constructor|].
    - intros o i s s' -> B Hi. unfold e. cbn [e_get fst snd]. unfold index_action.
      assert (E : lastn (e_rank e) (o ++ unflat (skipn q D) i) = []).
      { change (e_rank e) with rank. rewrite H0. unfold lastn. apply skipn_all2. lia. }
      fold e. rewrite E, H0. change (0 <? 0)%nat with false. cbn iota.
      destruct (f [] s') as [[a fs]| | |]; cbn; auto.
    - intros o s s' -> B Hlt. rewrite NR by lia. eauto.
    - intros o s s' -> B Hlt. rewrite NR by lia. eauto.
    - auto.
    - intros o m s s' -> B Hm. rewrite NR by lia. eauto.
    - intros o m s s' -> B Hm Hmax Hlt. rewrite NS by lia. eauto.
    - unfold e. cbn [e_init]. rewrite Hty. fold rank. rewrite H0. reflexivity.
  Qed.

  Lemma xf_inner D q : (0 < rank)%nat -> (q + 1 = length D)%nat -> compat e 0 D q ->
    exists R Q, laws e (index_action f) D q R Q /\ R (repeat 0 q) 0 (e_init e) f0.
  Proof.
    intros H0 Hq C. pose proof (cp_rank C) as HR. change (e_rank e) with rank in HR.
    assert (XB : forall j, (j < length D)%nat -> (length D - j <= rank)%nat -> nth j D 0 <= usize_max)
      by (intros j Hj1 Hj2; exact (xf_bound C Hj1 Hj2)).
    destruct (inner_one Hq) as (d & Ed).
    exists (fun o i s t => s = (lastn (rank - 1) o ++ [i], t)).
    exists (fun o m s t => s = (lastn (rank - 1) (zero_tail o m) ++ [0], t)).
    assert (NR : forall o i t, length o = q ->
              reset_at e (length D) (length D - 1) 0 (lastn (rank - 1) o ++ [i], t) =
              Ok (lastn (rank - 1) (zero_tail o 0) ++ [0], t)).
    { intros o i t Ho. unfold reset_at. change (e_rank e) with rank.
      destruct (Nat.leb_spec (length D - (length D - 1)) rank); [|lia].
      unfold e. cbn [e_reset fst snd].
      rewrite upd_checked_ok by (rewrite app_length, lastn_length by lia; cbn; lia).
      cbn [bind].
      rewrite upd_app_r by (rewrite lastn_length; lia). rewrite lastn_length by lia.
      replace (rank - (length D - (length D - 1)) - (rank - 1))%nat with 0%nat by lia.
      rewrite zero_tail_0. reflexivity. }
    split; [constructor|].
    - intros o i s s' -> B Hi. unfold e. cbn [e_get fst snd]. unfold index_action.
      assert (Ho : length o = q) by (apply in_bounds_length in B; rewrite firstn_length in B; lia).
      fold e. change (e_rank e) with rank. rewrite Ed, unflat_one, lastn_snoc by lia.
      destruct (f (lastn (rank - 1) o ++ [i]) s') as [[a fs]| | |]; cbn [bind]; try exact I.
      destruct (Nat.ltb_spec 0 rank); [|lia].
      rewrite x_incr_ok.
      2:{ rewrite app_length, lastn_length by lia; cbn; lia. }
      2:{ rewrite app_nth2 by (rewrite lastn_length; lia). rewrite lastn_length by lia. rewrite Nat.sub_diag. cbn [nth].
          pose proof (@XB q%nat ltac:(lia) ltac:(lia)) as HU.
          assert (d = nth q D 0) as Edq.
          { pose proof (nth_skipn' D q 0 0) as HN. rewrite Ed in HN. cbn [nth] in HN. rewrite Nat.add_0_r in HN. exact HN. }
          rewrite Ed in Hi. cbn in Hi. lia. }
      cbn [bind agree fst snd].
      split; auto. f_equal.
      rewrite upd_app_r by (rewrite lastn_length; lia). rewrite app_nth2 by (rewrite lastn_length; lia).
      rewrite lastn_length by lia. rewrite Nat.sub_diag. reflexivity.
    - intros o s s' -> B Hlt. pose proof (olim_in_length (cp_q C) B) as Lo. rewrite NR by auto. eauto.
    - intros o s s' -> B Hlt. pose proof (olim_in_length (cp_q C) B) as Lo.
      rewrite NR by (rewrite zero_tail_length; lia). rewrite !zero_tail_0. eauto.
    - intros o s s' HRR B Hlt. lia.
    - intros o m s s' -> B Hm. pose proof (olim_in_length (cp_q C) B) as Lo.
      eexists. split; [|reflexivity].
      assert (LZ : length (zero_tail o m) = q) by (rewrite zero_tail_length; lia).
      replace (length D) with (length (zero_tail o m) + 1)%nat by lia.
      replace (q - 1 - m)%nat with (length (zero_tail o m) - 1 - m)%nat by lia.
      rewrite xf_reset by lia.
      replace (m + 1)%nat with (S m) by lia. rewrite zero_tail_S by lia. do 5 f_equal. lia.
    - intros o m s s' -> B Hm Hmax Hlt. pose proof (olim_in_length (cp_q C) B) as Lo.
      eexists. split; [|reflexivity].
      assert (LZ : length (zero_tail o m) = q) by (rewrite zero_tail_length; lia).
      replace (length D) with (length (zero_tail o m) + 1)%nat by lia.
      replace (q - 1 - m)%nat with (length (zero_tail o m) - 1 - m)%nat by lia.
      rewrite xf_step; [|lia|lia|lia|].
      2:{ intros HL. rewrite LZ in *. rewrite zero_tail_nth by lia.
          pose proof (@XB (q - 1 - m)%nat ltac:(lia) ltac:(lia)) as HU.
          pose proof (@in_bounds_nth _ _ (q - 1 - m) B ltac:(rewrite olim_length; lia)) as HB.
          rewrite olim_nth in Hlt by lia. lia. }
      unfold succ_at. rewrite LZ, Lo. rewrite zero_tail_nth by lia. reflexivity.
    - unfold e. cbn [e_init]. rewrite Hty. fold rank. f_equal.
      unfold lastn. rewrite repeat_length. replace rank with (rank - 1 + 1)%nat at 1 by lia.
      rewrite repeat_app. f_equal. rewrite skipn_repeat. f_equal. lia.
  Qed.

  Lemma xf_outer D q : (0 < rank)%nat -> q = length D -> compat e 0 D q ->
    exists R Q, laws e (index_action f) D q R Q /\ R (repeat 0 q) 0 (e_init e) f0.
  Proof.
    intros H0 Hq C. pose proof (cp_rank C) as HR. change (e_rank e) with rank in HR.
    assert (XB : forall j, (j < length D)%nat -> (length D - j <= rank)%nat -> nth j D 0 <= usize_max)
      by (intros j Hj1 Hj2; exact (xf_bound C Hj1 Hj2)).
    assert (Ed : skipn q D = []) by (apply skipn_all2; lia).
    set (st := fun (o : list Z) (i : Z) (t : F) => (lastn rank (upd o (q - 1) (nth (q - 1) o 0 + i)), t)).
    exists (fun o i s t => s = st o i t).
    exists (fun o m s t => s = match m with O => st o 1 t | _ => (lastn rank (zero_tail o m), t) end).
    split; [constructor|].
    - intros o i s s' -> B Hi. unfold e. cbn [e_get]. unfold index_action.
      assert (Ho : length o = q) by (apply in_bounds_length in B; rewrite firstn_length in B; lia).
      fold e. change (e_rank e) with rank. rewrite Ed in *. cbn [unflat]. rewrite app_nil_r.
      cbn in Hi. assert (i = 0) as -> by lia. unfold st. cbn [fst snd].
      rewrite Z.add_0_r, upd_same by (rewrite ?upd_length, ?zero_tail_length, ?repeat_length; lia).
      destruct (f (lastn rank o) s') as [[a fs]| | |]; cbn [bind]; try exact I.
      destruct (Nat.ltb_spec 0 rank); [|lia].
      rewrite x_incr_ok.
      2:{ rewrite lastn_length; lia. }
      2:{ rewrite lastn_nth by lia. replace (length o - rank + (rank - 1))%nat with (q - 1)%nat by lia.
          pose proof (@XB (q - 1)%nat ltac:(lia) ltac:(lia)) as HU.
          pose proof (@in_bounds_nth _ _ (q - 1) B ltac:(rewrite firstn_length; lia)) as HB.
          rewrite nth_firstn' in HB by lia. lia. }
      cbn [bind agree fst snd].
      split; auto. f_equal. rewrite lastn_nth, upd_lastn by lia. 
      replace (length o - rank + (rank - 1))%nat with (q - 1)%nat by lia. reflexivity.
    - intros o s s' -> B Hlt. lia.
    - intros o s s' -> B Hlt. lia.
    - intros o s s' -> B _. rewrite Ed. reflexivity.
    - intros o m s s' -> B Hm. pose proof (olim_in_length (cp_q C) B) as Lo.
      eexists. split; [|reflexivity].
      replace (m + 1)%nat with (S m) by lia. rewrite zero_tail_S by lia.
      destruct m as [|m].
      + unfold st. rewrite zero_tail_0.
        assert (LU : length (upd o (q - 1) (nth (q - 1) o 0 + 1)) = q) by (rewrite upd_length; lia).
        rewrite <- Hq. rewrite xf_reset' by lia.
        replace (q - 1 - 0)%nat with (q - 1)%nat by lia. replace (length o - 1 - 0)%nat with (q - 1)%nat by lia.
        rewrite upd_upd_same. reflexivity.
      + assert (LZ : length (zero_tail o (S m)) = q) by (rewrite zero_tail_length; lia).
        rewrite <- Hq. rewrite xf_reset' by lia. rewrite Lo. reflexivity.
    - intros o m s s' -> B Hm Hmax Hlt. pose proof (olim_in_length (cp_q C) B) as Lo.
      eexists. split; [|reflexivity]. unfold st, succ_at.
      destruct m as [|m].
      + rewrite zero_tail_0. replace (length o - 1 - 0)%nat with (q - 1)%nat by lia.
        rewrite Z.add_0_r, upd_nth_same, upd_upd_same by lia.
        unfold step_at. change (e_rank e) with rank.
        destruct (Nat.leb_spec (length D - (q - 1 - 0)) rank); [|reflexivity].
        unfold e. cbn [e_step]. destruct (Nat.ltb_spec (rank - (length D - (q - 1 - 0)) + 1) rank); [lia|reflexivity].
      + assert (LZ : length (zero_tail o (S m)) = q) by (rewrite zero_tail_length; lia).
        rewrite <- Hq. rewrite xf_step'; [|lia|lia|lia|].
        2:{ intros HL. rewrite zero_tail_nth by lia.
            pose proof (@XB (q - 1 - S m)%nat ltac:(lia) ltac:(lia)) as HU.
            pose proof (@in_bounds_nth _ _ (q - 1 - S m) B ltac:(rewrite olim_length; lia)) as HB.
            rewrite olim_nth in Hlt by lia. lia. }
        rewrite Lo.
        rewrite zero_tail_nth by lia. rewrite Z.add_0_r, upd_same by (rewrite ?upd_length, ?zero_tail_length, ?repeat_length; lia). reflexivity.
    - unfold st. rewrite Z.add_0_r, upd_same by (rewrite ?upd_length, ?zero_tail_length, ?repeat_length; lia). unfold e. cbn [e_init]. rewrite Hty. fold rank. f_equal.
      unfold lastn. rewrite repeat_length, skipn_repeat. f_equal. lia.
  Qed.

  Lemma computes_x_from_fn : computes e (index_action f) f0 0.
  Proof.
    split; [exact Hn|]. intros D q C.
    destruct (Nat.eq_dec rank 0) as [E0|E0]; [now apply xf_rank0|].
    pose proof (cp_inner C) as HI. unfold e in HI. cbn [e_inner] in HI.
    assert (E1 : (0 <? rank)%nat = true) by (apply Nat.ltb_lt; lia).
    rewrite E1 in HI. apply Nat.ltb_lt in E1. pose proof (cp_q C).
    destruct (Nat.eq_dec q (length D)); [now apply xf_outer|]. apply xf_inner; auto; lia.
  Qed.

  Lemma x_from_fn_ok : fits dims ->
    exists e, x_from_fn dbg ty dims f f0 = Ok e /\ e_ty e = ty /\ e_dims e = dims /\
      e_inner e = (if (0 <? length dims)%nat then Some 1%nat else None) /\
      e_rep e = true /\ computes e (index_action f) f0 0.
  Proof.
    intros Hf. exists e. unfold x_from_fn. rewrite (checked_len_fits Hf).
    split; [reflexivity|]. repeat (split; [reflexivity|]). apply computes_x_from_fn.
  Qed.
End FromFn.
(** ** enumerate *)
Definition x_enum_action {A S : Type} (dbg : bool) (act : action A S) : action (Z * A) (S * Z) :=
  fun idx s => let* c := u_res dbg (snd s + 1) in
               let* k := u_res dbg (c - 1) in
               let* (a, s') := act idx (fst s) in Ok ((k, a), (s', c)).

Lemma computes_x_enumerate {A S} dbg (e : expression A) (act : action A S) s0 need :
  computes e act s0 need -> computes (x_enumerate dbg e) (x_enum_action dbg act) (s0, 0) need.
Proof.
  intros [Hn H]. split; [exact Hn|]. intros D q C.
  assert (C' : compat e need D q) by (eapply (@compat_change _ _ e (x_enumerate dbg e)); eauto).
  destruct (H D q C') as (R & Q & L & R0).
  exists (fun o i s t => R o i (fst s) (fst t) /\ snd s = snd t).
  exists (fun o m s t => Q o m (fst s) (fst t) /\ snd s = snd t).
  split; [constructor|split; auto].
  - intros o i s s' [HR Ef] B0 Hi. cbn [x_enumerate e_get]. unfold x_enum_action. rewrite Ef.
    destruct (u_res dbg (snd s' + 1)) as [c| | |]; cbn [bind]; try exact I.
    destruct (u_res dbg (c - 1)) as [k| | |]; cbn [bind]; try exact I.
    eapply agree_bind; [apply (@l_get _ _ _ _ _ _ _ _ L _ _ _ _ HR B0 Hi)|].
    intros [a st] [a' st'] [E1 HR']. cbn in E1, HR'. subst a'. cbn. repeat split; auto.
  - intros o s s' [HR Ef] B0 Hlt. destruct (@l_inner _ _ _ _ _ _ _ _ L _ _ _ HR B0 Hlt) as (s1 & E1 & Q1).
    exists (s1, snd s). split; [|split; auto].
    unfold reset_at in *. change (e_rank (x_enumerate dbg e)) with (e_rank e). cbn [x_enumerate e_reset].
    destruct (_ <=? _)%nat; [rewrite E1; reflexivity|]. injection E1 as <-. now destruct s.
  - intros o s s' [HR Ef] B0 Hlt. destruct (@l_again _ _ _ _ _ _ _ _ L _ _ _ HR B0 Hlt) as (s1 & E1 & Q1).
    exists (s1, snd s). split; [|split; auto].
    unfold reset_at in *. change (e_rank (x_enumerate dbg e)) with (e_rank e). cbn [x_enumerate e_reset].
    destruct (_ <=? _)%nat; [rewrite E1; reflexivity|]. injection E1 as <-. now destruct s.
  - intros o s s' [HR Ef] B0 Hlt. split; auto. now apply (@l_inner0 _ _ _ _ _ _ _ _ L).
  - intros o m s s' [HR Ef] B0 Hm. destruct (@l_reset _ _ _ _ _ _ _ _ L _ _ _ _ HR B0 Hm) as (s1 & E1 & Q1).
    exists (s1, snd s). split; [|split; auto].
    unfold reset_at in *. change (e_rank (x_enumerate dbg e)) with (e_rank e). cbn [x_enumerate e_reset].
    destruct (_ <=? _)%nat; [rewrite E1; reflexivity|]. injection E1 as <-. now destruct s.
  - intros o m s s' [HR Ef] B0 Hm Hmax Hlt.
    destruct (@l_step _ _ _ _ _ _ _ _ L _ _ _ _ HR B0 Hm Hmax Hlt) as (s1 & E1 & Q1).
    exists (s1, snd s). split; [|split; auto].
    unfold step_at in *. change (e_rank (x_enumerate dbg e)) with (e_rank e). cbn [x_enumerate e_step].
    destruct (_ <=? _)%nat; [rewrite E1; reflexivity|]. injection E1 as <-. now destruct s.
Qed.

(** The item at an index, with machine counters. *)
Fixpoint x_act (dbg : bool) {A} (t : tree A) : action A (t_state t) :=
  match t as t0 in tree A0 return action A0 (t_state t0) with
  | TView _ _ v => pure_action (v_addr v)
  | TAxis _ v a => pure_action (fun idx => axis_item v a (nth 0 idx 0))
  | TLanes _ v a => pure_action (lane_item v a (axis_dim a (length (v_dims v))))
  | TInto _ dims l => list_action dims l
  | TFill f _ | TFillWith f _ => call_action f
  | TFromElem _ _ f _ => call_action f
  | TFromFn _ _ f _ => index_action f
  | TMap f _ t | TCloned f _ t => map_action f (@x_act dbg _ t)
  | TCopied rd t => fun_action rd (@x_act dbg _ t)
  | TEnumerate t => x_enum_action dbg (@x_act dbg _ t)
  | TZip a b => zip_action (length (t_dims a)) (length (t_dims b)) (@x_act dbg _ a) (@x_act dbg _ b)
  end.
Arguments x_act dbg {A} t.

(** Every counter of the tree is at most [k]. *)
Fixpoint t_below {A} (t : tree A) (k : Z) : t_state t -> Prop :=
  match t as t0 in tree A0 return t_state t0 -> Prop with
  | TView _ _ _ | TAxis _ _ _ | TLanes _ _ _ | TInto _ _ _ => fun _ => True
  | TFill _ _ | TFillWith _ _ => fun _ => True
  | TFromElem _ _ _ _ | TFromFn _ _ _ _ => fun _ => True
  | TMap _ _ t | TCloned _ _ t => fun s => @t_below _ t k (fst s)
  | TCopied _ t => fun s => @t_below _ t k s
  | TEnumerate t => fun s => @t_below _ t k (fst s) /\ 0 <= snd s <= k
  | TZip a b => fun s => @t_below _ a k (fst s) /\ @t_below _ b k (snd s)
  end.
Arguments t_below {A} t k.

Lemma below_init {A} (t : tree A) : t_below t 0 (t_init t).
Proof. induction t; cbn; auto. split; auto. lia. Qed.

Lemma x_act_same dbg {A} (t : tree A) : forall k idx s, t_below t k s -> k < usize_max ->
  x_act dbg t idx s = t_act t idx s /\ forall a s', t_act t idx s = Ok (a, s') -> t_below t (k + 1) s'.
Proof.
  induction t as [n rep v|rep v a|rep v a|A ty dims l|A F cl f0|A F f f0|A F ty dims cl f0|A F ty dims f f0
                 |A B F f f0 t IH|A B F f f0 t IH|A B rd t IH|A t IH|A B a IHa b IHb];
    intros k idx s HB HK; cbn [x_act t_act t_below t_state] in *; try (split; [reflexivity|intros; exact I]).
  - destruct (IH k idx (fst s) HB HK) as [E P]. unfold map_action. rewrite E. split; auto.
    intros b s' H. destruct (t_act t idx (fst s)) as [[x st]| | |]; cbn [bind] in H; try discriminate.
    destruct (f x (snd s)) as [[y fs]| | |]; cbn [bind] in H; try discriminate. injection H as <- <-. cbn. eauto.
  - destruct (IH k idx (fst s) HB HK) as [E P]. unfold map_action. rewrite E. split; auto.
    intros b s' H. destruct (t_act t idx (fst s)) as [[x st]| | |]; cbn [bind] in H; try discriminate.
    destruct (f x (snd s)) as [[y fs]| | |]; cbn [bind] in H; try discriminate. injection H as <- <-. cbn. eauto.
  - destruct (IH k idx s HB HK) as [E P]. unfold fun_action. rewrite E. split; auto.
    intros b s' H. destruct (t_act t idx s) as [[x st]| | |]; cbn [bind] in H; try discriminate.
    destruct (rd x) as [y| | |]; cbn [bind] in H; try discriminate. injection H as <- <-. eauto.
  - destruct s as [s c]. cbn [fst snd] in HB. destruct HB as [HB HS].
    destruct (IH k idx s HB HK) as [E P]. unfold x_enum_action, enum_action. cbn [fst snd].
    rewrite u_ok by lia. cbn [bind]. rewrite u_ok by lia. cbn [bind]. rewrite E.
    replace (c + 1 - 1) with c by lia. split; auto.
    intros b s' H. destruct (t_act t idx s) as [[x st]| | |]; cbn [bind] in H; try discriminate.
    injection H as <- <-. cbn. split; eauto. lia.
  - destruct HB as [HA HB].
    destruct (IHa k (lastn (length (t_dims a)) idx) (fst s) HA HK) as [EA PA].
    destruct (IHb k (lastn (length (t_dims b)) idx) (snd s) HB HK) as [EB PB].
    unfold zip_action. rewrite EA, EB. split; auto.
    intros x s' H. destruct (t_act a _ (fst s)) as [[y st]| | |]; cbn [bind] in H; try discriminate.
    destruct (t_act b _ (snd s)) as [[z sb]| | |]; cbn [bind] in H; try discriminate. injection H as <- <-. cbn. eauto.
Qed.

Lemma x_run_same dbg {A T} (t : tree A) (f : T -> A -> outcome T) l : forall k s acc,
  t_below t k s -> k + Z.of_nat (length l) <= usize_max ->
  run (x_act dbg t) f l s acc = run (t_act t) f l s acc.
Proof.
  induction l as [|idx l IH]; intros k s acc HB HK; cbn [run length] in *; auto.
  destruct (@x_act_same dbg A t k idx s HB ltac:(lia)) as [-> P].
  destruct (t_act t idx s) as [[a s']| | |]; cbn [bind]; auto.
  destruct (f acc a) as [t'| | |]; cbn [bind]; auto. apply (IH (k + 1)); [eauto|lia].
Qed.

Lemma x_items_same dbg {A} (t : tree A) l : forall k s,
  t_below t k s -> k + Z.of_nat (length l) <= usize_max ->
  items (x_act dbg t) l s = items (t_act t) l s /\
  forall xs s', items (t_act t) l s = Ok (xs, s') -> t_below t (k + Z.of_nat (length l)) s'.
Proof.
  induction l as [|idx l IH]; intros k s HB HK; cbn [items length] in *.
  - split; auto. intros xs s' H. injection H as <- <-. now rewrite Z.add_0_r.
  - destruct (@x_act_same dbg A t k idx s HB ltac:(lia)) as [-> P].
    destruct (t_act t idx s) as [[a s']| | |]; cbn [bind]; try (split; [reflexivity|discriminate]).
    destruct (IH (k + 1) s' (P _ _ eq_refl) ltac:(lia)) as [-> Q]. split; auto.
    intros xs s'' H. destruct (items (t_act t) l s') as [[ys s3]| | |]; cbn [bind] in H; try discriminate.
    injection H as <- <-. replace (k + Z.of_nat (S (length l))) with (k + 1 + Z.of_nat (length l)) by lia. eauto.
Qed.

(** ** Trees *)
Lemma pos_front k (l : list Z) : positive l -> positive (firstn k l).
Proof. intros H. unfold positive in *. rewrite <- (firstn_skipn k l) in H. now apply Forall_app in H. Qed.
Lemma pos_back k (l : list Z) : positive l -> positive (skipn k l).
Proof. intros H. unfold positive in *. rewrite <- (firstn_skipn k l) in H. now apply Forall_app in H. Qed.

Lemma positive_remove i dims : positive dims -> positive (remove_at i dims).
Proof. intros H. unfold remove_at. apply Forall_app. split; [now apply pos_front|now apply pos_back]. Qed.

Lemma leaf_small size dbg {A} (t : tree A) : t_leaves t -> t_machine dbg size t -> positive (t_dims t) /\ prodZ (t_dims t) <= usize_max.
Proof.
  assert (IU : isize_max <= usize_max) by (unfold isize_max, usize_max; lia).
  induction t as [n rep v|rep v a|rep v a|A ty dims l|A F cl f0|A F f f0|A F ty dims cl f0|A F ty dims f f0
                 |A B F f f0 t IH|A B F f f0 t IH|A B rd t IH|A t IH|A B a IHa b IHb];
    cbn [t_leaves t_machine t_dims]; intros HL HI; auto; try (split; [constructor|unfold usize_max; cbn; lia]).
  - pose proof (wk_roomy HI) as HR. pose proof HI as (_ & _ & HP & _). split; auto.
    unfold roomy in HR. rewrite mx_positive in HR by auto. lia.
  - pose proof (wk_roomy HI) as HR. pose proof HI as (_ & _ & HP & _). destruct HL as (_ & HA & _).
    assert (HIL : (axis_dim a (length (v_dims v)) < length (v_dims v))%nat) by apply HA.
    pose proof (@mx_nth (axis_dim a (length (v_dims v))) (v_dims v)). unfold roomy in HR. split.
    + constructor; [|constructor]. unfold positive in HP. rewrite Forall_forall in HP. apply HP, nth_In, HIL.
    + unfold prodZ. cbn [fold_right]. lia.
  - pose proof (wk_roomy HI) as HR. pose proof HI as (_ & _ & HP & _). destruct HL as (_ & HA & _).
    assert (HIL : (axis_dim a (length (v_dims v)) < length (v_dims v))%nat) by apply HA.
    pose proof (mx_remove HIL). unfold roomy in HR. split; [now apply positive_remove|].
    rewrite <- mx_positive by now apply positive_remove. lia.
  - destruct HL, HI. unfold longer. destruct (_ <? _)%nat; auto.
Qed.

(** The code builds an expression of the tree's shape; its items are those of [x_act]. *)
Record x_built (dbg : bool) {A} (t : tree A) (e : expression A) : Prop := {
  xb_dims : e_dims e = t_dims t;
  xb_rep : e_rep e = t_rep t;
  xb_inner : e_inner e = t_inner t;
  xb_ty : typed (e_ty e) (e_dims e);
  xb_computes : computes e (x_act dbg t) (t_init t) (t_need t)
}.

Lemma dims_default_typed ty dims : typed ty dims -> (ty = SDynRank -> dims = []) -> dims_default ty = repeat 0 (length dims).
Proof. intros HT Hr. destruct ty as [|ds]; cbn in *; [now rewrite Hr|]. now rewrite (Forall2_len HT). Qed.

Lemma x_build_cases dbg size {A} (t : tree A) :
  t_leaves t -> t_machine dbg size t ->
  (t_zips t /\ exists e, x_build dbg t = Ok e /\ x_built dbg t e) \/ (~ t_zips t /\ x_build dbg t = Panic).
Proof.
  induction t as [n rep v|rep v a|rep v a|A ty dims l|A F cl f0|A F f f0|A F ty dims cl f0|A F ty dims f f0
                 |A B F f f0 t IH|A B F f f0 t IH|A B rd t IH|A t IH|A B a IHa b IHb];
    cbn [t_leaves t_machine]; intros HL HI.
  - left. split; [exact I|]. exists (x_e_view dbg n rep v). split; [reflexivity|]. constructor; try reflexivity.
    + apply (wf_typed (vv_wf HL)).
    + now apply computes_x_view.
  - left. split; [exact I|]. destruct HL as (Hw & HA & Hf).
    assert (Hf' : fits (remove_at (axis_dim a (length (v_dims v))) (v_dims v))).
    { apply remove_fits; auto; [apply (wf_nonneg Hw)|]. destruct HI as (_ & _ & HP & _).
      unfold positive in HP. rewrite Forall_forall in HP. apply HP, nth_In, HA. }
    destruct (x_axis_ok rep HI HA Hf') as (e & E & Ety & Ed & Ei & Er & HC).
    exists e. cbn [x_build]. split; [exact E|]. constructor; auto.
    rewrite Ety, Ed. constructor; [|constructor]. apply ax_dim_ok; auto. apply (wf_typed Hw).
  - left. split; [exact I|]. destruct HL as (Hw & HA & Hf).
    destruct (x_lanes_ok rep HI HA Hf) as (m & e & Em & E & Ety & Ed & Ei & Er & HC).
    exists e. cbn [x_build]. split; [exact E|]. constructor; auto.
    + cbn. now rewrite Em.
    + rewrite Ety, Ed. apply ax_remove_typed; auto. apply (wf_typed Hw).
  - left. split; [exact I|]. destruct HL as (Hn & HT & HLn). destruct HI as [HP HU]. eexists. split; [reflexivity|].
    constructor; auto. now apply computes_x_into.
  - left. split; [exact I|]. eexists. split; [reflexivity|]. constructor; auto; [constructor|apply computes_fill].
  - left. split; [exact I|]. eexists. split; [reflexivity|]. constructor; auto; [constructor|apply computes_fill_with].
  - left. split; [exact I|]. destruct HL as (Hn & HT & Hf).
    destruct (from_elem_ok ty cl f0 Hn Hf) as (e & E & Ety & Ed & Ei & Er & HC).
    exists e. split; [exact E|]. constructor; auto. now rewrite Ety, Ed.
  - left. split; [exact I|]. destruct HL as (Hn & HT & Hf & Hr). destruct HI as [HP HU].
    destruct (@x_from_fn_ok dbg A F ty dims f f0 (dims_default_typed HT Hr) Hn) as (e & E & Ety & Ed & Ei & Er & HC); auto.
    { intros j. destruct (Nat.lt_ge_cases j (length dims)) as [L|L].
      - pose proof (@mx_nth j dims). rewrite mx_positive in H by auto. lia.
      - rewrite nth_overflow by auto. unfold usize_max. lia. }
    exists e. split; [exact E|]. constructor; auto. now rewrite Ety, Ed.
  - cbn [t_zips x_build]. destruct (IH HL HI) as [(HZ & e & E & [B1 B2 Bi B3 B4])|(HZ & E)]; rewrite E; cbn [bind].
    + left. split; auto. eexists. split; [reflexivity|]. constructor; auto. now apply computes_map.
    + right. auto.
  - cbn [t_zips x_build]. destruct (IH HL HI) as [(HZ & e & E & [B1 B2 Bi B3 B4])|(HZ & E)]; rewrite E; cbn [bind].
    + left. split; auto. eexists. split; [reflexivity|]. constructor; auto. now apply computes_cloned.
    + right. auto.
  - cbn [t_zips x_build]. destruct (IH HL HI) as [(HZ & e & E & [B1 B2 Bi B3 B4])|(HZ & E)]; rewrite E; cbn [bind].
    + left. split; auto. eexists. split; [reflexivity|]. constructor; auto. now apply computes_copied.
    + right. auto.
  - cbn [t_zips x_build]. destruct (IH HL HI) as [(HZ & e & E & [B1 B2 Bi B3 B4])|(HZ & E)]; rewrite E; cbn [bind].
    + left. split; auto. eexists. split; [reflexivity|]. constructor; auto. now apply computes_x_enumerate.
    + right. auto.
  - cbn [t_zips x_build]. destruct HL as [La Lb]. destruct HI as [Ia Ib].
    destruct (IHa La Ia) as [(Za & ea & Ea & [A1 A2 Ai A3 A4])|(Za & Ea)]; rewrite Ea; cbn [bind].
    2:{ right. split; [tauto|reflexivity]. }
    destruct (IHb Lb Ib) as [(Zb & eb & Eb & [B1 B2 Bi B3 B4])|(Zb & Eb)]; rewrite Eb; cbn [bind].
    2:{ right. split; [tauto|reflexivity]. }
    assert (HE : zippable ea eb <-> trailing_eq (t_dims a) (t_dims b) /\
      (t_rep a = true \/ (length (t_dims b) <= length (t_dims a))%nat) /\
      (t_rep b = true \/ (length (t_dims a) <= length (t_dims b))%nat)).
    { unfold zippable, e_rank. rewrite A1, A2, B1, B2. tauto. }
    destruct (zip_cases A3 B3) as [(Hz & E)|(Hz & E)]; rewrite E.
    + left. split; [tauto|]. eexists. split; [reflexivity|]. constructor.
      * cbn. now rewrite A1, B1.
      * cbn. now rewrite A2, B2.
      * cbn. now rewrite Ai, Bi.
      * cbn [zip_expr e_ty e_dims]. apply zip_typed; auto. apply Hz.
      * cbn [x_act t_init t_need]. rewrite <- A1, <- B1. now apply computes_zip.
    + right. split; [tauto|reflexivity].
Qed.

Section Walk.
  Context (dbg : bool) (size : view -> Z) {A : Type} (t : tree A) (e : expression A).
  Hypothesis HL : t_leaves t.
  Hypothesis HM : t_machine dbg size t.
  Hypothesis HB : x_built dbg t e.
  Hypothesis HN : (t_need t <= length (t_dims t) - t_outer t)%nat.

  Lemma xw_outer : outer_rank e = t_outer t.
  Proof. unfold outer_rank, t_outer, e_rank. now rewrite (xb_inner HB), (xb_dims HB). Qed.

  Lemma xw_new : x_it_new dbg e = Ok (it_new e) /\ iter_ok (it_new e).
  Proof.
    destruct (leaf_small HL HM) as [HP HU]. apply x_new_ok; rewrite (xb_dims HB).
    - now apply positive_nonneg.
    - apply Forall_forall. intros d Hd. destruct (In_nth _ _ 0 Hd) as (j & _ & <-).
      pose proof (@mx_nth j (t_dims t)). rewrite mx_positive in H by auto. lia.
    - pose proof (@mx_skipn (outer_rank e) (t_dims t)). rewrite (mx_positive HP) in H. lia.
  Qed.

  Lemma xw_count : Z.of_nat (length (indices (t_dims t))) = prodZ (t_dims t).
  Proof.
    destruct (leaf_small HL HM) as [HP _]. pose proof (prodZ_nonneg (positive_nonneg HP)).
    rewrite indices_length by now apply positive_nonneg. lia.
  Qed.

  Lemma x_tree_fold T (f : T -> A -> outcome T) acc :
    x_fold dbg e f acc = run_value (t_act t) f (indices (t_dims t)) (t_init t) acc.
  Proof.
    destruct (leaf_small HL HM) as [HP HU]. destruct xw_new as [E1 E2]. unfold x_fold. rewrite E1. cbn [bind].
    rewrite x_it_fold_ok by exact E2. change (it_fold f (it_new e) acc) with (e_fold e f acc).
    rewrite (@fold_computes _ _ _ _ _ _ _ f acc (xb_computes HB)).
    - rewrite (xb_dims HB). unfold run_value.
      rewrite (@x_run_same dbg A T t f (indices (t_dims t)) 0) by (try apply below_init; rewrite xw_count; lia). reflexivity.
    - unfold e_rank. rewrite xw_outer, (xb_dims HB). exact HN.
    - left. rewrite (xb_dims HB). now apply pos_front.
  Qed.

  Lemma x_tree_next n : (n <= Z.to_nat (prodZ (t_dims t)))%nat ->
    agree (fun x y =>
        fst x = map Some (fst y) /\
        x_size dbg (snd x) = Ok (prodZ (t_dims t) - Z.of_nat n) /\
        (forall T (f : T -> A -> outcome T) acc,
           x_it_fold dbg f (snd x) acc = run_value (t_act t) f (skipn n (indices (t_dims t))) (snd y) acc) /\
        (n = Z.to_nat (prodZ (t_dims t)) -> exists it', x_next dbg (snd x) = Ok (None, it')))
      (let* it := x_it_new dbg e in x_nexts dbg n it)
      (items (t_act t) (firstn n (indices (t_dims t))) (t_init t)).
  Proof.
    intros Hn. destruct (leaf_small HL HM) as [HP HU]. destruct xw_new as [E1 E2]. rewrite E1. cbn [bind].
    pose proof xw_count as XC.
    assert (HNF : next_fine e) by (right; rewrite (xb_dims HB); exact HP).
    assert (HNE : (t_need t <= e_rank e - outer_rank e)%nat) by (unfold e_rank; rewrite xw_outer, (xb_dims HB); exact HN).
    assert (HL0 : outer_rank e = 0%nat \/ 0 < it_limit (it_new e)).
    { right. rewrite new_limit, (xb_dims HB). apply prodZ_pos. now apply pos_back. }
    destruct (@x_nexts_ok dbg A e n (it_new e) E2 HL0) as [-> HO].
    assert (HF : length (firstn n (indices (t_dims t))) = n) by (rewrite firstn_length; lia).
    destruct (@x_items_same dbg A t (firstn n (indices (t_dims t))) 0 (t_init t) (below_init t)) as [EI HT].
    { rewrite HF. lia. }
    pose proof (@next_computes _ _ e _ _ _ n (xb_computes HB) HNE HNF) as G.
    rewrite (xb_dims HB) in G. specialize (G ltac:(lia)).
    rewrite EI in G.
    destruct (items (t_act t) (firstn n (indices (t_dims t))) (t_init t)) as [[xs s]| | |];
      destruct (it_nexts n (it_new e)) as [[l it]| | |]; cbn [agree fst snd] in G |- *; auto.
    destruct G as (G1 & G2 & G3 & G4). destruct (HO _ _ eq_refl) as [IO IL]. specialize (HT _ _ eq_refl). rewrite HF in HT.
    split; [exact G1|]. split; [|split].
    - rewrite x_size_ok; auto; rewrite ?(xb_dims HB); auto. now rewrite G2.
    - intros T f acc. rewrite x_it_fold_ok by exact IO. rewrite G3. unfold run_value.
      rewrite (@x_run_same dbg A T t f _ (0 + Z.of_nat n)); [reflexivity|exact HT|].
      rewrite skipn_length. lia.
    - intros En. destruct (G4 En) as (it' & E & _). exists it'.
      destruct (@x_next_ok dbg A e it IO) as [-> _]; auto. right. rewrite IL. destruct HL0; auto.
      rewrite new_limit, (xb_dims HB). apply prodZ_pos. now apply pos_back.
  Qed.
End Walk.
