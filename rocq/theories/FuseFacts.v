(** What [next] does after it has returned [None]. *)
From Verif Require Import Base Spec SpecFacts Shape Mapping Index View Wf MappingFacts MapOps ReshapeFacts IndexFacts ViewFacts.
From Verif Require Import Expr ExprSpec ExprFacts IterFacts SourceFacts ExprTree ExprMore NextFacts.
From Verif Require Import Tensor Consume ConsumeSpec ConsumeFacts OwnFacts ZipFacts Ops OpsFacts OpsMore ExactFacts.
Unset Strict Implicit.

(** ** Moving between rows never fails *)

(** States from which [reset_dim] and [step_dim] end normally. *)
Record steady {A} (e : expression A) (I : e_st e -> Prop) : Prop := {
  sd_get : forall i s a s', e_get e i s = Ok (a, s') -> I s -> I s';
  sd_reset : forall d c s, (d < e_rank e)%nat -> I s -> exists s', e_reset e d c s = Ok s' /\ I s';
  sd_step : forall d s, (d < e_rank e)%nat -> I s -> exists s', e_step e d s = Ok s' /\ I s'
}.
Arguments steady {A} e I.

Lemma steady_true {A} (e : expression A) :
  (forall d c s, (d < e_rank e)%nat -> exists s', e_reset e d c s = Ok s') ->
  (forall d s, (d < e_rank e)%nat -> exists s', e_step e d s = Ok s') -> steady e (fun _ => True).
Proof. intros H1 H2. constructor; auto; intros; [destruct (H1 d c s) as [s' E]|destruct (H2 d s) as [s' E]]; eauto. Qed.

Lemma zip_steady {A B} (a : expression A) (b : expression B) D Ia Ib :
  steady a Ia -> steady b Ib -> steady (zip_expr a b D) (fun s => Ia (fst s) /\ Ib (snd s)).
Proof.
  intros HA HB. constructor; cbn [zip_expr e_get e_reset e_step e_st e_rank e_dims]; unfold e_rank; cbn [zip_expr e_dims].
  - intros i [sa sb] [x y] [sa' sb'] E [H1 H2]. cbn [fst snd] in *.
    destruct (e_get a i sa) as [[x' s1]| | |] eqn:E1; try discriminate. cbn [bind] in E.
    destruct (e_get b i sb) as [[y' s2]| | |] eqn:E2; try discriminate. cbn [bind] in E. injection E as <- <- <- <-.
    split; [eapply (sd_get HA)|eapply (sd_get HB)]; eauto.
  - intros d c [sa sb] Hd [H1 H2]. cbn [fst snd] in *.
    assert (GA : exists s, (if (length D - d <=? length (e_dims a))%nat then e_reset a (length (e_dims a) - (length D - d)) c sa else Ok sa) = Ok s /\ Ia s).
    { destruct (Nat.leb_spec (length D - d) (length (e_dims a))); eauto. apply (sd_reset HA); auto. unfold e_rank. lia. }
    assert (GB : exists s, (if (length D - d <=? length (e_dims b))%nat then e_reset b (length (e_dims b) - (length D - d)) c sb else Ok sb) = Ok s /\ Ib s).
    { destruct (Nat.leb_spec (length D - d) (length (e_dims b))); eauto. apply (sd_reset HB); auto. unfold e_rank. lia. }
    destruct GA as (s1 & -> & ?), GB as (s2 & -> & ?). cbn [bind]. exists (s1, s2). auto.
  - intros d [sa sb] Hd [H1 H2]. cbn [fst snd] in *.
    assert (GA : exists s, (if (length D - d <=? length (e_dims a))%nat then e_step a (length (e_dims a) - (length D - d)) sa else Ok sa) = Ok s /\ Ia s).
    { destruct (Nat.leb_spec (length D - d) (length (e_dims a))); eauto. apply (sd_step HA); auto. unfold e_rank. lia. }
    assert (GB : exists s, (if (length D - d <=? length (e_dims b))%nat then e_step b (length (e_dims b) - (length D - d)) sb else Ok sb) = Ok s /\ Ib s).
    { destruct (Nat.leb_spec (length D - d) (length (e_dims b))); eauto. apply (sd_step HB); auto. unfold e_rank. lia. }
    destruct GA as (s1 & -> & ?), GB as (s2 & -> & ?). cbn [bind]. exists (s1, s2). auto.
Qed.

(** The adapters that act on the item only. *)
Lemma map_steady {A B F} (f : A -> F -> outcome (B * F)) f0 (e : expression A) I :
  steady e I -> steady (e_map f f0 e) (fun s => I (fst s)).
Proof.
  intros H. constructor.
  - intros i [s k] b [s' k'] E HI. cbn [e_map e_get fst snd] in *.
    destruct (e_get e i s) as [[a s1]| | |] eqn:E1; try discriminate. cbn [bind] in E.
    destruct (f a k) as [[b1 k1]| | |]; try discriminate. cbn [bind] in E. injection E as <- <- <-. eapply (sd_get H); eauto.
  - intros d c [s k] Hd HI. cbn [e_map e_reset fst snd] in *. destruct (sd_reset H c Hd HI) as (s' & -> & ?).
    exists (s', k). auto.
  - intros d [s k] Hd HI. cbn [e_map e_step fst snd] in *. destruct (sd_step H Hd HI) as (s' & -> & ?).
    exists (s', k). auto.
Qed.

Lemma from_fn_steady {A F} ty dims (f : list Z -> F -> outcome (A * F)) f0 e :
  e_from_fn ty dims f f0 = Ok e -> typed ty dims -> (ty = SDynRank -> dims = []) ->
  exists I, steady e I /\ I (e_init e).
Proof.
  unfold e_from_fn. destruct (sh_checked_len dims); try discriminate. intros E HT HD. injection E as <-.
  exists (fun s : list Z * F => length (fst s) = length dims). split.
  2:{ cbn [e_init fst]. destruct ty; cbn [dims_default]; [now rewrite HD|]. rewrite repeat_length. apply (Forall2_len HT). }
  assert (U : forall l d g, length l = length dims -> (d < length dims)%nat ->
    exists l', upd_checked l d g = Ok l' /\ length l' = length dims).
  { intros l d g Hl Hd. unfold upd_checked, get_nth. destruct (nth_error l d) eqn:E.
    - cbn [bind]. eexists. split; [reflexivity|]. now rewrite upd_length.
    - apply nth_error_None in E. lia. }
  constructor; unfold e_rank; cbn [e_get e_reset e_step e_st e_dims].
  - intros i [l k] a [l' k'] E HI. cbn [fst snd] in *. destruct (f l k) as [[a1 k1]| | |]; try discriminate. cbn [bind] in E.
    destruct (Nat.ltb_spec 0 (length dims)).
    + destruct (U l (length dims - 1)%nat (fun x => x + 1) HI ltac:(lia)) as (l1 & E1 & H1). rewrite E1 in E. cbn [bind] in E.
      now injection E as <- <- <-.
    + cbn [bind] in E. now injection E as <- <- <-.
  - intros d c [l k] Hd HI. cbn [fst snd] in *. destruct (U l d (fun _ => 0) HI Hd) as (l1 & -> & H1). cbn [bind]. exists (l1, k). auto.
  - intros d [l k] Hd HI. cbn [fst snd] in *. destruct (Nat.ltb_spec (d + 1) (length dims)); [|exists (l, k); auto].
    destruct (U l d (fun x => x + 1) HI Hd) as (l1 & -> & H1). cbn [bind]. exists (l1, k). auto.
Qed.

Lemma tree_steady {A} (t : tree A) : forall e, t_leaves t -> t_build t = Ok e -> exists I, steady e I /\ I (e_init e).
Proof.
  induction t; intros e HL HB; cbn [t_leaves t_build] in *.
  - injection HB as <-. exists (fun _ => True). split; auto. apply steady_true; unfold e_rank; cbn [e_view e_reset e_step e_dims].
    + intros d c s Hd. rewrite m_stride_ok; [cbn [bind]; eauto|apply (wf_strides (vv_wf HL))|exact Hd].
    + intros d s Hd. rewrite m_stride_ok; [cbn [bind]; eauto|apply (wf_strides (vv_wf HL))|exact Hd].
  - unfold e_axis in HB. destruct (ax_get _ _); try discriminate. cbn [bind] in HB. injection HB as <-.
    exists (fun _ => True). split; auto. apply steady_true; cbn; eauto.
  - unfold e_lanes in HB. destruct HL as (HW & HA & _). destruct (ax_remove_map_ok HW HA) as (m' & E & _ & _ & _ & _ & W').
    rewrite E in HB. cbn [bind] in HB. destruct (sh_checked_len _); try discriminate. injection HB as <-.
    exists (fun _ => True). split; auto. apply steady_true; unfold e_rank; cbn [e_reset e_step e_dims].
    + intros d c s Hd. rewrite m_stride_ok; [cbn [bind]; eauto|apply (wf_strides W')|exact Hd].
    + intros d s Hd. rewrite m_stride_ok; [cbn [bind]; eauto|apply (wf_strides W')|exact Hd].
  - injection HB as <-. exists (fun _ => True). split; auto. apply steady_true; cbn; eauto.
  - injection HB as <-. exists (fun _ => True). split; auto. apply steady_true; cbn; eauto.
  - injection HB as <-. exists (fun _ => True). split; auto. apply steady_true; cbn; eauto.
  - unfold e_from_elem in HB. destruct (sh_checked_len _); try discriminate. injection HB as <-.
    exists (fun _ => True). split; auto. apply steady_true; cbn; eauto.
  - destruct HL as (_ & HT & _ & HD). eapply from_fn_steady; eauto.
  - destruct (t_build t) as [x| | |]; try discriminate. cbn [bind] in HB. injection HB as <-.
    destruct (IHt _ HL eq_refl) as (I & H1 & H2). exists (fun s => I (fst s)). split; auto. now apply map_steady.
  - destruct (t_build t) as [x| | |]; try discriminate. cbn [bind] in HB. injection HB as <-.
    destruct (IHt _ HL eq_refl) as (I & H1 & H2). exists (fun s => I (fst s)). split; auto.
    exact (map_steady cl f0 H1).
  - destruct (t_build t) as [x| | |]; try discriminate. cbn [bind] in HB. injection HB as <-.
    destruct (IHt _ HL eq_refl) as (I & H1 & H2). exists I. split; auto. destruct H1 as [G R S]. constructor; auto.
    intros i s a s' E. cbn [e_copied e_get] in E. destruct (e_get x i s) as [[y s1]| | |] eqn:E1; try discriminate. cbn [bind] in E.
    destruct (rd y); try discriminate. cbn [bind] in E. injection E as <- <-. eauto.
  - destruct (t_build t) as [x| | |]; try discriminate. cbn [bind] in HB. injection HB as <-.
    destruct (IHt _ HL eq_refl) as (I & H1 & H2). exists (fun s => I (fst s)). split; auto. destruct H1 as [G R S]. constructor.
    + intros i [s k] a [s' k'] E HI. cbn [e_enumerate e_get fst snd] in *.
      destruct (e_get x i s) as [[y s1]| | |] eqn:E1; try discriminate. cbn [bind] in E. injection E as <- <- <-. eauto.
    + intros d c [s k] Hd HI. cbn [e_enumerate e_reset fst snd] in *. destruct (R d c s Hd HI) as (s' & -> & ?).
      exists (s', k). auto.
    + intros d [s k] Hd HI. cbn [e_enumerate e_step fst snd] in *. destruct (S d s Hd HI) as (s' & -> & ?).
      exists (s', k). auto.
  - destruct HL as [L1 L2]. destruct (t_build t1) as [x| | |]; try discriminate. destruct (t_build t2) as [y| | |]; try discriminate.
    cbn [bind] in HB. destruct (IHt1 _ L1 eq_refl) as (I1 & H1 & H1'), (IHt2 _ L2 eq_refl) as (I2 & H2 & H2').
    rewrite (e_zip_shape HB). exists (fun s => I1 (fst s) /\ I2 (snd s)). split; [now apply zip_steady|]. cbn. auto.
Qed.

(** ** The row after [None] *)

Section Fuse.
  Context {A : Type} (e : expression A) (I : e_st e -> Prop) (HS : steady e I).
  Let q := outer_rank e.

  (** The limits of an iterator over [e]. *)
  Record on (it : iter e) : Prop := {
    on_limit : it_limit it = prodZ (skipn q (e_dims e));
    on_olimit : it_olimit it = if (0 <? q)%nat then e_dims e else [];
    on_inv : I (it_st it)
  }.
  (** It has just returned [None]. *)
  Record ended (it : iter e) : Prop := {
    ed_on : on it;
    ed_index : it_index it = it_limit it;
    ed_outer : forall i, nth i (it_outer it) 0 = 0
  }.

  Lemma new_on : I (e_init e) -> on (it_new e).
  Proof.
    intros H. constructor; auto. unfold it_new. cbn [it_limit]. rewrite fold_mul_prod, Z.mul_1_l. reflexivity.
  Qed.

  Lemma zeros_nth (l : list Z) i : nth i (map (fun _ => 0) l) 0 = 0.
  Proof. revert i. induction l; intros [|i]; cbn; auto. Qed.

  Lemma upd_zeros (o : list Z) n i : (forall i, nth i o 0 = 0) -> nth i (upd o n 0) 0 = 0.
  Proof.
    intros H. destruct (Nat.eq_dec n i) as [->|NE]; [|now rewrite upd_nth_other].
    destruct (Nat.ltb_spec i (length o)); [now apply upd_nth_same|]. apply nth_overflow. rewrite upd_length. lia.
  Qed.

  Lemma step_loop_steady olimit n : (n <= e_rank e)%nat -> forall st o, I st ->
    exists b st' o', step_loop e olimit n st o = Ok (b, st', o') /\ I st'.
  Proof.
    induction n as [|n IH]; intros Hn st o HI; cbn [step_loop]; [eauto 6|].
    destruct (_ <? _).
    - destruct (sd_step HS (d := n) (s := st)) as (s' & -> & H); auto. cbn [bind]. eauto 6.
    - destruct (sd_reset HS (d := n) (nth n o 0) (s := st)) as (s' & -> & H); auto. cbn [bind]. apply IH; auto. lia.
  Qed.

  Lemma outer_le : (q <= e_rank e)%nat.
  Proof. apply outer_rank_le. Qed.

  Lemma step_outer_on it : on it ->
    exists b it', step_outer it = Ok (b, it') /\ on it' /\ it_index it' = it_index it /\
      (b = false -> forall i, nth i (it_outer it') 0 = 0).
  Proof.
    intros [H1 H2 H3]. unfold step_outer. fold q.
    assert (G : exists st, (if (q <? e_rank e)%nat then e_reset e (e_rank e - 1) 0 (it_st it) else Ok (it_st it)) = Ok st /\ I st).
    { destruct (Nat.ltb_spec q (e_rank e)); eauto. apply (sd_reset HS); auto. lia. }
    destruct G as (st & -> & HI). cbn [bind].
    destruct (@step_loop_steady (it_olimit it) q outer_le st (it_outer it) HI) as (b & st' & o' & -> & HI'). cbn [bind].
    eexists _, _. split; [reflexivity|]. split; [now constructor|]. split; [reflexivity|]. intros ->. cbn [it_outer]. apply zeros_nth.
  Qed.

  Lemma next_on it x it' : on it -> it_next it = Ok (x, it') -> on it' /\ (x = None -> ended it').
  Proof.
    intros H E. unfold it_next in E.
    assert (TAKE : forall jt : iter e, on jt ->
      (let i := it_index jt + 1 in
       let* (a, st) := e_get e (i - 1) (it_st jt) in
       Ok (Some a, mkIter st i (it_limit jt) (it_outer jt) (it_olimit jt))) = Ok (x, it') -> on it' /\ (x = None -> ended it')).
    { intros jt [J1 J2 J3] E'. cbv zeta in E'. destruct (e_get e (it_index jt + 1 - 1) (it_st jt)) as [[a st]| | |] eqn:EG; try discriminate. cbn [bind] in E'.
      apply Ok_inj in E'. apply pair_equal_spec in E'. destruct E' as [<- <-]. split; [|discriminate]. constructor; auto. cbn [it_st]. eapply (sd_get HS); eauto. }
    destruct (Z.eqb_spec (it_index it) (it_limit it)) as [EI|NE]; [|apply (TAKE it); auto].
    destruct (step_outer_on H) as (b & jt & ES & HJ & EJ & HO). rewrite ES in E. cbn [bind] in E. destruct b.
    - apply (TAKE (mkIter (it_st jt) 0 (it_limit jt) (it_outer jt) (it_olimit jt))); auto. destruct HJ. now constructor.
    - apply Ok_inj in E. apply pair_equal_spec in E. destruct E as [<- <-]. split; auto. intros _. constructor; auto. rewrite EJ, EI. destruct H as [H _ _], HJ as [J _ _]. congruence.
  Qed.

  Lemma nexts_on n : forall it xs it', on it -> it_nexts n it = Ok (xs, it') -> on it'.
  Proof.
    induction n as [|n IH]; intros it xs it' H E; cbn [it_nexts] in E; [apply Ok_inj in E; apply pair_equal_spec in E; now destruct E as [<- <-]|].
    destruct (it_next it) as [[x jt]| | |] eqn:EN; try discriminate. cbn [bind] in E.
    destruct (it_nexts n jt) as [[l kt]| | |] eqn:EK; try discriminate. cbn [bind] in E. apply Ok_inj in E. apply pair_equal_spec in E. destruct E as [<- <-].
    apply next_on in EN; auto. destruct EN. eapply IH; eauto.
  Qed.

  (** All outer dimensions are at most 1: [None] for ever. *)
  Lemma loop_ones olimit n st o : (forall i, (i < n)%nat -> nth i olimit 0 <= 1) -> (forall i, nth i o 0 = 0) ->
    (n <= e_rank e)%nat -> I st -> exists st' o', step_loop e olimit n st o = Ok (false, st', o') /\ I st'.
  Proof.
    revert st o. induction n as [|n IH]; intros st o HL HO Hn HI; cbn [step_loop]; [eauto|].
    rewrite HO. pose proof (HL n ltac:(lia)). destruct (Z.ltb_spec (0 + 1) (nth n olimit 0)); [lia|].
    destruct (sd_reset HS (d := n) 0 (s := st)) as (s' & -> & H'); auto. cbn [bind]. apply IH; auto; try lia.
    intros i. now apply upd_zeros.
  Qed.

  Lemma ended_none it : ended it -> (forall i, (i < q)%nat -> nth i (e_dims e) 0 <= 1) ->
    exists it', it_next it = Ok (None, it') /\ ended it'.
  Proof.
    intros [H HI HO] H1.
    assert (E : exists it', it_next it = Ok (None, it')).
    { unfold it_next. rewrite HI, Z.eqb_refl. unfold step_outer. fold q.
      assert (G : exists st, (if (q <? e_rank e)%nat then e_reset e (e_rank e - 1) 0 (it_st it) else Ok (it_st it)) = Ok st /\ I st).
      { destruct (Nat.ltb_spec q (e_rank e)); [|destruct H; eauto]. apply (sd_reset HS); [lia|apply (on_inv H)]. }
      destruct G as (st & -> & HI'). cbn [bind].
      destruct (@loop_ones (it_olimit it) q st (it_outer it)) as (st' & o' & -> & _); auto using outer_le.
      - intros i Hi. rewrite (on_olimit H). destruct (Nat.ltb_spec 0 q); [auto|lia].
      - cbn [bind]. eauto. }
    destruct E as [it' E]. exists it'. split; auto. now apply (next_on H E).
  Qed.

  Lemma ended_nones k : forall it, ended it -> (forall i, (i < q)%nat -> nth i (e_dims e) 0 <= 1) ->
    exists it', it_nexts k it = Ok (repeat None k, it') /\ ended it'.
  Proof.
    induction k as [|k IH]; intros it H H1; cbn [it_nexts repeat]; [eauto|].
    destruct (ended_none H H1) as (jt & -> & HJ). cbn [bind]. destruct (IH jt HJ H1) as (kt & -> & HK). cbn [bind]. eauto.
  Qed.

  (** Otherwise an item of another row is asked for. *)
  Lemma loop_steps olimit n st o i : (i < n)%nat -> 1 < nth i olimit 0 -> (forall i, nth i o 0 = 0) ->
    (n <= e_rank e)%nat -> I st -> exists st' o', step_loop e olimit n st o = Ok (true, st', o') /\ I st'.
  Proof.
    intros Hi HL. revert st o. induction n as [|n IH]; intros st o HO Hn HI; cbn [step_loop]; [lia|].
    rewrite HO. destruct (Z.ltb_spec (0 + 1) (nth n olimit 0)).
    - destruct (sd_step HS (d := n) (s := st)) as (s' & -> & H'); auto. cbn [bind]. eauto.
    - destruct (sd_reset HS (d := n) 0 (s := st)) as (s' & -> & H'); auto. cbn [bind].
      destruct (Nat.eq_dec i n) as [->|]; [lia|]. apply IH; auto; try lia.
      intros j. now apply upd_zeros.
  Qed.

  Lemma ended_some it i : ended it -> (i < q)%nat -> 1 < nth i (e_dims e) 0 ->
    exists st o, I st /\
      it_next it = (let* (a, st) := e_get e 0 st in Ok (Some a, mkIter st 1 (it_limit it) o (it_olimit it))).
  Proof.
    intros [H HI HO] Hi H1. unfold it_next. rewrite HI, Z.eqb_refl. unfold step_outer. fold q.
    assert (G : exists st, (if (q <? e_rank e)%nat then e_reset e (e_rank e - 1) 0 (it_st it) else Ok (it_st it)) = Ok st /\ I st).
    { destruct (Nat.ltb_spec q (e_rank e)); [|destruct H; eauto]. apply (sd_reset HS); [lia|apply (on_inv H)]. }
    destruct G as (st & -> & HI'). cbn [bind].
    destruct (@loop_steps (it_olimit it) q st (it_outer it) i) as (st' & o' & -> & HI''); auto using outer_le.
    - rewrite (on_olimit H). destruct (Nat.ltb_spec 0 q); [auto|lia].
    - cbn [bind]. exists st', o'. split; auto.
  Qed.
End Fuse.

(** ** Trees *)

Definition one_pass (q : nat) (D : list Z) : Prop :=
  Forall (eq 1) (firstn q D) \/ prodZ (skipn q D) = 0 /\ Forall (fun d => d <= 1) (firstn q D).

Lemma nth_front (q i : nat) (D : list Z) : (i < q)%nat -> nth i (firstn q D) 0 = nth i D 0.
Proof. revert q i. induction D as [|d D IH]; intros [|q] [|i] H; cbn; auto; try lia. apply IH. lia. Qed.

Lemma forall_front (Q : Z -> Prop) q D : (q <= length D)%nat ->
  (Forall Q (firstn q D) <-> forall i, (i < q)%nat -> Q (nth i D 0)).
Proof.
  intros Hq. split.
  - intros H i Hi. rewrite Forall_forall in H. apply H. rewrite <- (@nth_front q i D) by auto.
    apply nth_In. rewrite firstn_length. lia.
  - intros H. apply Forall_forall. intros x Hx. apply (In_nth _ _ 0) in Hx. destruct Hx as (i & Hi & <-).
    rewrite firstn_length in Hi. rewrite nth_front by lia. apply H. lia.
Qed.

Lemma not_forall_front q D : (q <= length D)%nat -> ~ Forall (fun d => d <= 1) (firstn q D) ->
  exists i, (i < q)%nat /\ 1 < nth i D 0.
Proof.
  intros Hq H.
  assert (G : forall n, (n <= q)%nat -> (forall i, (i < n)%nat -> nth i D 0 <= 1) \/ exists i, (i < q)%nat /\ 1 < nth i D 0).
  { induction n as [|n IH]; intros Hn; [left; intros; lia|]. destruct (IH ltac:(lia)) as [IH'|]; auto.
    destruct (Z_le_gt_dec (nth n D 0) 1); [left|right; exists n; lia]. intros i Hi.
    destruct (Nat.eq_dec i n) as [->|]; auto. apply IH'. lia. }
  destruct (G q ltac:(lia)) as [G'|]; auto. exfalso. apply H. now apply forall_front.
Qed.

(** The items of a whole pass. *)
Lemma tree_pass {A} (t : tree A) e xs s :
  t_leaves t -> t_build t = Ok e -> t_next_fine t ->
  items (t_act t) (indices (t_dims t)) (t_init t) = Ok (xs, s) ->
  let len := Z.to_nat (prodZ (t_dims t)) in
  exists it, it_nexts (len + 1) (it_new e) = Ok (map Some xs ++ [None], it).
Proof.
  intros HL HB HF HI len. pose proof (tree_nonneg HL HB) as HN.
  assert (HI' : items (t_act t) (firstn len (indices (t_dims t))) (t_init t) = Ok (xs, s)).
  { rewrite firstn_all2; auto. pose proof (indices_length HN). unfold len. lia. }
  destruct (@tree_next_built A t e len xs s HL HB HF (le_n _) HI') as (it & H1 & _ & _ & H4).
  destruct (H4 eq_refl) as (it' & H5 & _). exists it'. rewrite it_nexts_app, H1. cbn [bind it_nexts]. rewrite H5. reflexivity.
Qed.

Theorem tree_fused {A} (t : tree A) e xs s :
  t_leaves t -> t_build t = Ok e -> t_next_fine t ->
  items (t_act t) (indices (t_dims t)) (t_init t) = Ok (xs, s) ->
  let len := Z.to_nat (prodZ (t_dims t)) in
  (Forall (fun d => d <= 1) (firstn (t_outer t) (t_dims t)) ->
   forall k, exists it, it_nexts (len + 1 + k) (it_new e) = Ok (map Some xs ++ None :: repeat None k, it)) /\
  (~ Forall (fun d => d <= 1) (firstn (t_outer t) (t_dims t)) ->
   forall ys it, it_nexts (len + 1 + 1) (it_new e) = Ok (ys, it) -> exists a, ys = map Some xs ++ [None; Some a]).
Proof.
  intros HL HB HF HI len. pose proof (build_built HL HB) as B.
  destruct (tree_pass HL HB HF HI) as (it & H1). fold len in H1.
  destruct (tree_steady HL HB) as (J & HS & HJ).
  assert (HE : ended J it).
  { rewrite it_nexts_app in H1. destruct (it_nexts len (it_new e)) as [[zs jt]| | |] eqn:E; try discriminate.
    cbn [bind it_nexts] in H1. destruct (it_next jt) as [[x kt]| | |] eqn:E2; try discriminate. cbn [bind] in H1.
    apply Ok_inj in H1. apply pair_equal_spec in H1. destruct H1 as [H1 <-]. apply app_inj_tail in H1. destruct H1 as [_ ->].
    apply (next_on HS) in E2; [|eapply nexts_on; eauto; now apply new_on]. now apply E2. }
  pose proof (tree_outer B) as EO. pose proof (bu_dims B) as ED. pose proof (outer_rank_le e) as HQ. unfold e_rank in HQ.
  rewrite EO, ED in HQ. split.
  - intros HO k. pose proof (proj1 (@forall_front (fun d => d <= 1) (t_outer t) (t_dims t) HQ) HO) as H.
    destruct (@ended_nones A e J HS k it HE) as (it' & E & _); [now rewrite EO, ED|].
    exists it'. rewrite it_nexts_app, H1. cbn [bind]. rewrite E. cbn [bind]. now rewrite <- app_assoc.
  - intros HO ys it' E. destruct (not_forall_front HQ HO) as (i & Hi & Hd).
    destruct (@ended_some A e J HS it i HE) as (st & o & _ & EN); [now rewrite EO|now rewrite ED|].
    rewrite it_nexts_app, H1 in E. cbn [bind it_nexts] in E. rewrite EN in E.
    destruct (e_get e 0 st) as [[a st']| | |]; try discriminate. cbn [bind] in E. apply Ok_inj in E. apply pair_equal_spec in E.
    destruct E as [<- _]. exists a. now rewrite <- app_assoc.
Qed.

(** ** Consumed arrays *)

Lemma into_steady {A} ty dims (l : list A) n : steady (e_into ty dims l) (fun i => (n <= Z.to_nat i)%nat).
Proof.
  constructor; cbn [e_into e_get e_reset e_step e_st]; eauto.
  intros _ i a i' E H. destruct (nth_error l (Z.to_nat i)); try discriminate. cbn in E. injection E as <- <-. lia.
Qed.

Definition same_failure {A B} (o : outcome A) (o' : outcome B) : Prop :=
  match o, o' with Panic, Panic | UB, UB | NoFuel, NoFuel => True | _, _ => False end.

Lemma bind_fails {A B} (o : outcome A) (k : A -> outcome B) : (forall a, o <> Ok a) -> same_failure (bind o k) o.
Proof. destruct o; cbn; auto. intros H. now destruct (H a). Qed.

Lemma one_pass_cases q D : (q <= length D)%nat -> nonneg D ->
  (one_pass q D /\ (positive D /\ Forall (fun d => d <= 1) (firstn q D) \/
                    prodZ (skipn q D) = 0 /\ Forall (fun d => d <= 1) (firstn q D))) \/
  (~ one_pass q D /\ (positive D /\ ~ Forall (fun d => d <= 1) (firstn q D) \/
                      prodZ D = 0 /\ prodZ (skipn q D) <> 0 \/
                      prodZ D = 0 /\ prodZ (skipn q D) = 0 /\ ~ Forall (fun d => d <= 1) (firstn q D))).
Proof.
  intros Hq HN. unfold one_pass.
  assert (D1 : {Forall (fun d => d <= 1) (firstn q D)} + {~ Forall (fun d => d <= 1) (firstn q D)}).
  { apply Forall_dec. intros d. apply Z_le_dec. }
  assert (E1 : Forall (eq 1) (firstn q D) -> Forall (fun d => d <= 1) (firstn q D)).
  { apply Forall_impl. intros; lia. }
  assert (E2 : positive D -> Forall (fun d => d <= 1) (firstn q D) -> Forall (eq 1) (firstn q D)).
  { intros HP. rewrite !forall_front by auto. intros H i Hi. specialize (H i Hi). unfold positive in HP. rewrite Forall_forall in HP.
    specialize (HP (nth i D 0) ltac:(apply nth_In; lia)). lia. }
  pose proof (prodZ_app (firstn q D) (skipn q D)) as EP. rewrite firstn_skipn in EP.
  destruct (positive_dec D) as [HP|HP].
  - assert (prodZ (skipn q D) <> 0).
    { pose proof (prodZ_pos HP). intros E. rewrite E in EP. lia. }
    destruct D1 as [D1|D1]; [left|right]; intuition.
  - pose proof (nonpos_prod HN HP) as E0. destruct (Z.eq_dec (prodZ (skipn q D)) 0) as [Es|Es].
    + destruct D1 as [D1|D1]; [left|right]; intuition.
    + right. assert (prodZ (firstn q D) = 0) by nia. split; [|intuition].
      intros [H1|[H1 _]]; [|auto]. assert (E : prodZ (firstn q D) = 1); [|lia]. clear -H1. induction H1 as [|d l <-]; auto.
      cbn [prodZ fold_right]. fold (prodZ l). lia.
Qed.

Lemma somes_map_app {A} (xs : list A) k : somes (map Some xs ++ repeat None k) = xs.
Proof. induction xs; cbn; [induction k; cbn; auto|congruence]. Qed.

(** An expression that cannot give its items a second time. *)
Lemma consumed_exact {A} (t : tree A) e xs s (J : e_st e -> Prop) :
  t_leaves t -> t_build t = Ok e -> (t_need t <= length (t_dims t) - t_outer t)%nat ->
  items (t_act t) (indices (t_dims t)) (t_init t) = Ok (xs, s) ->
  steady e J -> (forall st, J st -> forall a, e_get e 0 st <> Ok a) ->
  (forall n ys it, it_nexts n (it_new e) = Ok (ys, it) -> length (somes ys) = Z.to_nat (prodZ (t_dims t)) -> J (it_st it)) ->
  (one_pass (t_outer t) (t_dims t) -> forall m, exists ys it, it_nexts m (it_new e) = Ok (ys, it)) /\
  (~ one_pass (t_outer t) (t_dims t) -> exists m st, J st /\ same_failure (it_nexts m (it_new e)) (e_get e 0 st)).
Proof.
  intros HL HB HNd HI HS HG HE. pose proof (build_built HL HB) as B. pose proof (tree_nonneg HL HB) as HN.
  pose proof (tree_outer B) as EO. pose proof (bu_dims B) as ED.
  assert (HQ : (t_outer t <= length (t_dims t))%nat).
  { pose proof (outer_rank_le e) as HQ. unfold e_rank in HQ. now rewrite EO, ED in HQ. }
  destruct (tree_steady HL HB) as (J0 & HS0 & HJ0).
  assert (HLen : length xs = Z.to_nat (prodZ (t_dims t))).
  { pose proof (items_zlen HI) as LX. rewrite zlen_indices in LX by auto. unfold zlen in LX. lia. }
  assert (HNew : prodZ (skipn (t_outer t) (t_dims t)) = 0 -> forall K : e_st e -> Prop, K (e_init e) -> ended K (it_new e)).
  { intros E0 K HK. pose proof (@new_on A e K HK) as ON. constructor; auto.
    - rewrite (on_limit ON), EO, ED, E0. reflexivity.
    - intros i. unfold it_new. cbn [it_outer]. destruct (0 <? _)%nat; [|now destruct i]. apply nth_repeat. }
  destruct (one_pass_cases HQ HN) as [[H1 H2]|[H1 H2]]; (split; [intros H; try contradiction|intros H; try contradiction]).
  - intros m. destruct H2 as [[HP HO]|[HP HO]].
    + assert (HF : t_next_fine t) by (split; auto).
      set (len := Z.to_nat (prodZ (t_dims t))) in *.
      destruct (tree_fused HL HB HF HI) as [HT _]. fold len in HT.
      destruct (HT HO m) as (it & EM). replace (len + 1 + m)%nat with (m + (len + 1))%nat in EM by lia. rewrite it_nexts_app in EM.
      destruct (it_nexts m (it_new e)) as [[ys jt]| | |]; try discriminate. eauto.
    + pose proof (proj1 (@forall_front (fun d => d <= 1) (t_outer t) (t_dims t) HQ) HO) as H'.
      destruct (@ended_nones A e J0 HS0 m (it_new e) (HNew HP J0 HJ0)) as (it' & E & _); [now rewrite EO, ED|]. eauto.
  - destruct H2 as [[HP HO]|[[HP HO]|[HP [HO HO']]]].
    + assert (HF : t_next_fine t) by (split; auto).
      set (len := Z.to_nat (prodZ (t_dims t))) in *.
      destruct (tree_pass HL HB HF HI) as (it & E). fold len in E.
      assert (EN0 : ended J0 it).
      { pose proof E as E'. rewrite it_nexts_app in E'. destruct (it_nexts len (it_new e)) as [[zs jt]| | |] eqn:E1; try discriminate.
        cbn [bind it_nexts] in E'. destruct (it_next jt) as [[x kt]| | |] eqn:E2; try discriminate. cbn [bind] in E'.
        apply Ok_inj in E'. apply pair_equal_spec in E'. destruct E' as [E' <-]. apply app_inj_tail in E'. destruct E' as [_ ->].
        apply (next_on HS0) in E2; [|eapply nexts_on; eauto; now apply new_on]. now apply E2. }
      assert (EJ : ended J it).
      { destruct EN0 as [[O1 O2 _] O4 O5]. constructor; auto. constructor; auto. eapply HE; [exact E|].
        change [None] with (repeat (@None A) 1). rewrite somes_map_app. exact HLen. }
      destruct (not_forall_front HQ HO) as (i & Hi & Hd).
      destruct (@ended_some A e J HS it i EJ) as (st & o & HJ & EN); [now rewrite EO|now rewrite ED|].
      exists (len + 1 + 1)%nat, st. split; auto. rewrite it_nexts_app, E. cbn [bind it_nexts]. rewrite EN.
      specialize (HG st HJ). destruct (e_get e 0 st) as [a| | |]; cbn; auto. now destruct (HG a).
    + assert (HJ : J (e_init e)).
      { apply (HE 0%nat [] (it_new e) eq_refl). rewrite HP. reflexivity. }
      exists 1%nat, (e_init e). split; auto. cbn [it_nexts]. unfold it_next.
      assert (EL : it_limit (it_new e) = prodZ (skipn (t_outer t) (t_dims t))).
      { pose proof (@new_on A e J HJ) as ON. now rewrite (on_limit ON), EO, ED. }
      rewrite EL. change (it_index (it_new e)) with 0. destruct (Z.eqb_spec 0 (prodZ (skipn (t_outer t) (t_dims t)))); [congruence|].
      cbv zeta. change (0 + 1 - 1) with 0. change (it_st (it_new e)) with (e_init e).
      specialize (HG _ HJ). destruct (e_get e 0 (e_init e)) as [a| | |]; cbn; auto. now destruct (HG a).
    + assert (HJ : J (e_init e)).
      { apply (HE 0%nat [] (it_new e) eq_refl). rewrite HP. reflexivity. }
      destruct (not_forall_front HQ HO') as (i & Hi & Hd).
      destruct (@ended_some A e J HS (it_new e) i (HNew HO J HJ)) as (st & o & HJ' & EN); [now rewrite EO|now rewrite ED|].
      exists 1%nat, st. split; auto. cbn [it_nexts]. rewrite EN.
      specialize (HG st HJ'). destruct (e_get e 0 st) as [a| | |]; cbn; auto. now destruct (HG a).
Qed.

Section Into.
  Context {A B : Type} (ty : shty) (dims : list Z) (l : list A) (t : tree B) (b : expression B) (g : list Z -> B).
  Hypothesis HN : nonneg dims.
  Hypothesis HT : typed ty dims.
  Hypothesis HLen : Z.of_nat (length l) = prodZ dims.
  Hypothesis HL : t_leaves t.
  Hypothesis HB : t_build t = Ok b.
  Hypothesis HNd : t_need t = 0%nat.
  Hypothesis HD : denotes t g.

  Lemma list_act idx s : in_bounds dims idx -> exists a, list_action dims l idx s = Ok (a, s).
  Proof.
    intros HI. unfold list_action. pose proof (flat_bounds HI). destruct (nth_error l _) eqn:E; [eauto|].
    apply nth_error_None in E. lia.
  Qed.

  Lemma left_exact z : e_zip (e_into ty dims l) b = Ok z ->
    let tz := TZip (TInto ty dims l) t in
    (one_pass (t_outer tz) dims -> forall m, exists ys it, it_nexts m (it_new z) = Ok (ys, it)) /\
    (~ one_pass (t_outer tz) dims -> exists m, it_nexts m (it_new z) = UB).
  Proof.
    intros HZ tz.
    assert (HBz : t_build tz = Ok z) by (unfold tz; cbn [t_build bind]; rewrite HB; exact HZ).
    assert (HLz : t_leaves tz) by (repeat split; auto).
    assert (ED : t_dims tz = dims).
    { unfold tz. cbn [t_dims]. pose proof (zip_into_dims HZ) as H. rewrite (bu_dims (build_built HL HB)) in H.
      unfold longer. destruct (Nat.ltb_spec (length dims) (length (t_dims t))); [lia|reflexivity]. }
    assert (HO : operand_fits dims t).
    { assert (HZz : t_zips tz) by (destruct (build_cases HLz) as [[H _]|[_ H]]; auto; congruence).
      destruct HZz as (_ & _ & H1 & H2 & H3). split; [exact H1|]. pose proof (zip_into_dims HZ) as H.
      rewrite (bu_dims (build_built HL HB)) in H. split; auto. destruct H3 as [H3|H3]; auto. right. cbn [t_dims] in H3. lia. }
    destruct (@items_rel _ _ (t_act tz) (fun _ _ => True) (indices (t_dims tz)) (t_init tz)) as (xs & s & HI & _).
    { rewrite ED. intros idx [[] sb] Hi. apply in_indices in Hi. unfold tz. cbn [t_act t_dims]. unfold zip_action. cbn [fst snd].
      rewrite lastn_bounds by auto. destruct (list_act tt Hi) as [a ->]. cbn [bind].
      destruct (@HD (lastn (length (t_dims t)) idx) sb (operand_bounds HO Hi)) as [sb' ->]. cbn [bind]. eauto. }
    pose proof (e_zip_shape HZ) as EZ.
    destruct (tree_steady HL HB) as (Jb & HSb & HJb).
    revert HZ HBz. rewrite EZ. set (D := e_dims z). intros HZ HBz.
    assert (HG : forall st : e_st (zip_expr (e_into ty dims l) b D), (length l <= Z.to_nat (fst st))%nat /\ Jb (snd st) ->
              e_get (zip_expr (e_into ty dims l) b D) 0 st = UB).
    { intros [i sb] [Hi _]. cbn [zip_expr e_get e_into fst snd]. cbn [fst] in Hi. rewrite (proj2 (nth_error_None l (Z.to_nat i)) Hi). reflexivity. }
    destruct (@consumed_exact _ tz (zip_expr (e_into ty dims l) b D) xs s (fun st => (length l <= Z.to_nat (fst st))%nat /\ Jb (snd st)) HLz HBz) as [H1 H2]; auto.
    - unfold tz. cbn [t_need]. rewrite HNd. cbn. lia.
    - exact (zip_steady D (into_steady ty dims l (length l)) HSb).
    - intros st H a E. rewrite (HG st H) in E. discriminate.
    - intros n ys it E EL. rewrite ED, <- HLen, Nat2Z.id in EL. destruct (zip_into_left E) as [_ M]. rewrite EL, skipn_all in M. split.
      + unfold into_dropped in M. apply (f_equal (@length A)) in M. rewrite skipn_length in M. cbn [length] in M. lia.
      + assert (ON : on (fun st : e_st (zip_expr (e_into ty dims l) b D) => (0 <= Z.to_nat (fst st))%nat /\ Jb (snd st)) it).
        { eapply nexts_on; [|apply new_on|exact E]; [exact (zip_steady D (into_steady ty dims l 0) HSb)|]. cbn. split; auto; lia. }
        apply (on_inv ON).
    - rewrite ED in *. split; auto. intros H. destruct (H2 H) as (m & st & HJ & HF). exists m.
      rewrite (HG st HJ) in HF. destruct (it_nexts m _); cbn in HF; try contradiction. reflexivity.
  Qed.

  Lemma right_exact z : e_zip b (e_into ty dims l) = Ok z ->
    let tz := TZip t (TInto ty dims l) in
    (one_pass (t_outer tz) dims -> forall m, exists ys it, it_nexts m (it_new z) = Ok (ys, it)) /\
    (~ one_pass (t_outer tz) dims -> exists m, forall r, it_nexts m (it_new z) <> Ok r).
  Proof.
    intros HZ tz.
    assert (HBz : t_build tz = Ok z) by (unfold tz; cbn [t_build bind]; rewrite HB; exact HZ).
    assert (HLz : t_leaves tz) by (repeat split; auto).
    assert (HZz : t_zips tz) by (destruct (build_cases HLz) as [[H _]|[_ H]]; auto; congruence).
    destruct HZz as (_ & _ & H1 & H2 & H3). cbn [t_dims t_rep] in H1, H2, H3.
    assert (HR : (length (t_dims t) <= length dims)%nat) by (destruct H3 as [H3|H3]; [discriminate|exact H3]).
    assert (HO : operand_fits dims t).
    { split; [unfold trailing_eq in *; rewrite Nat.min_comm; now symmetry|]. split; auto. destruct H2 as [H2|H2]; auto. right. lia. }
    assert (ED : t_dims tz = dims).
    { unfold tz. cbn [t_dims]. pose proof (trailing_r H1) as E. rewrite <- E at 2. symmetry. apply ExprFacts.lastn_all.
      unfold longer. destruct (Nat.ltb_spec (length (t_dims t)) (length dims)); lia. }
    destruct (@items_rel _ _ (t_act tz) (fun _ _ => True) (indices (t_dims tz)) (t_init tz)) as (xs & s & HI & _).
    { rewrite ED. intros idx [sb []] Hi. apply in_indices in Hi. unfold tz. cbn [t_act t_dims]. unfold zip_action. cbn [fst snd].
      destruct (@HD (lastn (length (t_dims t)) idx) sb (operand_bounds HO Hi)) as [sb' ->]. cbn [bind].
      rewrite lastn_bounds by auto. destruct (list_act tt Hi) as [a ->]. cbn [bind]. eauto. }
    pose proof (e_zip_shape HZ) as EZ.
    destruct (tree_steady HL HB) as (Jb & HSb & HJb).
    revert HZ HBz. rewrite EZ. set (D := e_dims z). intros HZ HBz.
    destruct (@consumed_exact _ tz (zip_expr b (e_into ty dims l) D) xs s (fun st => Jb (fst st) /\ (length l <= Z.to_nat (snd st))%nat) HLz HBz) as [G1 G2]; auto.
    - unfold tz. cbn [t_need]. rewrite HNd. cbn. lia.
    - exact (zip_steady D HSb (into_steady ty dims l (length l))).
    - intros [sb i] [_ Hi] a E. cbn [zip_expr e_get e_into fst snd] in *. destruct (e_get b 0 sb) as [[y sb']| | |]; try discriminate.
      cbn [bind] in E. rewrite (proj2 (nth_error_None l (Z.to_nat i)) Hi) in E. discriminate.
    - intros n ys it E EL. rewrite ED, <- HLen, Nat2Z.id in EL. destruct (zip_into_right E) as [_ M]. rewrite EL, skipn_all in M. split.
      + assert (ON : on (fun st : e_st (zip_expr b (e_into ty dims l) D) => Jb (fst st) /\ (0 <= Z.to_nat (snd st))%nat) it).
        { eapply nexts_on; [|apply new_on|exact E]; [exact (zip_steady D HSb (into_steady ty dims l 0))|]. cbn. split; auto; lia. }
        apply (on_inv ON).
      + unfold into_dropped in M. apply (f_equal (@length A)) in M. rewrite skipn_length in M. cbn [length] in M. lia.
    - rewrite ED in *. split; auto. intros H. destruct (G2 H) as (m & st & HJ & HF). exists m. intros r E. rewrite E in HF. exact HF.
  Qed.
End Into.
