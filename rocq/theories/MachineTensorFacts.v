(** Facts about [MachineTensor.v]: when the integers of an operation on an owned array fit. *)
From Verif Require Import Base Spec SpecFacts Shape Mapping Index View Wf MappingFacts MapOps ReshapeFacts.
From Verif Require Import IndexFacts ViewFacts ViewMore Expr ExprSpec ExprFacts IterFacts SourceFacts ExprTree ExprMore.
From Verif Require Import Tensor TraceFacts TensorSpec TensorFacts ResizeFacts TensorOps DrainFacts OwnFacts ZipFacts History HistoryFacts.
From Verif Require Import Machine MachineSpec MachineFacts MachineWrap MachineIter MachineIterFacts MachineTensor.
Unset Strict Implicit.

Lemma seq_done {S A B} (m : M S A) (k : A -> M S B) s a s' : m s = Done a s' -> (x <- m ;; k x) s = k a s'.
Proof. unfold seqM. now intros ->. Qed.
Lemma seq_unwound {S A B} (m : M S A) (k : A -> M S B) s s' : m s = Unwound s' -> (x <- m ;; k x) s = Unwound s'.
Proof. unfold seqM. now intros ->. Qed.

(** ** Lengths *)

Lemma isize_usize : 0 < isize_max < usize_max. Proof. unfold isize_max, usize_max. lia. Qed.

Lemma x_prod_checked dims : forall acc, nonneg dims -> 0 <= acc ->
  x_prod true acc dims = match checked_len_from acc dims with Some n => Ok n | None => Panic end.
Proof.
  induction dims as [|d dims IH]; intros acc HN HA; cbn [x_prod checked_len_from]; [reflexivity|].
  inversion HN; subst. assert (0 <= acc * d) by nia. unfold u_res, u_fits.
  destruct (Z.leb_spec 0 (acc * d)); [|lia]. cbn [andb].
  destruct (Z.leb_spec (acc * d) usize_max); cbn [bind]; [apply IH; auto|reflexivity].
Qed.

Lemma x_len_checked dims : nonneg dims -> x_len true dims = match sh_checked_len dims with Some n => Ok n | None => Panic end.
Proof. intros H. apply x_prod_checked; auto. lia. Qed.

Lemma counted_len dbg dims : nonneg dims -> counted dbg dims -> x_len dbg dims = Ok (prodZ dims).
Proof.
  intros HN [HP HF]. destruct dbg.
  - rewrite x_len_checked by auto. rewrite checked_len_fits by auto. reflexivity.
  - rewrite x_len_wrap, as_usize_fit; [reflexivity|]. split; [now apply prodZ_nonneg|exact HP].
Qed.

Lemma counted_checked dims : counted true dims -> sh_checked_len dims = Some (prodZ dims).
Proof. intros [_ H]. apply checked_len_fits. auto. Qed.

Lemma uncounted dims : nonneg dims -> ~ fits dims -> x_len true dims = Panic.
Proof. intros HN H. rewrite x_len_checked by auto. destruct (checked_len_cases dims) as [F| ->]; [now elim H|reflexivity]. Qed.

Lemma prodZ_mono a b : Forall2 Z.le a b -> nonneg a -> 0 <= prodZ a <= prodZ b.
Proof.
  induction 1 as [|x y a b L H IH]; intros HN; [cbn; lia|]. inversion HN; subst. rewrite !prodZ_cons.
  specialize (IH ltac:(assumption)). nia.
Qed.
Lemma Forall2_firstn {A B} (R : A -> B -> Prop) a b k : Forall2 R a b -> Forall2 R (firstn k a) (firstn k b).
Proof. intros H. revert k. induction H; intros [|k]; cbn; constructor; auto. Qed.

Lemma fits_mono a b : Forall2 Z.le a b -> nonneg a -> fits b -> fits a.
Proof.
  intros H HN HF k. specialize (HF k). pose proof (prodZ_mono (Forall2_firstn k H) (nonneg_firstn k HN)). lia.
Qed.
Lemma counted_mono dbg a b : Forall2 Z.le a b -> nonneg a -> counted dbg b -> counted dbg a.
Proof.
  intros H HN [H1 H2]. split; [pose proof (prodZ_mono H HN); lia|]. intros D. eapply fits_mono; eauto.
Qed.
Lemma counted_positive dbg dims : positive dims -> prodZ dims <= usize_max -> counted dbg dims.
Proof. intros H HP. split; auto. intros _. now apply fits_positive. Qed.
Lemma counted_fits dbg dims : fits dims -> counted dbg dims.
Proof. intros H. split; auto. specialize (H (length dims)). now rewrite firstn_all in H. Qed.

Lemma le_refl2 dims : Forall2 Z.le dims dims.
Proof. induction dims; constructor; auto. lia. Qed.
Lemma le_upd dims i n : n <= nth i dims 0 -> Forall2 Z.le (upd dims i n) dims.
Proof. revert i. induction dims as [|d dims IH]; intros [|i] H; cbn in *; constructor; auto using le_refl2; lia. Qed.
Lemma counted_upd dbg dims i n : nonneg dims -> 0 <= n <= nth i dims 0 -> counted dbg dims -> counted dbg (upd dims i n).
Proof.
  intros HN Hn. apply counted_mono; [apply le_upd; lia|]. apply nonneg_upd; auto. lia.
Qed.
Lemma machine_upd dims i n : machine_dims dims -> n <= usize_max -> machine_dims (upd dims i n).
Proof. intros H Hn. revert i. induction H as [|d ds Hd H IH]; intros [|i]; cbn; constructor; auto. now apply IH. Qed.

Lemma default_le ty dims : typed ty dims -> nonneg dims -> ty = SDynRank \/ Forall2 Z.le (sh_default ty) dims.
Proof.
  destruct ty as [|ds]; cbn; auto. intros H HN. right. revert HN. induction H as [|d n ds dims Hd H IH]; intros HN; cbn; [constructor|].
  inversion HN; subst. constructor; [destruct d; cbn in *; lia|auto].
Qed.
Lemma fits_one : fits [0].
Proof. intros [|[|k]]; cbn; unfold usize_max; lia. Qed.
Lemma counted_default dbg ty dims : typed ty dims -> nonneg dims -> counted dbg dims -> counted dbg (sh_default ty).
Proof.
  intros HT HN HC. destruct (default_le HT HN) as [->|H].
  - apply counted_fits. exact fits_one.
  - eapply counted_mono; eauto. eapply default_nonneg; eauto.
Qed.
Lemma machine_default ty dims : typed ty dims -> nonneg dims -> machine_dims dims -> machine_dims (sh_default ty).
Proof.
  intros HT HN HC. destruct (default_le HT HN) as [->|H].
  - repeat constructor. unfold usize_max. lia.
  - unfold machine_dims in *. clear HT HN. induction H; inversion HC; subst; constructor; auto. lia.
Qed.

(** ** Traces *)

Lemma x_new_counted dbg {A} (e : expression A) :
  nonneg (e_dims e) -> machine_dims (e_dims e) -> counted dbg (skipn (outer_rank e) (e_dims e)) ->
  x_it_new dbg e = Ok (it_new e) /\ iter_ok (it_new e).
Proof.
  intros HN HD HM. pose proof (nonneg_skipn (outer_rank e) HN) as HS. pose proof (prodZ_nonneg HS) as HP. pose proof usize_pos.
  assert (HL : prodZ (skipn (outer_rank e) (e_dims e)) <= usize_max) by apply HM.
  split.
  - unfold x_it_new. pose proof (@counted_len dbg _ HS HM) as E. unfold x_len in E. rewrite E. cbn [bind]. f_equal. unfold it_new. f_equal.
    rewrite fold_mul_prod. lia.
  - constructor.
    + intros i. unfold it_new. cbn [it_outer it_olimit]. destruct (0 <? outer_rank e)%nat.
      * rewrite nth_repeat. lia.
      * destruct i; cbn; lia.
    + intros i. unfold it_new. cbn [it_olimit]. destruct (0 <? outer_rank e)%nat; [|destruct i; cbn; lia].
      destruct (Nat.lt_ge_cases i (e_rank e)) as [L|L]; [|rewrite nth_overflow by exact L; lia].
      unfold machine_dims in HD. rewrite Forall_forall in HD. apply HD, nth_In, L.
    + rewrite new_limit. cbn. lia.
    + rewrite new_limit. lia.
    + reflexivity.
    + unfold it_new. cbn [it_outer it_olimit]. destruct (0 <? outer_rank e)%nat; [apply repeat_length|reflexivity].
    + apply new_limit.
Qed.

Lemma x_loop_trace_ok dbg {A} {e : expression A} fuel : forall (it : iter e), iter_ok it ->
  x_loop_trace dbg fuel it = loop_trace fuel it.
Proof.
  induction fuel as [|k IH]; intros it HI; cbn [x_loop_trace loop_trace]; [reflexivity|].
  destruct (inner_trace e _ _ _) as [xs o]. destruct o as [st| | |]; auto.
  assert (HI' : iter_ok (mkIter st (it_index it) (it_limit it) (it_outer it) (it_olimit it))) by (destruct HI; constructor; auto).
  destruct (x_step_outer_ok dbg HI') as [E HB]. rewrite E.
  destruct (step_outer _) as [[b it']| | |] eqn:ES; auto. destruct (HB _ _ eq_refl) as (OK & E1 & E2).
  destruct b; auto. rewrite IH; auto. destruct OK as [O1 O2 O3 O4 O5 O6 O7]. constructor; cbn; auto. lia.
Qed.

Lemma x_trace_ok dbg {A} (e : expression A) : nonneg (e_dims e) -> machine_operand dbg e -> x_trace dbg e = e_trace e.
Proof.
  intros HN (H1 & _ & H3). destruct (@x_new_counted dbg A e HN H1 H3) as [E HI].
  unfold x_trace, e_trace. rewrite E. now apply x_loop_trace_ok.
Qed.

(** ** Code inside [with_mut_parts] *)

(** The mapping and the capacity are small. *)
Record psmall (dbg : bool) {T C} (p : parts T C) : Prop := {
  ps_nonneg : nonneg (p_dims p);
  ps_dims : machine_dims (p_dims p);
  ps_count : counted dbg (p_dims p);
  ps_cap : p_cap p <= isize_max;
  ps_len : zlen (p_items p) <= p_cap p
}.
Definition psmall_res dbg {T C A} (r : result (parts T C) A) : Prop :=
  match r with Done _ p | Unwound p => psmall dbg p | _ => True end.
Definition small_res dbg {T C A} (r : result (tensor T * world T C) A) : Prop :=
  match r with Done _ s | Unwound s => small dbg (fst s) | _ => True end.

Lemma x_to_vec_ok dbg {T} (t : tensor T) : tensor_ok t -> small dbg t -> xt_to_vec dbg t = Ok (tn_mem t).
Proof.
  intros Ht [_ HC _]. unfold xt_to_vec. rewrite (counted_len (to_nonneg Ht) HC). cbn [bind].
  unfold zlen. rewrite (to_len Ht), Z.eqb_refl. reflexivity.
Qed.

Lemma x_guard_ok dbg {T C A} (t : tensor T) (p : parts T C) (w : world T C) (m : shty -> M (parts T C) A) :
  tensor_ok t -> small dbg t -> psmall dbg p ->
  m (tn_ty t) (mkParts (tn_mem t) (tn_cap t) (tn_dims t) w) = Unwound p ->
  xt_guard dbg (tn_ty t) p = with_mut_parts m (t, w) /\ small_res dbg (with_mut_parts m (t, w)).
Proof.
  intros Ht [S1 S2 S3] [P1 P2 P3 P4 P5] E. unfold xt_guard, with_mut_parts. rewrite (to_vec_ok Ht), E, !sh_len_prod.
  rewrite (counted_len P1 P3).
  pose proof (counted_default (to_typed Ht) (to_nonneg Ht) S2) as HD.
  pose proof (default_nonneg (to_typed Ht) (to_nonneg Ht)) as HN.
  rewrite (counted_len HN HD).
  destruct (zlen (p_items p) =? prodZ (p_dims p)); [split; [reflexivity|constructor; auto]|].
  destruct (prodZ (sh_default (tn_ty t)) =? 0); (split; [reflexivity|]); [|exact I].
  constructor; cbn [fst tn_dims tn_cap]; auto. eapply machine_default; eauto using to_typed, to_nonneg.
Qed.

Lemma x_wmp dbg {T C A} (m m' : shty -> M (parts T C) A) (t : tensor T) (w : world T C) :
  tensor_ok t -> small dbg t ->
  m' (tn_ty t) (mkParts (tn_mem t) (tn_cap t) (tn_dims t) w) = m (tn_ty t) (mkParts (tn_mem t) (tn_cap t) (tn_dims t) w) ->
  psmall_res dbg (m (tn_ty t) (mkParts (tn_mem t) (tn_cap t) (tn_dims t) w)) ->
  with_mut_parts m (t, w) <> Fault ->
  xt_with_mut_parts dbg m' (t, w) = with_mut_parts m (t, w) /\ small_res dbg (with_mut_parts m (t, w)).
Proof.
  intros Ht HS EM HP HF. unfold xt_with_mut_parts. rewrite (x_to_vec_ok Ht HS), EM.
  destruct (m _ _) as [a p|p| |] eqn:E.
  - cbn [psmall_res] in HP. destruct HP as [P1 P2 P3 P4 P5]. unfold with_mut_parts in *. rewrite (to_vec_ok Ht), E, sh_len_prod in *.
    assert (EQ : (zlen (p_items p) =? prodZ (p_dims p)) = true) by (destruct (_ =? _); [reflexivity|congruence]).
    rewrite EQ. destruct dbg.
    + rewrite (counted_checked P3), EQ. split; [reflexivity|constructor; auto].
    + rewrite (counted_len P1 P3), EQ. split; [reflexivity|constructor; auto].
  - now apply x_guard_ok.
  - unfold with_mut_parts. rewrite (to_vec_ok Ht), E. split; [reflexivity|exact I].
  - unfold with_mut_parts in HF. rewrite (to_vec_ok Ht), E in HF. congruence.
Qed.

Lemma start_small dbg {T C} (t : tensor T) (w : world T C) : tensor_ok t -> small dbg t ->
  psmall dbg (mkParts (tn_mem t) (tn_cap t) (tn_dims t) w).
Proof. intros Ht [H1 H2 H3]. constructor; auto; [apply (to_nonneg Ht)|apply (to_cap Ht)]. Qed.

(** ** Operations that do not compute *)

Lemma small_unchanged dbg {T C} (p p' : parts T C) :
  psmall dbg p -> p_dims p' = p_dims p -> p_cap p' <= p_cap p -> zlen (p_items p') <= p_cap p' -> psmall dbg p'.
Proof. intros [H1 H2 H3 H4 H5] E1 E2 E3. constructor; rewrite ?E1; auto. lia. Qed.

Definition pkeeps dbg {T C A} (m : M (parts T C) A) : Prop := keeps (@psmall dbg T C) m.

Lemma keeps_reserve dbg {T C} al n : al_machine al -> @pkeeps dbg T C unit (vec_reserve al n).
Proof.
  intros HA p HP. unfold vec_reserve. destruct (Z.leb_spec (zlen (p_items p) + n) (p_cap p)); auto. destruct (al_ok al _) eqn:E; auto.
  destruct (HA _ E) as [H1 H2]. specialize (H2 (p_cap p)). destruct HP as [P1 P2 P3 P4 P5]. constructor; auto; cbn [p_cap p_items]; lia.
Qed.
Lemma keeps_truncate dbg {T C} n : @pkeeps dbg T C unit (vec_truncate n).
Proof.
  intros p HP. pose proof (ps_len HP). eapply small_unchanged; eauto; cbn; auto; [lia|]. unfold zlen in *. rewrite firstn_length. lia.
Qed.
Lemma keeps_call dbg {T C} (f : C -> call T C) : @pkeeps dbg T C T (vec_call f).
Proof. intros p HP. unfold vec_call. pose proof (ps_len HP). destruct (f _); eapply small_unchanged; try exact HP; cbn; auto; lia. Qed.
Lemma keeps_write dbg {T C} (x : T) : @pkeeps dbg T C unit (vec_write x).
Proof.
  intros p HP. unfold vec_write. destruct (Z.ltb_spec (zlen (p_items p)) (p_cap p)); auto.
  eapply small_unchanged; eauto; cbn; auto; [lia|]. unfold zlen in *. rewrite app_length. cbn. lia.
Qed.
Lemma keeps_clones dbg {T Y C} (cl : Y -> C -> call T C) ys : @pkeeps dbg T C unit (clone_loop cl ys).
Proof.
  induction ys as [|y ys IH]; cbn [clone_loop]; [intros p HP; exact HP|].
  apply keeps_seq; [apply keeps_call|]. intros x. apply keeps_seq; [apply keeps_write|]. intros _. exact IH.
Qed.
Lemma keeps_lift dbg {T C A} (o : outcome A) : @pkeeps dbg T C A (lift o).
Proof. intros p HP. unfold lift. destruct o; auto. Qed.
Lemma keeps_check dbg {T C} b : @pkeeps dbg T C unit (check b).
Proof. intros p HP. unfold check. destruct b; auto. Qed.
Lemma keeps_dims dbg {T C} d : nonneg d -> machine_dims d -> counted dbg d -> @pkeeps dbg T C unit (p_set_dims d).
Proof. intros H1 H2 H3 p [P1 P2 P3 P4 P5]. now constructor. Qed.
Lemma store_id ty dims d : sh_store ty dims = Ok d -> d = dims.
Proof. destruct ty as [|ds]; cbn; [now intros [= ->]|]. destruct (from_sizes ds dims); cbn; try discriminate. now intros [= ->]. Qed.
Lemma keeps_store dbg {T C} ty d : nonneg d -> machine_dims d -> counted dbg d -> @pkeeps dbg T C unit (p_store ty d).
Proof.
  intros H1 H2 H3 p [P1 P2 P3 P4 P5]. unfold p_store, seqM, lift. destruct (sh_store ty d) as [d'| | |] eqn:E; auto; [|now constructor].
  apply store_id in E. subst d'. now constructor.
Qed.

(** ** [expand] *)

Lemma x_expand_dims_ok dbg {T C} ty src (p : parts T C) :
  nonneg (p_dims p) -> counted dbg (p_dims p) -> nonneg src -> 0 < prodZ src ->
  prodZ (p_dims p) + prodZ src <= usize_max -> p_dims p <> [] ->
  xt_expand_dims dbg ty src p = expand_dims ty src p.
Proof.
  intros HN HC HS HP HL HD. unfold xt_expand_dims, expand_dims, x_is_empty, sh_is_empty, seqM, lift.
  rewrite (counted_len HN HC), sh_len_prod. cbn [bind].
  destruct (Z.eqb_spec (prodZ (p_dims p)) 0) as [E|E]; [reflexivity|].
  unfold check. destruct (Nat.eqb_spec (length src) (length (p_dims p))) as [EL|]; [|reflexivity].
  destruct (slice_eqb (tl src) (tl (p_dims p))) eqn:ES; [|reflexivity]. apply slice_eqb_eq in ES.
  assert (HSD : src <> []) by (destruct src, (p_dims p); cbn in *; congruence).
  pose proof (prodZ_nonneg HN) as H0.
  rewrite (dims_cons HD), prodZ_cons in HL, H0, E. rewrite (dims_cons HSD), prodZ_cons, ES in HL, HP.
  rewrite (dims_cons HD) in HN. rewrite (dims_cons HSD) in HS. inversion HN as [|? ? Hn HN2]. inversion HS as [|? ? Hs HS2]. subst.
  pose proof (prodZ_nonneg HN2). assert (1 <= prodZ (tl (p_dims p))) by nia.
  rewrite u_res_fit by (unfold is_usize; nia). reflexivity.
Qed.

Lemma grown_small dbg dims src :
  nonneg dims -> machine_dims dims -> nonneg src -> machine_dims src -> counted dbg src -> 0 < prodZ src ->
  prodZ dims + prodZ src <= isize_max -> dims <> [] -> length src = length dims \/ prodZ dims = 0 -> tl src = tl dims \/ prodZ dims = 0 ->
  nonneg (grown dims src) /\ machine_dims (grown dims src) /\ counted dbg (grown dims src).
Proof.
  intros HN HM HS HMs HC HP HL HD EL ET. unfold grown. destruct (Z.eqb_spec (prodZ dims) 0) as [E|E]; [auto|].
  destruct EL as [EL|]; [|contradiction]. destruct ET as [ET|]; [|contradiction].
  assert (HSD : src <> []) by (destruct src, dims; cbn in *; congruence).
  pose proof (prodZ_nonneg HN) as H0. pose proof isize_usize. 
  assert (PD : positive dims) by (apply prodZ_pos_inv; auto; lia).
  assert (PS : positive src) by (apply prodZ_pos_inv; auto; lia).
  destruct dims as [|d dims]; [congruence|]. destruct src as [|x src]; [congruence|]. cbn [tl nth upd] in *. subst src.
  inversion PD as [|? ? Hd PD2]; subst. inversion PS as [|? ? Hx PS2]; subst. rewrite !prodZ_cons in *. pose proof (prodZ_pos PD2).
  split; [|split].
  - inversion HN; subst. constructor; auto. lia.
  - inversion HM; subst. constructor; auto. nia.
  - apply counted_positive; [constructor; auto; lia|]. rewrite prodZ_cons. lia.
Qed.

Lemma x_clone_into_ok dbg {T Y C} (e : expression Y) (cl : Y -> C -> call T C) p :
  nonneg (e_dims e) -> machine_operand dbg e -> psmall dbg p -> xt_clone_into_vec dbg e cl p = clone_into_vec e cl p.
Proof.
  intros HN HO [P1 P2 P3 P4 P5]. unfold xt_clone_into_vec, clone_into_vec, seqM. unfold lift at 1 2.
  rewrite (@counted_len dbg _ HN) by apply HO. pose proof (@zlen_nonneg _ (p_items p)). pose proof isize_usize.
  rewrite u_res_fit by (unfold is_usize; lia). rewrite sh_len_prod, x_trace_ok by auto. reflexivity.
Qed.
Lemma keeps_clone_into dbg {T Y C} (e : expression Y) (cl : Y -> C -> call T C) : @pkeeps dbg T C unit (clone_into_vec e cl).
Proof.
  intros p. revert p. apply (@keeps_seq (parts T C) unit unit (psmall dbg)
    (fun p => check (sh_len (e_dims e) <=? p_cap p - zlen (p_items p)) p)).
  - intros p. apply keeps_check.
  - intros _. apply keeps_seq; [apply keeps_clones|]. intros _. apply keeps_lift.
Qed.

(** ** [resize] *)

Lemma seq_ext {S A B} (m m' : M S A) (k k' : A -> M S B) s :
  m s = m' s -> (forall a s, k a s = k' a s) -> seqM m k s = seqM m' k' s.
Proof. intros H K. unfold seqM. rewrite H. destruct (m' s); auto. Qed.

Lemma timesM_ext {S} (m m' : M S unit) n s : (forall s, m s = m' s) -> timesM n m s = timesM n m' s.
Proof.
  intros H. revert s. induction n as [|n IH]; intros s; cbn [timesM]; [reflexivity|]. unfold seqM. rewrite H. destruct (m' s); auto.
Qed.

Lemma counted_tail dbg d ot : nonneg (d :: ot) -> 0 < d -> counted dbg (d :: ot) -> counted dbg ot.
Proof.
  intros HN Hd [H1 H2]. inversion HN as [|? ? _ HO]; subst. pose proof (prodZ_nonneg HO). rewrite prodZ_cons in H1. split; [nia|].
  intros D k. specialize (H2 D (S k)). cbn [firstn] in H2. rewrite prodZ_cons in H2. pose proof (prodZ_nonneg (nonneg_firstn k HO)). nia.
Qed.

Lemma overflow_tail d ot : 0 < d -> stride_overflow ot -> stride_overflow (d :: ot).
Proof. intros Hd (a & b & -> & HP & HF). exists (d :: a), b. split; [reflexivity|]. split; auto. constructor; auto. Qed.

Lemma x_copy_ok dbg {T C} (f : C -> call T C) od : forall nd c,
  length od = length nd -> nonneg od -> machine_dims od -> positive nd -> machine_dims nd -> counted dbg od -> prodZ nd <= usize_max ->
  (dbg = true -> ~ stride_overflow od) -> xt_copy_dim dbg f od nd c = copy_dim f od nd c.
Proof.
  induction od as [|d ot IH]; intros [|n nt] c HL HN HM HP HMn HC HB HO; cbn [xt_copy_dim copy_dim]; try discriminate; [reflexivity|].
  inversion HN as [|? ? Hd HNo]; subst. inversion HP as [|? ? Hn HPn]; subst. inversion HM as [|? ? Md Mo]; subst. inversion HMn as [|? ? Mn Mt]; subst.
  pose proof (prodZ_pos HPn) as PN. rewrite prodZ_cons in HB. injection HL as HL.
  assert (HNn : nonneg nt) by (eapply Forall_impl; [|exact HPn]; cbn; intros; lia).
  assert (HCn : counted dbg nt) by (apply counted_positive; auto; nia).
  rewrite !sh_len_prod. cbv zeta.
  assert (EN : forall c, (k <- lift (u_res dbg (n - Z.min d n)) ;; n0 <- lift (u_res dbg (k * prodZ nt)) ;; timesM (Z.to_nat n0) (copy_new f)) c
     = timesM (Z.to_nat ((n - Z.min d n) * prodZ nt)) (copy_new f) c).
  { intros c0. rewrite (@seq_done _ _ _ _ _ _ (n - Z.min d n) c0) by (unfold lift; rewrite u_res_fit; [reflexivity|unfold is_usize; lia]).
    rewrite (@seq_done _ _ _ _ _ _ ((n - Z.min d n) * prodZ nt) c0); [reflexivity|]. unfold lift. rewrite u_res_fit; [reflexivity|unfold is_usize; nia]. }
  assert (EL : exists s, x_len dbg ot = Ok s /\ (0 < d -> s = prodZ ot)).
  { destruct (Z.eq_dec d 0) as [->|ND].
    - destruct dbg.
      + destruct (checked_len_cases ot) as [F|F].
        * exists (prodZ ot). split; [|lia]. apply counted_len; auto. now apply counted_fits.
        * elim (HO eq_refl). exists [], ot. split; [reflexivity|]. split; [constructor|]. intros F'. apply checked_len_fits in F'. congruence.
      + exists (as_usize (prodZ ot)). split; [apply x_len_wrap|lia].
    - exists (prodZ ot). split; auto. apply counted_len; auto. eapply counted_tail; eauto. lia. }
  destruct EL as (os & EL & EO).
  rewrite (@seq_done _ _ _ _ _ _ os c) by (unfold lift; now rewrite EL).
  rewrite (@seq_done _ _ _ _ _ _ (prodZ nt) c) by (unfold lift; now rewrite (counted_len HNn HCn)).
  assert (ER : forall c, match ot with [] => copy_move (Z.min d n) | _ :: _ => timesM (Z.to_nat (Z.min d n)) (xt_copy_dim dbg f ot nt) end c
     = match ot with [] => copy_move (Z.min d n) | _ :: _ => timesM (Z.to_nat (Z.min d n)) (copy_dim f ot nt) end c).
  { intros c0. destruct ot as [|o ot']; [reflexivity|]. destruct (Z.eq_dec d 0) as [->|ND].
    - replace (Z.min 0 n) with 0 by lia. reflexivity.
    - apply timesM_ext. intros s. apply IH; auto; try nia.
      + eapply counted_tail; eauto. lia.
      + intros D H. apply (HO D). apply overflow_tail; auto. lia. }
  apply seq_ext; [apply ER|]. intros _ s. apply seq_ext; [|intros _ s'; apply EN].
  destruct (Z.ltb_spec (Z.min d n) d) as [L|L]; [|reflexivity].
  assert (0 < d) by lia. rewrite EO in * by auto. destruct HC as [HC _]. rewrite prodZ_cons in HC. pose proof (prodZ_nonneg HNo).
  rewrite (@seq_done _ _ _ _ _ _ (d - Z.min d n) s) by (unfold lift; rewrite u_res_fit; [reflexivity|unfold is_usize; lia]).
  rewrite (@seq_done _ _ _ _ _ _ ((d - Z.min d n) * prodZ ot) s) by (unfold lift; rewrite u_res_fit; [reflexivity|unfold is_usize; nia]).
  reflexivity.
Qed.

Lemma x_copy_panics {T C} (f : C -> call T C) a b : forall nd (c : copying T C), let od := a ++ 0 :: b in
  positive a -> ~ fits b -> nonneg od -> counted true od -> length od = length nd -> positive nd -> prodZ nd <= usize_max ->
  xt_copy_dim true f od nd c = Unwound c.
Proof.
  induction a as [|x a IH]; intros [|n nt] c od HA HF HN HC HL HP HB; try discriminate; unfold od in *; cbn [app] in *.
  - cbn [xt_copy_dim]. apply seq_unwound. unfold lift. inversion HN; subst. rewrite uncounted by auto. reflexivity.
  - inversion HA as [|? ? Hx HA']; subst. inversion HP as [|? ? Hn HPn]; subst. injection HL as HL. rewrite prodZ_cons in HB.
    inversion HN as [|? ? _ HNo]; subst. pose proof (prodZ_pos HPn) as PN.
    assert (HNn : nonneg nt) by (eapply Forall_impl; [|exact HPn]; cbn; intros; lia).
    assert (HCn : counted true nt) by (apply counted_positive; auto; nia).
    assert (HCo : counted true (a ++ 0 :: b)) by (eapply counted_tail; eauto).
    cbn [xt_copy_dim].
    rewrite (@seq_done _ _ _ _ _ _ (prodZ (a ++ 0 :: b)) c) by (unfold lift; now rewrite (counted_len HNo HCo)).
    rewrite (@seq_done _ _ _ _ _ _ (prodZ nt) c) by (unfold lift; now rewrite (counted_len HNn HCn)).
    cbv zeta. apply seq_unwound. destruct (a ++ 0 :: b) as [|y l] eqn:E; [now destruct a|]. rewrite <- E in *.
    replace (Z.to_nat (Z.min x n)) with (S (Z.to_nat (Z.min x n) - 1)) by lia. cbn [timesM]. apply seq_unwound.
    apply IH; auto. nia.
Qed.

(** The copy stays within its capacity. *)
Definition csmall {T C} (cap : Z) (c : copying T C) : Prop := c_cap c = cap /\ zlen (c_new c) <= cap.
Lemma copy_dim_small {T C} (f : C -> call T C) cap old new : keeps (@csmall T C cap) (copy_dim f old new).
Proof.
  assert (K1 : forall n, keeps (@csmall T C cap) (copy_move n)).
  { intros n c [E H]. unfold copy_move. destruct (Z.leb_spec n (zlen (c_old c))); cbn [andb]; [|exact I].
    destruct (Z.leb_spec (zlen (c_new c) + n) (c_cap c)); [|exact I]. split; [exact E|]. cbn [c_new]. unfold zlen in *. rewrite app_length, firstn_length. lia. }
  assert (K2 : forall n, keeps (@csmall T C cap) (copy_drop n)).
  { intros n c [E H]. unfold copy_drop. destruct (_ <=? _); [|exact I]. split; auto. }
  assert (K3 : keeps (@csmall T C cap) (copy_new f)).
  { intros c [E H]. unfold copy_new. destruct (f _); [|split; auto]. destruct (Z.ltb_spec (zlen (c_new c)) (c_cap c)); [|exact I].
    split; [exact E|]. cbn [c_new]. unfold zlen in *. rewrite app_length. cbn. lia. }
  revert new. induction old as [|d ot IH]; intros [|n nt]; cbn [copy_dim]; try (intros c H; exact H).
  apply keeps_seq; [destruct ot; [apply K1|apply keeps_times, IH]|]. intros _.
  apply keeps_seq; [destruct (_ <? _); [apply K2|intros c H; exact H]|]. intros _. now apply keeps_times.
Qed.

Lemma keeps_resize_with dbg {T C} al n (f : C -> call T C) : al_machine al -> @pkeeps dbg T C unit (vec_resize_with al n f).
Proof.
  intros HA p HP. unfold vec_resize_with. destruct (_ <? _); [|now apply keeps_truncate]. revert p HP.
  intros p HP. apply (@keeps_seq _ _ _ (psmall dbg) (vec_reserve al (n - zlen (p_items p)))); auto.
  - now apply keeps_reserve.
  - intros _. apply keeps_times. apply keeps_seq; [apply keeps_call|]. intros x. apply keeps_write.
Qed.

Lemma keeps_resize_copy dbg {T C} al n new (f : C -> call T C) : al_machine al -> 0 <= n -> @pkeeps dbg T C unit (resize_copy al n new f).
Proof.
  intros HA Hn p HP. unfold resize_copy. destruct (al_ok al n) eqn:E; [|exact HP]. destruct (HA _ E) as [H1 H2]. specialize (H2 0).
  set (c0 := mkCopy _ _ _ _). assert (HC : csmall (Z.max n (al_grow al 0 n)) c0) by (split; cbn; [reflexivity|unfold zlen; cbn; lia]).
  pose proof (copy_dim_small f (p_dims p) new HC) as HK. destruct HP as [P1 P2 P3 P4 P5].
  destruct (copy_dim f (p_dims p) new c0) as [a c|c| |]; auto; destruct HK as [K1 K2]; constructor; cbn [p_dims p_cap p_items]; auto; try lia.
  unfold zlen in *. cbn. lia.
Qed.

Section Ops.
  Context (dbg : bool) {T C : Type} (al : allocator) (t : tensor T) (w : world T C).
  Hypothesis HA : al_machine al.
  Hypothesis Ht : tensor_ok t.
  Hypothesis HS : small dbg t.

  (** The machine operation gives what the exact one does, and leaves a small tensor. *)
  Definition same_small {A} (x r : result (tensor T * world T C) A) : Prop := r <> Fault -> x = r /\ small_res dbg r.

  Lemma keeps_wmp {A} (m : shty -> M (parts T C) A) : pkeeps dbg (m (tn_ty t)) ->
    same_small (xt_with_mut_parts dbg m (t, w)) (with_mut_parts m (t, w)).
  Proof. intros HK HF. apply x_wmp; auto. apply HK. now apply start_small. Qed.

  Lemma x_reserve_ok n : same_small (xt_reserve dbg al n (t, w)) (tn_reserve al n (t, w)).
  Proof. apply keeps_wmp. now apply keeps_reserve. Qed.
  Lemma x_try_reserve_ok n : same_small (xt_try_reserve dbg al n (t, w)) (tn_try_reserve al n (t, w)).
  Proof.
    apply keeps_wmp. intros p HP. unfold vec_try_reserve. pose proof (@keeps_reserve dbg T C al n HA p HP) as H.
    destruct (vec_reserve al n p); auto.
  Qed.
  Lemma x_shrink_ok n : same_small (xt_shrink_to dbg n (t, w)) (tn_shrink_to n (t, w)).
  Proof. apply keeps_wmp. intros p HP. pose proof (ps_len HP). eapply small_unchanged; eauto; cbn; auto; unfold zlen in *; lia. Qed.

  Lemma x_clear_ok : same_small (xt_clear dbg (t, w)) (tn_clear (t, w)).
  Proof.
    pose proof (counted_default (to_typed Ht) (to_nonneg Ht) (sm_count HS)) as HD.
    pose proof (default_nonneg (to_typed Ht) (to_nonneg Ht)) as HN.
    unfold same_small, xt_clear, tn_clear, seqM, check, lift. cbn [fst]. rewrite (counted_len HN HD), sh_len_prod.
    destruct (_ =? 0); [|intros _; split; [reflexivity|exact HS]].
    apply keeps_wmp. apply keeps_seq; [apply keeps_truncate|]. intros _. apply keeps_dims; auto.
    eapply machine_default; eauto using to_typed, to_nonneg, sm_dims.
  Qed.

  Lemma x_extend_ok ys : same_small (xt_extend dbg al ys (t, w)) (tn_extend al ys (t, w)).
  Proof.
    intros HF. apply x_wmp; auto.
    assert (HK : pkeeps dbg (vec_extend al ys)).
    { clear HF. induction ys as [|f ys IH]; cbn [vec_extend]; [intros p HP; exact HP|].
      apply keeps_seq; [apply keeps_call|]. intros x. apply keeps_seq; [|intros _; apply keeps_seq; [apply keeps_write|auto]].
      intros p HP. pose proof (@keeps_reserve dbg T C al 1 HA p HP) as H. destruct (vec_reserve al 1 p); auto.
      pose proof (ps_len H). eapply small_unchanged; eauto; cbn; auto; unfold zlen in *; lia. }
    unfold seqM. specialize (HK _ (start_small w Ht HS)).
    destruct (vec_extend al ys _) as [a p|p| |] eqn:E; auto. cbn.
    destruct HK as [P1 P2 P3 P4 P5].
    pose proof (@zlen_nonneg _ (p_items p)). pose proof isize_usize.
    assert (EP : prodZ [zlen (p_items p)] = zlen (p_items p)) by (rewrite prodZ_cons; change (prodZ []) with 1; lia).
    constructor; cbn [p_dims p_cap p_items]; auto.
    - now repeat constructor.
    - repeat constructor. lia.
    - apply counted_fits. intros [|[|k]]; cbn [firstn]; rewrite ?firstn_nil, ?EP; [unfold usize_max; cbn; lia|lia|lia].
  Qed.

  Lemma x_truncate_ok n : 0 <= n -> same_small (xt_truncate dbg n (t, w)) (tn_truncate n (t, w)).
  Proof.
    intros Hn. unfold same_small, xt_truncate, tn_truncate, seqM. rewrite check_outer_spec.
    destruct (outer_ok t); [|intros _; split; [reflexivity|exact HS]]. cbn [fst].
    destruct (Z.ltb_spec n (nth 0 (tn_dims t) 0)) as [L|L]; [|intros _; split; [reflexivity|exact HS]].
    pose proof (to_nonneg Ht) as HN. destruct HS as [S1 S2 S3].
    assert (HC : counted dbg (upd (tn_dims t) 0 n)) by (apply counted_upd; auto; lia).
    assert (HN' : nonneg (upd (tn_dims t) 0 n)) by (apply nonneg_upd; auto).
    assert (HM : machine_dims (upd (tn_dims t) 0 n)).
    { apply machine_upd; auto. pose proof isize_usize. destruct S1; cbn in *; lia. }
    intros HF. apply x_wmp; auto; cbn [p_dims].
    - unfold p_store, lift. destruct (sh_store _ _) as [d| | |] eqn:E; auto. apply store_id in E. subst d.
      cbn [p_dims]. unfold seqM. cbn [p_dims]. rewrite (counted_len HN' HC), sh_len_prod. reflexivity.
    - pose proof (@keeps_store dbg T C (tn_ty t) _ HN' HM HC _ (start_small w Ht HS)) as HK.
      destruct (p_store _ _ _) as [a p|p| |]; auto. now apply keeps_truncate.
  Qed.

  Lemma x_expand_ok {Y} (e : expression Y) (cl : Y -> C -> call T C) : nonneg (e_dims e) -> machine_operand dbg e ->
    same_small (xt_expand dbg al e cl (t, w)) (tn_expand al e cl (t, w)).
  Proof.
    intros HN HO. destruct HO as (HM & HC & HI). assert (HO : machine_operand dbg e) by (repeat split; auto; apply HC || apply HI).
    unfold same_small, xt_expand, tn_expand. pose proof (check_outer_spec t w) as EC.
    destruct (outer_ok t) eqn:OO; [|rewrite !(seq_unwound _ EC); intros _; split; [reflexivity|exact HS]].
    rewrite !(seq_done _ EC), sh_len_prod. cbv zeta.
    rewrite (@seq_done _ _ _ (lift (x_len dbg (e_dims e))) _ _ (prodZ (e_dims e)) (t, w)) by (unfold lift; now rewrite (counted_len HN HC)).
    destruct (Z.ltb_spec 0 (prodZ (e_dims e))) as [HP|HP]; [|intros _; split; [reflexivity|exact HS]].
    destruct (outer_ok_inv OO) as [HD HH]. intros HF.
    set (p0 := mkParts (tn_mem t) (tn_cap t) (tn_dims t) w).
    enough (HB : (vec_reserve al (prodZ (e_dims e)) ;;; xt_expand_dims dbg (tn_ty t) (e_dims e) ;;; xt_clone_into_vec dbg e cl) p0 =
      (vec_reserve al (prodZ (e_dims e)) ;;; expand_dims (tn_ty t) (e_dims e) ;;; clone_into_vec e cl) p0 /\
      psmall_res dbg ((vec_reserve al (prodZ (e_dims e)) ;;; expand_dims (tn_ty t) (e_dims e) ;;; clone_into_vec e cl) p0))
      by (apply x_wmp; auto; apply HB).
    unfold seqM. pose proof (@keeps_reserve dbg T C al (prodZ (e_dims e)) HA p0 (start_small w Ht HS)) as HK.
    destruct (reserve_cases al (prodZ (e_dims e)) p0) as [(cap & E & L1 & L2)|[E _]]; rewrite E in *; [|split; [reflexivity|exact HK]].
    assert (PL : zlen (p_items p0) = prodZ (tn_dims t)) by exact (to_len Ht).
    pose proof (ps_cap HK) as CK. cbn [p_cap] in CK. pose proof isize_usize. pose proof (to_nonneg Ht) as HNt.
    rewrite x_expand_dims_ok; cbn [p_dims]; auto; try apply HS; try lia; [|unfold p0; cbn [p_dims]; lia].
    set (p1 := mkParts (p_items p0) cap (p_dims p0) (p_w p0)) in *.
    destruct (@expand_dims_spec T C (tn_ty t) (e_dims e) p1 (to_typed Ht) HH HD) as [[G ->]|[G ->]]; [|split; [reflexivity|exact HK]].
    assert (P2 : psmall dbg (mkParts (p_items p1) (p_cap p1) (grown (p_dims p1) (e_dims e)) (p_w p1))).
    { unfold growable in G. change (p_dims p1) with (tn_dims t) in *.
      destruct (@grown_small dbg (tn_dims t) (e_dims e)) as (G1 & G2 & G3); auto; try lia; try apply HS;
        try (destruct (Z.eqb_spec (prodZ (tn_dims t)) 0); tauto).
      constructor; auto. cbn [p_items p_cap p1]. lia. }
    split; [now apply x_clone_into_ok|]. now apply keeps_clone_into.
  Qed.

  Lemma x_resize_ok dims f : nonneg dims -> machine_dims dims ->
    (dbg = true -> 0 < prodZ dims -> ~ stride_overflow (tn_dims t)) ->
    same_small (xt_resize_with dbg al dims f (t, w)) (tn_resize_with al dims f (t, w)).
  Proof.
    intros HN HM HO. unfold same_small, xt_resize_with, tn_resize_with. cbn [fst].
    destruct (Nat.eqb_spec (length dims) (length (tn_dims t))) as [EL|EL]; [|intros _; split; [reflexivity|exact HS]].
    unfold seqM at 1 3 5 6. cbn [check]. destruct dims as [|d ds] eqn:ED; [intros _; split; [reflexivity|exact HS]|]. rewrite <- ED in *.
    destruct (sh_checked_len dims) as [n|] eqn:EC; [|intros _; split; [reflexivity|exact HS]].
    apply checked_len_inv in EC as [-> HF]. pose proof (counted_fits dbg HF) as HC. pose proof (prodZ_nonneg HN) as HP.
    intros NF. set (p0 := mkParts (tn_mem t) (tn_cap t) (tn_dims t) w).
    match goal with |- xt_with_mut_parts dbg ?m' _ = with_mut_parts ?m _ /\ _ =>
      enough (HB : m' (tn_ty t) p0 = m (tn_ty t) p0 /\ psmall_res dbg (m (tn_ty t) p0)) by (apply x_wmp; auto; apply HB) end.
    clear NF. pose proof (start_small w Ht HS) as H0. fold p0 in H0.
    split.
    - unfold seqM. destruct (Z.eqb_spec (prodZ dims) 0) as [E0|E0]; [reflexivity|].
      destruct (slice_eqb _ _); [reflexivity|]. unfold xt_resize_copy, resize_copy.
      destruct (al_ok al (prodZ dims)); [|reflexivity].
      rewrite x_copy_ok; auto; try apply HS; try apply HC.
      + apply (to_nonneg Ht).
      + apply prodZ_pos_inv; auto. lia.
      + intros D. apply HO; auto. lia.
    - revert p0 H0. apply (@keeps_seq _ _ _ (@psmall dbg T C)).
      + intros p HPp. destruct (_ =? 0); [now apply keeps_truncate|]. destruct (slice_eqb _ _); [now apply keeps_resize_with|now apply keeps_resize_copy].
      + intros _. now apply keeps_store.
  Qed.
End Ops.
