(** Destructors that panic: every history keeps all tensors consistent and all elements accounted for. *)
From Verif Require Import Base Spec SpecFacts Shape Mapping Index View Wf MappingFacts MapOps ReshapeFacts.
From Verif Require Import IndexFacts ViewFacts ViewMore Expr ExprSpec ExprFacts IterFacts SourceFacts ExprTree ExprMore.
From Verif Require Import Tensor TraceFacts TensorSpec TensorFacts ResizeFacts TensorOps DrainFacts OwnFacts ZipFacts.
From Verif Require Import History HistoryFacts Dtor.
Unset Strict Implicit.

Section Facts.
  Context {T C : Type} (dtor : T -> C -> call unit C) (al : allocator).

  (** Some destructor can panic. *)
  Definition loud : Prop := exists x c c', dtor x c = Throws c'.

  Lemma drop_seq_cases b xs c :
    (exists c', drop_seq dtor b xs c = Loud c') \/
    (b = false /\ exists c', drop_seq dtor b xs c = Quiet c') \/
    (drop_seq dtor b xs c = Twice /\ loud).
  Proof.
    revert b c. induction xs as [|x xs IH]; intros b c; cbn [drop_seq].
    - destruct b; [left|right; left]; eauto.
    - destruct (dtor x c) as [u c'|c'] eqn:E; [apply IH|]. destruct b.
      + right. right. split; auto. exists x, c, c'. exact E.
      + destruct (IH true c') as [H|[[H _]|H]]; auto. discriminate.
  Qed.

  Lemma drop_seq_quiet (H : forall x c, dtor x c = Gives tt c) b xs c :
    drop_seq dtor b xs c = if b then Loud c else Quiet c.
  Proof. revert c. induction xs as [|x xs IH]; intros c; cbn [drop_seq]; auto. rewrite H. apply IH. Qed.

  Lemma dropping_cases {S A} xs (w : world T C) (a : A) (k : world T C -> S) :
    (exists c, dropping dtor xs w a k = Done a (k (w_drop xs (w_set c w)))) \/
    (exists c, dropping dtor xs w a k = Unwound (k (w_drop xs (w_set c w)))) \/
    (dropping dtor xs w a k = Aborted /\ loud).
  Proof.
    unfold dropping. destruct (drop_seq_cases false xs (w_clo w)) as [(c & ->)|[(_ & c & ->)|[-> H]]]; eauto.
  Qed.

  Lemma unwinding_cases {S A} xs (w : world T C) (k : world T C -> S) :
    (exists c, unwinding (A := A) dtor xs w k = Unwound (k (w_drop xs (w_set c w)))) \/
    (unwinding (A := A) dtor xs w k = Aborted /\ loud).
  Proof.
    unfold unwinding. destruct (drop_seq_cases true xs (w_clo w)) as [(c & ->)|[(H & _)|[-> H]]]; eauto. discriminate.
  Qed.

  Ltac uw c HL :=
    match goal with |- context [@unwinding _ _ dtor _ ?A ?ys ?w ?k] =>
      destruct (@unwinding_cases _ A ys w k) as [(c & ->)|[-> HL]] end.
  Ltac dr c HL :=
    match goal with |- context [@dropping _ _ dtor _ _ ?ys ?w ?a ?k] =>
      destruct (dropping_cases ys w a k) as [(c & ->)|[(c & ->)|[-> HL]]] end.

  Lemma balanced_dropped (A N N' xs : list T) c (w : world T C) :
    balanced A N w -> Permutation N (N' ++ xs) -> balanced A N' (w_drop xs (w_set c w)).
  Proof. intros H P. apply (balanced_drop (w := w_set c w) (balanced_set c H) P). Qed.

  (** ** Acceptable results *)

  Definition ppost_d {A} (ty : shty) (S0 R : list T) (r : result (parts T C) A) : Prop :=
    match r with
    | Done _ p => pok ty p /\ instep p /\ balanced S0 (R ++ p_items p) (p_w p)
    | Unwound p => pok ty p /\ balanced S0 (R ++ p_items p) (p_w p)
    | Aborted => loud
    | Fault => False
    end.
  Definition tpost_d {A} (ty : shty) (S0 R : list T) (r : result (tensor T * world T C) A) : Prop :=
    match r with
    | Done _ (t, w) | Unwound (t, w) => tensor_ok t /\ tn_ty t = ty /\ balanced S0 (R ++ tn_mem t) w
    | Aborted => prodZ (sh_default ty) <> 0 \/ loud
    | Fault => False
    end.
  Definition opost_d (S0 R : list T) (r : result (world T C) (tensor T)) : Prop :=
    match r with
    | Done t w => tensor_ok t /\ balanced S0 (R ++ tn_mem t) w
    | Unwound w => balanced S0 R w
    | Aborted => loud
    | Fault => False
    end.

  Lemma wmp_post_d {A} (m : shty -> M (parts T C) A) t w (S0 R : list T) :
    tensor_ok t ->
    ppost_d (tn_ty t) S0 R (m (tn_ty t) (mkParts (tn_mem t) (tn_cap t) (tn_dims t) w)) ->
    tpost_d (tn_ty t) S0 R (with_mut_parts_d dtor m (t, w)).
  Proof.
    intros Ht H. unfold with_mut_parts_d. rewrite (to_vec_ok Ht).
    destruct (m _ _) as [a p|p| |] eqn:E; cbn [ppost_d] in H; try easy.
    - destruct H as ((H1 & H2 & H3) & H4 & H5). rewrite sh_len_prod. rewrite H4, Z.eqb_refl.
      cbn [tpost_d]. split; [|split; [reflexivity|exact H5]]. constructor; auto. apply (to_ty Ht).
    - destruct H as ((H1 & H2 & H3) & H5). rewrite !sh_len_prod.
      destruct (Z.eqb_spec (zlen (p_items p)) (prodZ (p_dims p))) as [E1|E1].
      + cbn [tpost_d]. split; [|split; [reflexivity|exact H5]]. constructor; auto. apply (to_ty Ht).
      + destruct (Z.eqb_spec (prodZ (sh_default (tn_ty t))) 0) as [E2|E2]; cbn [tpost_d]; auto.
        uw c HL; cbn [tpost_d]; auto.
        split; [|split; [reflexivity|]].
        * constructor; cbn [tn_dims tn_ty tn_mem tn_cap]; auto.
          -- eapply default_nonneg; eauto.
          -- apply default_typed.
          -- apply (to_ty Ht).
          -- cbn. pose proof (@zlen_nonneg _ (p_items p)). lia.
        * cbn [tn_mem]. rewrite app_nil_r. eapply balanced_dropped; [exact H5|reflexivity].
    - cbn [tpost_d]. auto.
  Qed.

  (** Code that drops nothing itself. *)
  Lemma wmp_transfer {A} (m : shty -> M (parts T C) A) t w (S0 R : list T) :
    tpost (tn_ty t) S0 R (with_mut_parts m (t, w)) ->
    tpost_d (tn_ty t) S0 R (with_mut_parts_d dtor m (t, w)).
  Proof.
    unfold with_mut_parts_d, with_mut_parts. destruct (to_vec_raw t); [|easy].
    destruct (m _ _) as [a p|p| |]; try easy.
    - destruct (_ =? _); easy.
    - destruct (_ =? _); [easy|]. destruct (_ =? _); [|cbn; auto].
      uw c HL; cbn [tpost tpost_d]; auto.
    - cbn. auto.
  Qed.

  (** ** The operations on a tensor *)

  Lemma clear_post_d t w (S0 R : list T) :
    tensor_ok t -> balanced S0 (R ++ tn_mem t) w -> tpost_d (tn_ty t) S0 R (tn_clear_d dtor (t, w)).
  Proof.
    intros Ht HB. unfold tn_clear_d. cbn [fst]. rewrite sh_len_prod. unfold seqM at 1.
    destruct (Z.eqb_spec (prodZ (sh_default (tn_ty t))) 0) as [E|E]; cbn [check]; [|cbn [tpost_d]; auto].
    apply wmp_post_d; auto. destruct (start_pok w Ht) as [(H1 & H2 & H3) I]. cbn [p_dims p_items p_cap] in *.
    assert (HC : zlen (@nil T) <= tn_cap t) by (pose proof (@zlen_nonneg _ (tn_mem t)); cbn; lia).
    unfold seqM, vec_truncate_d. cbn [p_items p_cap p_dims p_w Z.to_nat firstn skipn].
    dr c HL;
      cbn [ppost_d]; auto.
    - unfold p_set_dims. cbn [p_items p_cap p_dims p_w]. split; [|split].
      + split; [|split]; cbn [p_dims p_items p_cap]; auto; [eapply default_nonneg; eauto|apply default_typed].
      + unfold instep. cbn [p_items p_dims]. now rewrite E.
      + rewrite app_nil_r. eapply balanced_dropped; [exact HB|reflexivity].
    - split.
      + split; [|split]; auto.
      + rewrite app_nil_r. eapply balanced_dropped; [exact HB|reflexivity].
  Qed.

  Lemma truncate_post_d t w size (S0 R : list T) :
    tensor_ok t -> 0 <= size -> balanced S0 (R ++ tn_mem t) w -> tpost_d (tn_ty t) S0 R (tn_truncate_d dtor size (t, w)).
  Proof.
    intros Ht Hs HB. unfold tn_truncate_d. unfold seqM at 1. rewrite check_outer_spec.
    destruct (outer_ok t) eqn:HO; [|cbn [tpost_d]; auto]. destruct (outer_ok_inv HO) as [HD HH]. cbn [fst].
    destruct (Z.ltb_spec size (nth 0 (tn_dims t) 0)) as [Hlt|Hge]; [|cbn [tpost_d]; auto].
    apply wmp_post_d; auto. destruct (start_pok w Ht) as [(H1 & H2 & H3) I]. cbn [p_dims p_items p_cap] in *.
    assert (HT : typed (tn_ty t) (upd (tn_dims t) 0 size)) by (apply typed_head; auto).
    unfold p_store, lift, seqM. cbn [p_dims]. rewrite sh_store_typed by auto. cbn [p_items p_cap p_w p_dims].
    unfold vec_truncate_d. cbn [p_items p_cap p_w p_dims]. rewrite sh_len_prod.
    set (k := prodZ (upd (tn_dims t) 0 size)).
    assert (HK : 0 <= k <= zlen (tn_mem t)).
    { unfold k. unfold instep in I. cbn [p_items p_dims] in I. rewrite I, prodZ_upd0 by auto. clear I HB HT H2 H3.
      destruct (tn_dims t) as [|d ds]; [congruence|]. cbn [nth tl] in *. rewrite prodZ_cons. inversion H1 as [|? ? P1 P2]; subst.
      pose proof (prodZ_nonneg P2). nia. }
    assert (HP : Permutation (R ++ tn_mem t) ((R ++ firstn (Z.to_nat k) (tn_mem t)) ++ skipn (Z.to_nat k) (tn_mem t)))
      by (rewrite <- app_assoc, firstn_skipn; reflexivity).
    assert (HPK : forall w' : world T C, pok (tn_ty t) (mkParts (firstn (Z.to_nat k) (tn_mem t)) (tn_cap t) (upd (tn_dims t) 0 size) w')).
    { intros w'. split; [|split]; cbn [p_dims p_items p_cap]; auto; [apply nonneg_upd; auto|]. rewrite zlen_firstn by lia. lia. }
    dr c HL;
      cbn [ppost_d]; auto; cbn [p_items p_w].
    - split; [apply HPK|]. split; [unfold instep; cbn [p_items p_dims]; apply zlen_firstn; lia|].
      eapply balanced_dropped; [exact HB|exact HP].
    - split; [apply HPK|]. eapply balanced_dropped; [exact HB|exact HP].
  Qed.

  Lemma reserve_post_d n t w (S0 R : list T) :
    tensor_ok t -> balanced S0 (R ++ tn_mem t) w -> tpost_d (tn_ty t) S0 R (tn_reserve_d dtor al n (t, w)).
  Proof. intros Ht HB. apply wmp_transfer. now apply reserve_post. Qed.
  Lemma try_reserve_post_d n t w (S0 R : list T) :
    tensor_ok t -> balanced S0 (R ++ tn_mem t) w -> tpost_d (tn_ty t) S0 R (tn_try_reserve_d dtor al n (t, w)).
  Proof. intros Ht HB. apply wmp_transfer. now apply try_reserve_post. Qed.
  Lemma shrink_post_d n t w (S0 R : list T) :
    tensor_ok t -> balanced S0 (R ++ tn_mem t) w -> tpost_d (tn_ty t) S0 R (tn_shrink_to_d dtor n (t, w)).
  Proof. intros Ht HB. apply wmp_transfer. now apply shrink_post. Qed.

  Lemma expand_post_d {Y} (e : expression Y) (cl : Y -> C -> call T C) t w (S0 R : list T) :
    tensor_ok t -> honest e -> balanced S0 (R ++ tn_mem t) w ->
    tpost_d (tn_ty t) S0 R (tn_expand_d dtor al e cl (t, w)).
  Proof.
    intros Ht HE HB. pose proof (@expand_post T Y C al e cl t w S0 R Ht HE HB) as H.
    unfold tn_expand_d. unfold tn_expand in H. unfold seqM at 1. unfold seqM at 1 in H. rewrite check_outer_spec in *.
    destruct (outer_ok t); [|cbn [tpost_d]; auto]. destruct (0 <? sh_len (e_dims e)); [|cbn [ret tpost_d]; auto].
    now apply wmp_transfer.
  Qed.

  Lemma vec_extend_cases_d (fs : list (C -> call T C)) p S0 R :
    balanced S0 (R ++ p_items p) (p_w p) -> zlen (p_items p) <= p_cap p ->
    match vec_extend_d dtor al fs p with
    | Done _ p' | Unwound p' =>
        p_dims p' = p_dims p /\ zlen (p_items p') <= p_cap p' /\ balanced S0 (R ++ p_items p') (p_w p')
    | Aborted => loud
    | Fault => False
    end.
  Proof.
    revert p. induction fs as [|f fs IH]; intros p HB Hc; cbn [vec_extend_d].
    - cbn [ret]. auto.
    - unfold seqM at 1, vec_call. destruct (f (w_clo (p_w p))) as [x c1|c1]; [|cbn; auto]. unfold seqM at 1.
      destruct (reserve_cases al 1 (mkParts (p_items p) (p_cap p) (p_dims p) (w_make c1 x (p_w p)))) as [(cap & E & H1 & H2)|[E HF]]; rewrite E.
      + cbn [p_items p_cap p_dims p_w] in *. unfold seqM at 1, vec_write. cbn [p_items p_cap p_dims p_w].
        destruct (Z.ltb_spec (zlen (p_items p)) cap); [|lia].
        apply (IH (mkParts (p_items p ++ [x]) cap (p_dims p) (w_make c1 x (p_w p)))); cbn [p_items p_cap p_dims p_w].
        * rewrite app_assoc. now apply balanced_make.
        * rewrite zlen_app. unfold zlen at 2. cbn. lia.
      + cbn [p_items p_cap p_dims p_w] in *.
        uw c HL; auto. cbn [p_items p_cap p_dims p_w]. split; auto. split; auto.
        eapply balanced_dropped; [apply balanced_make; exact HB|reflexivity].
  Qed.

  Lemma extend_post_d (fs : list (C -> call T C)) t w S0 R :
    tensor_ok t -> tn_ty t = flat_ty -> balanced S0 (R ++ tn_mem t) w ->
    tpost_d (tn_ty t) S0 R (tn_extend_d dtor al fs (t, w)).
  Proof.
    intros Ht Hty HB. apply wmp_post_d; auto. unfold seqM.
    pose proof (@vec_extend_cases_d fs (mkParts (tn_mem t) (tn_cap t) (tn_dims t) w) S0 R HB (to_cap Ht)) as H.
    destruct (vec_extend_d _ _ _ _) as [u p|p| |]; cbn [p_dims] in H; try contradiction; auto; destruct H as (H1 & H2 & H3).
    - unfold p_set_dims. cbn [ppost_d p_items p_w]. split; [split; [|split]|split]; cbn [p_items p_dims p_cap]; auto.
      + repeat constructor. apply zlen_nonneg.
      + rewrite Hty. repeat constructor.
      + unfold instep. cbn [p_items p_dims prodZ fold_right]. lia.
    - cbn [ppost_d]. split; auto. split; [|split]; auto; rewrite H1; [apply (to_nonneg Ht)|apply (to_typed Ht)].
  Qed.

  (** *** resize *)

  (** [copy_dim] uses up the old elements and makes room for the new ones as the sizes say. *)
  Definition cpost (S0 R : list T) (used made : Z) (s : copying T C) (r : result (copying T C) unit) : Prop :=
    match r with
    | Done _ s' =>
        zlen (c_old s') = zlen (c_old s) - used /\ zlen (c_new s') = zlen (c_new s) + made /\
        c_cap s' = c_cap s /\ cbal S0 R s'
    | Unwound s' => cbal S0 R s'
    | Aborted => loud
    | Fault => False
    end.

  Lemma cpost_seq S0 R u1 m1 u2 m2 s (a : M (copying T C) unit) (b : M (copying T C) unit) :
    cpost S0 R u1 m1 s (a s) ->
    (forall s', zlen (c_old s') = zlen (c_old s) - u1 -> zlen (c_new s') = zlen (c_new s) + m1 ->
       c_cap s' = c_cap s -> cbal S0 R s' -> cpost S0 R u2 m2 s' (b s')) ->
    cpost S0 R (u1 + u2) (m1 + m2) s ((a ;;; b) s).
  Proof.
    intros H1 H2. unfold seqM. destruct (a s) as [x s'|s'| |]; cbn [cpost] in *; auto.
    destruct H1 as (E1 & E2 & E3 & E4). specialize (H2 s' E1 E2 E3 E4).
    destruct (b s') as [y s2|s2| |]; cbn [cpost] in *; auto. destruct H2 as (F1 & F2 & F3 & F4). repeat split; try lia; auto.
  Qed.

  Lemma cpost_times S0 R u m n (a : M (copying T C) unit) s :
    0 <= u -> 0 <= m ->
    (forall s', u <= zlen (c_old s') -> zlen (c_new s') + m <= c_cap s' -> cbal S0 R s' -> cpost S0 R u m s' (a s')) ->
    Z.of_nat n * u <= zlen (c_old s) -> zlen (c_new s) + Z.of_nat n * m <= c_cap s -> cbal S0 R s ->
    cpost S0 R (Z.of_nat n * u) (Z.of_nat n * m) s (timesM n a s).
  Proof.
    intros Hu Hm H. revert s. induction n as [|n IH]; intros s Ho Hn HB; cbn [timesM].
    - cbn. repeat split; auto; lia.
    - rewrite Nat2Z.inj_succ in *. replace (Z.succ (Z.of_nat n) * u) with (u + Z.of_nat n * u) by lia.
      replace (Z.succ (Z.of_nat n) * m) with (m + Z.of_nat n * m) by lia. apply cpost_seq.
      + apply H; auto; nia.
      + intros s' E1 E2 E3 E4. apply IH; auto; rewrite ?E1, ?E2, ?E3; lia.
  Qed.

  Lemma cpost_skip S0 R s : cbal S0 R s -> cpost S0 R 0 0 s (ret tt s).
  Proof. intros H. cbn. repeat split; auto; lia. Qed.

  Lemma copy_move_post S0 R n s :
    0 <= n -> n <= zlen (c_old s) -> zlen (c_new s) + n <= c_cap s -> cbal S0 R s -> cpost S0 R n n s (copy_move n s).
  Proof.
    intros H0 H1 H2 HB. pose proof (@copy_move_keeps T C S0 R n s HB) as HK. unfold copy_move in *.
    destruct (Z.leb_spec n (zlen (c_old s))); [|lia]. destruct (Z.leb_spec (zlen (c_new s) + n) (c_cap s)); [|lia].
    cbn [andb] in *. cbn [cpost c_old c_new c_cap]. rewrite zlen_skipn, zlen_app, zlen_firstn by lia. auto.
  Qed.

  Lemma copy_drop_post S0 R n s :
    0 <= n -> n <= zlen (c_old s) -> cbal S0 R s -> cpost S0 R n 0 s (copy_drop_d dtor n s).
  Proof.
    intros H0 H1 HB. unfold copy_drop_d. destruct (Z.leb_spec n (zlen (c_old s))); [|lia].
    assert (HK : forall c, cbal S0 R (mkCopy (skipn (Z.to_nat n) (c_old s)) (c_new s) (c_cap s)
                   (w_drop (firstn (Z.to_nat n) (c_old s)) (w_set c (c_w s))))).
    { intros c. unfold cbal in *. cbn [c_old c_new c_w]. eapply balanced_dropped; [exact HB|].
      rewrite <- (firstn_skipn (Z.to_nat n) (c_old s)) at 1. perm. }
    dr c HL; cbn [cpost]; auto.
    cbn [c_old c_new c_cap]. rewrite zlen_skipn by lia. repeat split; auto; try lia.
  Qed.

  Lemma copy_new_post S0 R f s :
    zlen (c_new s) + 1 <= c_cap s -> cbal S0 R s -> cpost S0 R 0 1 s (copy_new f s).
  Proof.
    intros H1 HB. pose proof (@copy_new_keeps T C S0 R f s HB) as HK. unfold copy_new in *.
    destruct (f _) as [x c|c]; cbn [cpost]; auto. destruct (Z.ltb_spec (zlen (c_new s)) (c_cap s)); [|lia].
    cbn [cpost c_old c_new c_cap]. rewrite zlen_app. unfold zlen at 3. cbn [length]. repeat split; auto; lia.
  Qed.

  Lemma copy_dim_post f old new S0 R s :
    nonneg old -> nonneg new -> length old = length new -> old <> [] ->
    prodZ old <= zlen (c_old s) -> zlen (c_new s) + prodZ new <= c_cap s -> cbal S0 R s ->
    cpost S0 R (prodZ old) (prodZ new) s (copy_dim_d dtor f old new s).
  Proof.
    intros Ho Hn. revert new Hn s. induction Ho as [|o ot Ho0 Ho IH]; intros [|n nt] Hn s HL HE; try (cbn in *; congruence).
    cbn [copy_dim_d]. inversion Hn as [|? ? Hn0 Hnt]; subst. rewrite !prodZ_cons, !sh_len_prod. intros HO HN HB.
    pose proof (prodZ_nonneg Ho) as HP. pose proof (prodZ_nonneg Hnt) as HQ. cbn [length] in HL.
    set (m := Z.min o n) in *. assert (Hm : 0 <= m <= o /\ m <= n) by (unfold m; lia). clearbody m.
    replace (o * prodZ ot) with (m * prodZ ot + ((o - m) * prodZ ot + 0)) by lia.
    replace (n * prodZ nt) with (m * prodZ nt + (0 + (n - m) * prodZ nt)) by lia.
    apply cpost_seq.
    - destruct ot as [|o2 ot2].
      + destruct nt; [|discriminate]. cbn [prodZ fold_right] in *. rewrite !Z.mul_1_r in *. apply copy_move_post; auto; lia.
      + replace m with (Z.of_nat (Z.to_nat m)) at 1 2 by lia. apply cpost_times; auto; try nia.
        intros s' K1 K2 K3. apply IH; auto. discriminate.
    - intros s1 E1 E2 E3 HB1. apply cpost_seq.
      + destruct (Z.ltb_spec m o).
        * apply copy_drop_post; auto; nia.
        * replace ((o - m) * prodZ ot) with 0 by nia. now apply cpost_skip.
      + intros s2 F1 F2 F3 HB2.
        set (k := (n - m) * prodZ nt) in *. assert (Hk : 0 <= k) by (unfold k; nia).
        replace 0 with (Z.of_nat (Z.to_nat k) * 0) at 1 by lia. replace k with (Z.of_nat (Z.to_nat k) * 1) at 2 by lia.
        apply cpost_times; auto; try lia.
        intros s' K1 K2 K3. now apply copy_new_post.
  Qed.

  Definition resize_body_d (new : list Z) (f : C -> call T C) : M (parts T C) unit :=
    fun p => (if prodZ new =? 0 then vec_truncate_d dtor 0
              else if slice_eqb (tl new) (tl (p_dims p)) then vec_resize_with_d dtor al (prodZ new) f
              else resize_copy_d dtor al (prodZ new) new f) p.

  Lemma truncate_vec_post n p S0 R :
    0 <= n <= zlen (p_items p) -> zlen (p_items p) <= p_cap p -> balanced S0 (R ++ p_items p) (p_w p) ->
    match vec_truncate_d dtor n p with
    | Done _ p' | Unwound p' =>
        p_dims p' = p_dims p /\ zlen (p_items p') = n /\ zlen (p_items p') <= p_cap p' /\ balanced S0 (R ++ p_items p') (p_w p')
    | Aborted => loud
    | Fault => False
    end.
  Proof.
    intros Hn Hc HB. unfold vec_truncate_d.
    assert (HP : Permutation (R ++ p_items p) ((R ++ firstn (Z.to_nat n) (p_items p)) ++ skipn (Z.to_nat n) (p_items p)))
      by (rewrite <- app_assoc, firstn_skipn; reflexivity).
    dr c HL; auto;
      cbn [p_items p_dims p_cap p_w]; rewrite zlen_firstn by lia; (split; [auto|]); (split; [auto|]); (split; [lia|]);
      (eapply balanced_dropped; [exact HB|exact HP]).
  Qed.

  Lemma resize_body_cases_d new f p S0 R :
    nonneg (p_dims p) -> nonneg new -> length new = length (p_dims p) -> new <> [] -> instep p -> zlen (p_items p) <= p_cap p ->
    balanced S0 (R ++ p_items p) (p_w p) ->
    match resize_body_d new f p with
    | Done _ p' => p_dims p' = p_dims p /\ zlen (p_items p') = prodZ new /\ zlen (p_items p') <= p_cap p' /\ balanced S0 (R ++ p_items p') (p_w p')
    | Unwound p' => p_dims p' = p_dims p /\ zlen (p_items p') <= p_cap p' /\ balanced S0 (R ++ p_items p') (p_w p')
    | Aborted => loud
    | Fault => False
    end.
  Proof.
    intros Hn Hn' HL HE HI Hcap HB. unfold resize_body_d. pose proof (prodZ_nonneg Hn') as HP. pose proof (@zlen_nonneg _ (p_items p)) as HZ.
    destruct (Z.eqb_spec (prodZ new) 0) as [E0|E0].
    - pose proof (@truncate_vec_post 0 p S0 R (conj (Z.le_refl 0) HZ) Hcap HB) as H. rewrite E0.
      destruct (vec_truncate_d _ _ _); auto. tauto.
    - destruct (slice_eqb (tl new) (tl (p_dims p))) eqn:ES.
      + unfold vec_resize_with_d. destruct (Z.ltb_spec (zlen (p_items p)) (prodZ new)) as [Hlt|Hge].
        * unfold seqM at 1. destruct (reserve_cases al (prodZ new - zlen (p_items p)) p) as [(cap & E & H1 & H2)|[E HF]]; rewrite E; auto.
          rewrite times_call_spec by (cbn [p_items p_cap]; lia). cbn [p_w].
          destruct (gives _ _) as [[vs c] b] eqn:EG. destruct (gives_length EG) as [G1 G2]. rewrite repeat_length in *.
          destruct b; cbn [finish]; unfold pushed; cbn [p_items p_dims p_cap p_w].
          -- specialize (G2 eq_refl). split; auto. rewrite zlen_app. split; [unfold zlen in *; lia|]. split; [unfold zlen in *; lia|].
             rewrite app_assoc. now apply balanced_after.
          -- split; auto. rewrite zlen_app. split; [unfold zlen in *; lia|]. rewrite app_assoc. now apply balanced_after.
        * pose proof (@truncate_vec_post (prodZ new) p S0 R (conj HP Hge) Hcap HB) as H.
          destruct (vec_truncate_d _ _ _); auto. tauto.
      + unfold resize_copy_d. destruct (al_ok al (prodZ new)); [|auto].
        assert (HE' : p_dims p <> []) by (destruct (p_dims p), new; cbn in *; congruence).
        set (s0 := mkCopy (p_items p) [] (Z.max (prodZ new) (al_grow al 0 (prodZ new))) (p_w p)).
        assert (H0 : cbal S0 R s0) by (unfold cbal; cbn [s0 c_old c_new c_w]; rewrite app_nil_r; exact HB).
        unfold instep in HI.
        assert (A1 : prodZ (p_dims p) <= zlen (c_old s0)) by (cbn [s0 c_old]; lia).
        assert (A2 : zlen (c_new s0) + prodZ new <= c_cap s0) by (cbn [s0 c_new c_cap]; unfold zlen; cbn [length]; lia).
        pose proof (@copy_dim_post f (p_dims p) new S0 R s0 Hn Hn' (eq_sym HL) HE' A1 A2 H0) as CS.
        destruct (copy_dim_d dtor f (p_dims p) new s0) as [u s|s| |]; cbn [cpost] in CS; auto.
        * destruct CS as (E1 & E2 & E3 & HB1).
          cbn [s0 c_old c_new c_cap] in E1, E2, E3. unfold zlen in E2 at 2. cbn [length] in E2.
          assert (EO : c_old s = []) by (destruct (c_old s); auto; unfold zlen in *; cbn [length] in E1; lia).
          unfold cbal in HB1. rewrite EO in HB1 |- *. cbn [app] in HB1.
          dr c HL'; auto.
          -- cbn [p_dims p_items p_cap p_w]. split; auto. split; [lia|]. split; [lia|].
             eapply balanced_dropped; [exact HB1|now rewrite app_nil_r].
          -- uw c' HL'; auto. cbn [p_dims p_items p_cap p_w]. split; auto.
             split; [unfold zlen at 1; cbn [length]; lia|]. rewrite app_nil_r. eapply balanced_dropped; [|reflexivity].
             eapply balanced_dropped; [exact HB1|now rewrite app_nil_r].
        * uw c' HL'; auto. cbn [p_dims p_items p_cap p_w]. split; auto.
          split; [unfold zlen at 1; cbn [length]; lia|]. rewrite app_nil_r. eapply balanced_dropped; [exact CS|reflexivity].
  Qed.

  Lemma resize_post_d new f t w S0 R :
    tensor_ok t -> nonneg new -> balanced S0 (R ++ tn_mem t) w ->
    tpost_d (tn_ty t) S0 R (tn_resize_with_d dtor al new f (t, w)).
  Proof.
    intros Ht Hn HB. unfold tn_resize_with_d. unfold seqM at 1. cbn [fst].
    destruct (Nat.eqb_spec (length new) (length (tn_dims t))) as [HL|HL]; cbn [check]; [|cbn [tpost_d]; auto].
    destruct new as [|n nt]; [cbn [ret tpost_d]; auto|].
    destruct (checked_len_cases (n :: nt)) as [HF|HF]; [|rewrite HF; cbn [check tpost_d]; auto].
    rewrite checked_len_fits by auto. assert (HE : n :: nt <> []) by discriminate.
    apply wmp_post_d; auto. destruct (start_pok w Ht) as [(K1 & K2 & K3) I].
    pose proof (@resize_body_cases_d (n :: nt) f (mkParts (tn_mem t) (tn_cap t) (tn_dims t) w) S0 R K1 Hn HL HE I K3 HB) as H.
    change (ppost_d (tn_ty t) S0 R ((resize_body_d (n :: nt) f ;;; p_store (tn_ty t) (n :: nt)) (mkParts (tn_mem t) (tn_cap t) (tn_dims t) w))).
    unfold seqM. destruct (resize_body_d (n :: nt) f _) as [u p|p| |]; cbn [p_dims] in H; try contradiction; auto.
    - destruct H as (H1 & H2 & H3 & H4). unfold p_store, lift, seqM.
      rewrite sh_store_spec by (eapply typed_length; [exact K2|cbn [p_dims]; auto]).
      destruct (accepts (tn_ty t) (n :: nt)) eqn:A; cbn [ppost_d p_items p_dims p_cap p_w].
      + apply accepts_typed in A. split; [split; [|split]|split]; cbn [p_items p_dims p_cap]; auto.
      + split; auto. split; [|split]; auto; rewrite H1; auto.
    - destruct H as (H1 & H3 & H4). cbn [ppost_d]. split; auto. split; [|split]; auto; rewrite H1; auto.
  Qed.

  Lemma resize_value_post_d new v (cl : T -> C -> call T C) t w S0 R :
    tensor_ok t -> nonneg new -> balanced S0 (R ++ tn_mem t) w ->
    tpost_d (tn_ty t) S0 R (tn_resize_d dtor al new v cl (t, w)).
  Proof.
    intros Ht Hn HB. unfold tn_resize_d. cbn [fst snd].
    set (w0 := mkWorld (w_clo w) (w_made w ++ [v]) (w_used w) (w_dropped w)).
    assert (HB0 : balanced S0 ((R ++ [v]) ++ tn_mem t) w0).
    { unfold balanced in *. unfold w0. cbn [w_made w_used w_dropped]. rewrite app_assoc, HB. perm. }
    pose proof (@resize_post_d new (cl v) t w0 S0 (R ++ [v]) Ht Hn HB0) as H.
    destruct (tn_resize_with_d dtor al new (cl v) (t, w0)) as [a [t' w']|[t' w']| |]; cbn [tpost_d] in H; auto.
    - destruct H as (H1 & H2 & H3).
      dr c HL; cbn [tpost_d]; auto;
        (split; auto; split; auto; eapply balanced_dropped; [exact H3|perm]).
    - destruct H as (H1 & H2 & H3).
      uw c HL; cbn [tpost_d]; auto.
      split; auto. split; auto. eapply balanced_dropped; [exact H3|perm].
  Qed.

  (** *** drain, append *)

  (** A tensor operation that drops [xs] at the very end. *)
  Lemma drain_drop_split b d (w : world T C) :
    match drain_drop d w with
    | Done _ (t, w') =>
        exists xs, w' = w_drop xs w /\
          drain_drop_d dtor b d w =
          if b then unwinding dtor xs w (fun w => (t, w)) else dropping dtor xs w tt (fun w => (t, w))
    | r => drain_drop_d dtor b d w = r
    end.
  Proof.
    unfold drain_drop, drain_drop_d. destruct (_ && _); auto. destruct (sh_resize_dim _ _ _ _); auto.
    destruct (copy_cells _ _ _ _); auto. destruct (_ <=? _); auto. eexists. split; reflexivity.
  Qed.

  Lemma drain_take_post_d lo hi k t w S0 R :
    tensor_ok t -> bound_arg lo -> bound_arg hi -> nth 0 (tn_dims t) 0 <= usize_max ->
    balanced S0 (R ++ tn_mem t) w ->
    tpost_d (tn_ty t) S0 R (drained_by lo hi k (drain_drop_d dtor false) (t, w)).
  Proof.
    intros Ht Hl Hh Hd HB. pose proof (@drain_take_post T C lo hi k t w S0 R Ht Hl Hh Hd HB) as H.
    unfold drained_by in *. cbn [fst snd] in *.
    destruct (tn_drain t lo hi) as [d| | |]; cbn [tpost tpost_d] in *; auto.
    destruct (it_nexts k (it_new (e_drain d))) as [[xs it]| | |]; cbn [tpost tpost_d] in *; auto.
    match goal with |- context [drain_drop_d dtor false ?d ?w] => pose proof (drain_drop_split false d w) as HS;
      destruct (drain_drop d w) as [u [t' w']|[t' w']| |] end; cbn [tpost] in H.
    - destruct HS as (ys & -> & ->). destruct H as (H1 & H2 & H3).
      dr c HL;
        cbn [tpost_d]; auto.
    - rewrite HS. exact H.
    - rewrite HS. cbn. auto.
    - rewrite HS. exact H.
  Qed.

  Lemma append_post_d (t1 t2 : tensor T) (w : world T C) S0 R :
    tensor_ok t1 -> tensor_ok t2 -> balanced S0 (R ++ tn_mem t1 ++ tn_mem t2) w ->
    match tn_append_d dtor al (t1, t2, w) with
    | Done _ (t1', t2', w') | Unwound (t1', t2', w') =>
        tensor_ok t1' /\ tensor_ok t2' /\ tn_ty t1' = tn_ty t1 /\ tn_ty t2' = tn_ty t2 /\
        balanced S0 (R ++ tn_mem t1' ++ tn_mem t2') w'
    | Aborted => loud
    | Fault => False
    end.
  Proof.
    intros H1 H2 HB. pose proof (@append_post T C al t1 t2 w S0 R H1 H2 HB) as H.
    unfold tn_append_d. unfold tn_append in H.
    destruct (tn_drain t2 Unbounded Unbounded) as [d| | |]; auto.
    destruct (tn_expand al (e_drain d) _ _) as [u [s' w']|[s' w']| |]; auto; try contradiction.
    - match goal with |- context [drain_drop_d dtor ?b ?d ?w] => pose proof (drain_drop_split b d w) as HS;
        destruct (drain_drop d w) as [u' [t' w'']|[t' w'']| |] end; try contradiction.
      + destruct HS as (ys & -> & ->).
        dr c HL; auto.
      + rewrite HS. exact H.
    - match goal with |- context [drain_drop_d dtor ?b ?d ?w] => pose proof (drain_drop_split b d w) as HS;
        destruct (drain_drop d w) as [u' [t' w'']|[t' w'']| |] end; try contradiction.
      + destruct HS as (ys & -> & ->).
        uw c HL; auto.
      + rewrite HS. exact H.
  Qed.

  (** Moving elements does not panic: when [expand] is left by unwinding inside [append], nothing has
      been moved or dropped; otherwise everything has been moved. *)
  Lemma expand_drain_cases (t1 t2 : tensor T) (w : world T Z) :
    tensor_ok t1 -> tensor_ok t2 -> outer_ok t2 = true ->
    let d := drained t2 0 (nth 0 (tn_dims t2) 0) in
    (exists t' w', tn_expand al (e_drain d) (fun x n => Gives x (n + 1)) (t1, w) = Done tt (t', w') /\
       w_clo w' = w_clo w + zlen (tn_mem t2) /\ w_dropped w' = w_dropped w) \/
    (exists cap, tn_cap t1 <= cap /\ tn_expand al (e_drain d) (fun x n => Gives x (n + 1)) (t1, w) =
       Unwound (mkTensor (tn_ty t1) (tn_dims t1) (tn_mem t1) cap, w)).
  Proof.
    intros H1 H2 HO2 d. destruct (drain_all H2 HO2) as (Hn & ER & ED & EM).
    assert (EV : e_dims (e_drain d) = tn_dims t2) by (unfold d; rewrite ED; reflexivity).
    pose proof (to_nonneg H2) as HN2. pose proof (prodZ_nonneg HN2) as HP2. pose proof (to_len H2) as HL2.
    assert (HT : e_collect (e_drain d) = Ok (tn_mem t2)).
    { apply e_collect_trace. unfold d. rewrite drain_trace; auto; try lia. now rewrite ER. }
    assert (CL : t1 = mkTensor (tn_ty t1) (tn_dims t1) (tn_mem t1) (tn_cap t1)) by (now destruct t1).
    destruct (outer_ok t1) eqn:HO1.
    2:{ right. exists (tn_cap t1). split; [lia|]. rewrite <- CL. apply (proj1 (expand_other al _ _ t1 w) HO1). }
    destruct (Z.eq_dec (prodZ (tn_dims t2)) 0) as [E0|E0].
    { left. exists t1, w. rewrite (proj2 (expand_other al (e_drain d) _ t1 w) HO1) by (rewrite EV; lia).
      unfold zlen. split; auto. split; auto. lia. }
    destruct (expand_roomy al (e_drain d) (fun x n => Gives x (n + 1)) w H1) as [E|E].
    2:{ right. exists (tn_cap t1). split; [lia|]. rewrite <- CL. exact E. }
    rewrite E. clear E.
    assert (GD : growable (tn_ty t1) (tn_dims t1) (tn_dims t2) \/ ~ growable (tn_ty t1) (tn_dims t1) (tn_dims t2)).
    { unfold growable. destruct (prodZ (tn_dims t1) =? 0).
      - destruct (accepts (tn_ty t1) (tn_dims t2)) eqn:EA; [left; now apply accepts_typed|right].
        intros H. apply accepts_typed in H. congruence.
      - destruct (Nat.eq_dec (length (tn_dims t2)) (length (tn_dims t1))); [|right; tauto].
        destruct (list_eq_dec Z.eq_dec (tl (tn_dims t2)) (tl (tn_dims t1))); [left; auto|right; tauto]. }
    destruct GD as [G|G].
    - destruct (@expand_done T T Z (roomy al) (e_drain d) (fun x n => Gives x (n + 1)) (tn_mem t2) (tn_mem t2) (w_clo w + zlen (tn_mem t2)) t1 w)
        as (cap & HC & HC' & E); auto; try (rewrite EV); auto; try lia.
      + now rewrite gives_count.
      + left. do 2 eexists. split; [exact E|]. cbn. rewrite app_nil_r. auto.
    - destruct (@expand_mismatch T T Z (roomy al) (e_drain d) (fun x n => Gives x (n + 1)) t1 w) as (cap & HC & E); auto; try (rewrite EV); auto; try lia.
      right. eauto.
  Qed.

  Lemma drain_all_d (t2 : tensor T) (w : world T C) b k :
    tensor_ok t2 -> outer_ok t2 = true -> (k <= length (tn_mem t2))%nat ->
    drain_drop_d dtor b (drain_at k (drained t2 0 (nth 0 (tn_dims t2) 0))) w =
    if b then unwinding dtor (skipn k (tn_mem t2)) w (fun w => (emptied t2, w))
    else dropping dtor (skipn k (tn_mem t2)) w tt (fun w => (emptied t2, w)).
  Proof.
    intros H2 HO2 Hk. destruct (drain_all H2 HO2) as (Hn & ER & _ & EM).
    pose proof (drain_drop_split b (drain_at k (drained t2 0 (nth 0 (tn_dims t2) 0))) w) as HS.
    rewrite drain_drop_eq in HS by (auto; try lia; rewrite ER; exact Hk). destruct HS as (xs & EX & ->).
    rewrite ER in EX. assert (xs = skipn k (tn_mem t2)) as ->.
    { unfold w_drop in EX. injection EX as EX. symmetry. eapply app_inv_head. exact EX. }
    rewrite EM. reflexivity.
  Qed.

  (** [append] drops elements only when it panics, and then all rows of the source. *)
  Lemma append_exact_d (t1 t2 : tensor T) (w : world T C) :
    tensor_ok t1 -> tensor_ok t2 ->
    (outer_ok t2 = false /\ tn_append al (t1, t2, w) = Unwound (t1, t2, w) /\
       tn_append_d dtor al (t1, t2, w) = Unwound (t1, t2, w)) \/
    (exists t1', tn_append al (t1, t2, w) = Done tt (t1', emptied t2, w) /\
       tn_append_d dtor al (t1, t2, w) = Done tt (t1', emptied t2, w)) \/
    (exists cap, tn_cap t1 <= cap /\ let t1' := mkTensor (tn_ty t1) (tn_dims t1) (tn_mem t1) cap in
       tn_append al (t1, t2, w) = Unwound (t1', emptied t2, w_drop (tn_mem t2) w) /\
       tn_append_d dtor al (t1, t2, w) = unwinding dtor (tn_mem t2) w (fun w => (t1', emptied t2, w))).
  Proof.
    intros H1 H2. destruct (outer_ok t2) eqn:HO2.
    2:{ left. rewrite append_other by auto. split; auto. split; auto. unfold tn_append_d, tn_drain.
        unfold outer_ok in HO2. destruct (0 <? length (tn_dims t2))%nat; cbn [andb assert bind] in *; auto. rewrite HO2. reflexivity. }
    right. unfold tn_append, tn_append_d. rewrite append_drain by auto.
    destruct (drain_all H2 HO2) as (Hn & ER & _ & EM).
    assert (EW : w = mkWorld (w_clo w) (w_made w) (w_used w) (w_dropped w)) by (now destruct w).
    destruct (@expand_drain_cases t1 t2 (mkWorld 0 [] [] (w_dropped w)) H1 H2 HO2) as [(t' & w' & E & E1 & E2)|(cap & HC & E)]; rewrite E.
    - left. exists t'. cbn [w_clo w_dropped] in E1, E2. rewrite E1, E2, <- EW. unfold zlen. rewrite Z.add_0_l.
      fold (drain_at (length (tn_mem t2)) (drained t2 0 (nth 0 (tn_dims t2) 0))).
      rewrite drain_all_d, drain_drop_eq by (auto; try lia; rewrite ER; lia). rewrite EM, ER, skipn_all.
      unfold dropping. cbn [drop_seq]. unfold w_drop, w_set. cbn [w_clo w_made w_used w_dropped]. rewrite app_nil_r, <- EW. auto.
    - right. exists cap. split; auto. cbv zeta. cbn [w_clo w_dropped]. rewrite <- EW.
      match goal with |- context [mkDrain ?a ?b ?c ?d ?e ?f ?g ?h 0] =>
        change (mkDrain a b c d e f g h 0) with (drain_at 0 (drained t2 0 (nth 0 (tn_dims t2) 0))) end.
      rewrite drain_all_d, drain_drop_eq by (auto; try lia; rewrite ER; lia). rewrite EM, ER. cbn [skipn].
      split; auto. unfold unwinding. now destruct (drop_seq _ _ _ _).
  Qed.

  (** *** clone_from *)

  Lemma assign_loop_post cl xs i p S0 R :
    (i + length xs <= length (p_items p))%nat -> balanced S0 (R ++ p_items p) (p_w p) ->
    match assign_loop_d dtor cl i xs p with
    | Done _ p' | Unwound p' =>
        p_dims p' = p_dims p /\ p_cap p' = p_cap p /\ length (p_items p') = length (p_items p) /\
        balanced S0 (R ++ p_items p') (p_w p')
    | Aborted => loud
    | Fault => False
    end.
  Proof.
    revert i p. induction xs as [|x xs IH]; intros i p HL HB; cbn [assign_loop_d]; [cbn [ret]; auto|].
    cbn [length] in HL. unfold seqM at 1, vec_call. destruct (cl x (w_clo (p_w p))) as [y c|c]; [|cbn; auto].
    unfold seqM at 1. cbn [p_items p_cap p_dims p_w].
    destruct (nth_error (p_items p) i) as [old|] eqn:EN.
    2:{ apply nth_error_None in EN. lia. }
    assert (HB' : forall c', balanced S0 (R ++ upd (p_items p) i y) (w_drop [old] (w_set c' (w_make c y (p_w p))))).
    { intros c'. eapply balanced_dropped; [apply balanced_make; exact HB|].
      rewrite <- !app_assoc. apply Permutation_app_head.
      clear - EN. revert i EN. induction (p_items p) as [|z l IH]; intros [|i] EN; cbn in *; try discriminate.
      - injection EN as ->. transitivity (old :: l ++ [y]); [reflexivity|]. change (y :: l ++ [old]) with ([y] ++ l ++ [old]).
        change (old :: l ++ [y]) with ([old] ++ l ++ [y]). perm.
      - constructor. now apply IH. }
    dr c' HLO; auto.
    - match goal with |- match assign_loop_d _ _ _ _ ?q with _ => _ end => specialize (IH (S i) q) end.
      cbn [p_items p_cap p_dims p_w] in IH. rewrite upd_length in IH. apply IH; [lia|apply HB'].
    - cbn [p_items p_cap p_dims p_w]. rewrite upd_length. repeat split; auto.
  Qed.

  Lemma clone_from_post_d cl src dims t w S0 R :
    tensor_ok t -> nonneg dims -> typed (tn_ty t) dims -> zlen src = prodZ dims -> balanced S0 (R ++ tn_mem t) w ->
    tpost_d (tn_ty t) S0 R (tn_clone_from_d dtor al cl src dims (t, w)).
  Proof.
    intros Ht Hn HT Hs HB. apply wmp_post_d; auto. destruct (start_pok w Ht) as [(K1 & K2 & K3) I].
    unfold vec_clone_from_d. unfold seqM at 1 2.
    set (p0 := mkParts (tn_mem t) (tn_cap t) (tn_dims t) w) in *.
    (* truncate *)
    assert (H0 : match vec_truncate_d dtor (zlen src) p0 with
                 | Done _ p' | Unwound p' => p_dims p' = p_dims p0 /\ zlen (p_items p') = Z.min (zlen src) (zlen (tn_mem t)) /\
                     zlen (p_items p') <= p_cap p' /\ balanced S0 (R ++ p_items p') (p_w p')
                 | Aborted => loud | Fault => False end).
    { destruct (Z.le_ge_cases (zlen src) (zlen (tn_mem t))) as [L|L].
      - pose proof (@truncate_vec_post (zlen src) p0 S0 R) as H. rewrite Z.min_l by auto. apply H; auto.
        split; [apply zlen_nonneg|exact L].
      - pose proof (@truncate_vec_post (zlen (tn_mem t)) p0 S0 R) as H. rewrite Z.min_r by auto.
        assert (E : vec_truncate_d dtor (zlen src) p0 = vec_truncate_d dtor (zlen (tn_mem t)) p0).
        { unfold vec_truncate_d. cbn [p0 p_items p_w]. unfold zlen in *. rewrite !firstn_all2, !skipn_all2 by lia. reflexivity. }
        rewrite E. apply H; auto. split; [apply zlen_nonneg|cbn [p0 p_items]; lia]. }
    assert (PK : forall p : parts T C, p_dims p = p_dims p0 -> zlen (p_items p) <= p_cap p -> pok (tn_ty t) p).
    { intros p E1 E2. split; [|split]; auto; rewrite E1; auto. }
    destruct (vec_truncate_d dtor (zlen src) p0) as [u p1|p1| |]; auto.
    2:{ cbn [ppost_d]. destruct H0 as (A1 & A2 & A3 & A4). auto. }
    destruct H0 as (A1 & A2 & A3 & A4). set (n := length (p_items p1)) in *.
    assert (En : n = Nat.min (length src) (length (tn_mem t))) by (unfold zlen in A2; unfold n; lia).
    unfold seqM at 1.
    pose proof (@assign_loop_post cl (firstn n src) 0 p1 S0 R) as H1. rewrite firstn_length in H1.
    specialize (H1 ltac:(unfold n in *; lia) A4).
    destruct (assign_loop_d dtor cl 0 (firstn n src) p1) as [u1 p2|p2| |]; auto.
    2:{ cbn [ppost_d]. destruct H1 as (B1 & B2 & B3 & B4). split; auto. apply PK; [congruence|]. unfold zlen in *. lia. }
    destruct H1 as (B1 & B2 & B3 & B4). unfold seqM at 1. fold n in B3.
    destruct (reserve_cases al (zlen (skipn n src)) p2) as [(cap & ER & C1 & C2)|[ER HF]]; rewrite ER.
    2:{ cbn [ppost_d]. split; auto. apply PK; [congruence|]. unfold zlen in *. lia. }
    rewrite clone_loop_spec by (cbn [p_items p_cap]; lia). cbn [p_w].
    destruct (gives _ _) as [[ys c] b] eqn:EG. destruct (gives_length EG) as [G1 G2]. rewrite map_length, skipn_length in *.
    assert (PB : balanced S0 (R ++ p_items (pushed c ys (mkParts (p_items p2) cap (p_dims p2) (p_w p2))))
               (p_w (pushed c ys (mkParts (p_items p2) cap (p_dims p2) (p_w p2))))).
    { unfold pushed. cbn [p_items p_w]. rewrite app_assoc. now apply balanced_after. }
    assert (PL : zlen (p_items p2 ++ ys) <= cap) by (rewrite zlen_app; unfold zlen in *; rewrite skipn_length in C2; lia).
    destruct b; cbn [finish].
    - unfold p_set_dims. cbn [ppost_d p_items p_w pushed]. split; [|split; [|exact PB]].
      + split; [|split]; auto.
      + unfold instep. cbn [p_items p_dims]. rewrite zlen_app. specialize (G2 eq_refl). unfold zlen in *. lia.
    - cbn [ppost_d]. split; [|exact PB]. apply PK; [cbn [pushed p_dims]; congruence|exact PL].
  Qed.

  (** *** Operations that create or consume a tensor *)

  Lemma clone_items_cases cl done xs (w : world T C) :
    match clone_items cl done xs w with
    | Done ys w' => clone_items_d dtor cl done xs w = Done ys w'
    | Unwound w' => exists ds w1, w' = w_drop ds w1 /\ clone_items_d dtor cl done xs w = unwinding dtor ds w1 (fun w => w)
    | r => clone_items_d dtor cl done xs w = r
    end.
  Proof.
    revert done w. induction xs as [|x xs IH]; intros done w; cbn [clone_items clone_items_d]; [reflexivity|].
    destruct (cl x (w_clo w)) as [y c|c]; [apply IH|]. eauto.
  Qed.

  Lemma clone_post_d cl (t : tensor T) (w : world T C) S0 R :
    tensor_ok t -> balanced S0 R w -> opost_d S0 R (tn_clone_d dtor cl t w).
  Proof.
    intros Ht HB. pose proof (@clone_post T C cl t w S0 R Ht HB) as H. unfold tn_clone_d. unfold tn_clone in H.
    rewrite (to_vec_ok Ht) in *. unfold seqM in *. pose proof (clone_items_cases cl [] (tn_mem t) w) as HC.
    destruct (clone_items cl [] (tn_mem t) w) as [ys w'|w'| |].
    - rewrite HC. unfold from_parts in *. destruct (_ =? _); auto.
    - destruct HC as (ds & w1 & -> & ->).
      uw c HL; auto.
    - contradiction.
    - contradiction.
  Qed.

  Lemma owning_cases {A} items (m : M (world T C) A) w :
    match m w with
    | Unwound w' => owning_d dtor items m w = unwinding dtor items w' (fun w => w) /\ owning items m w = Unwound (w_drop items w')
    | r => owning_d dtor items m w = r /\ owning items m w = r
    end.
  Proof. unfold owning_d, owning. destruct (m w); auto. Qed.

  Lemma into_mapping_post_d ty (t : tensor T) (w : world T C) S0 R :
    tensor_ok t -> ty_wf ty -> balanced S0 (R ++ tn_mem t) w -> opost_d S0 R (tn_into_mapping_d dtor ty t w).
  Proof.
    intros Ht Hty HB. pose proof (@into_mapping_post T C ty t w S0 R Ht Hty HB) as H.
    unfold tn_into_mapping_d. unfold tn_into_mapping in H. unfold tn_into_vec, seqM in *. rewrite (to_vec_ok Ht) in *.
    cbn [ret fst snd] in *. 
    match goal with |- context [owning_d dtor (tn_mem t) ?m w] => pose proof (owning_cases (tn_mem t) m w) as HO; destruct (m w) as [mp w'|w'| |] end;
      destruct HO as [-> HO]; rewrite HO in H.
    - unfold from_parts in *. destruct (_ =? _); auto.
    - uw c HL; auto.
    - contradiction.
    - contradiction.
  Qed.

  Lemma into_shape_post_d ty dims (t : tensor T) (w : world T C) S0 R :
    tensor_ok t -> nonneg dims -> match sh_rank ty with Some k => length dims = k | None => True end -> ty_wf ty ->
    balanced S0 (R ++ tn_mem t) w -> opost_d S0 R (tn_into_shape_d dtor ty dims t w).
  Proof.
    intros Ht Hn HR Hty HB. pose proof (@into_shape_post T C ty dims t w S0 R Ht Hn HR Hty HB) as H.
    unfold tn_into_shape_d. unfold tn_into_shape in H. unfold tn_into_vec, seqM in *. rewrite (to_vec_ok Ht) in *.
    cbn [ret fst snd] in *. 
    match goal with |- context [owning_d dtor (tn_mem t) ?m w] => pose proof (owning_cases (tn_mem t) m w) as HO; destruct (m w) as [mp w'|w'| |] end;
      destruct HO as [-> HO]; rewrite HO in H.
    - unfold from_parts in *. destruct (_ =? _); auto.
    - uw c HL; auto.
    - contradiction.
    - contradiction.
  Qed.

  Lemma from_expr_post_d (e : expression T) (w : world T C) S0 R :
    honest e -> typed (e_ty e) (e_dims e) -> ty_wf (e_ty e) -> balanced S0 R w -> opost_d S0 R (tn_from_expr_d dtor al e w).
  Proof.
    intros HON HT Hty HB. pose proof (@from_expr_post T C al e w S0 R HON HT Hty HB) as H.
    unfold tn_from_expr_d. unfold tn_from_expr in H. destruct (_ || _); auto.
    destruct (clone_into_vec _ _ _) as [u p|p| |]; auto; try contradiction.
    - unfold from_parts in *. destruct (_ =? _); auto.
    - uw c HL; auto.
  Qed.

  Lemma zip_guard_cases (z : zipping T C) :
    match zip_guard z with
    | Unwound w => exists ds, w = w_drop ds (z_w z) /\ zip_guard_d dtor z = unwinding dtor ds (z_w z) (fun w => w)
    | r => zip_guard_d dtor z = r
    end.
  Proof.
    unfold zip_guard, zip_guard_d. destruct (_ <=? _); auto. eexists. split; [|reflexivity].
    destruct (_ <? _); auto. unfold w_drop. cbn [w_clo w_made w_used w_dropped]. now rewrite <- app_assoc.
  Qed.

  Lemma zip_with_cases {Y} (e : expression Y) (f : T * Y -> C -> call T C) (t : tensor T) w :
    match tn_zip_with e f t w with
    | Unwound w' => exists ds w1, w' = w_drop ds w1 /\ tn_zip_with_d dtor e f t w = unwinding dtor ds w1 (fun w => w)
    | r => tn_zip_with_d dtor e f t w = r
    end.
  Proof.
    unfold tn_zip_with, tn_zip_with_d. destruct (to_vec_raw t); auto. destruct (e_zip _ _); auto.
    - destruct ((zip_loop _ _ ;;; _) _) as [u z|z| |]; auto.
      + unfold from_parts. destruct (_ =? _); auto.
      + pose proof (zip_guard_cases z) as H. destruct (zip_guard z); auto. destruct H as (ds & H). eauto.
    - pose proof (zip_guard_cases (mkZip l 0 w)) as H. destruct (zip_guard (mkZip l 0 w)); auto. destruct H as (ds & H). eauto.
  Qed.

  Lemma map_post_d (f : T -> C -> call T C) (t : tensor T) w S0 R :
    tensor_ok t -> balanced S0 (R ++ tn_mem t) w -> opost_d S0 R (tn_map_d dtor f t w).
  Proof.
    intros Ht HB. pose proof (@map_post T C f t w S0 R Ht HB) as H. unfold tn_map in H. unfold tn_map_d.
    pose proof (@zip_with_cases _ (e_fill (fun s : unit => Ok (tt, s)) tt) (fun p => f (fst p)) t w) as HC.
    destruct (tn_zip_with _ _ _ _) as [t' w'|w'| |]; try contradiction.
    - rewrite HC. exact H.
    - destruct HC as (ds & w1 & -> & ->).
      uw c HL; auto.
  Qed.

  (** ** One step *)

  Definition step_post_d (st : state T C) (l : list T) (n : option nat) (r : result (state T C) unit) : Prop :=
    match r with
    | Done _ st' => exists more, consistent st' (l ++ more) /\ within more n
    | Aborted => bad_default st \/ loud
    | _ => False
    end.

  Lemma on_var_step_d {A} (m : M (tensor T * world T C) A) (st : state T C) l i n :
    consistent st l ->
    (forall t R, var st i = Some t -> tensor_ok t -> balanced [] (R ++ tn_mem t) (st_w st) ->
       tpost_d (tn_ty t) [] R (m (t, st_w st))) ->
    step_post_d st l (Some n) (on_var i m st).
  Proof.
    intros HC HM. unfold on_var. destruct (var st i) as [t|] eqn:HV.
    2:{ exists []. rewrite app_nil_r. split; auto. cbn. lia. }
    specialize (HM t _ eq_refl (var_ok HC HV) (open_var HC HV)).
    destruct (m (t, st_w st)) as [a [t' w']|[t' w']| |]; cbn [tpost_d] in HM; auto.
    - destruct HM as (H1 & H2 & H3). exists []. split; [|cbn; lia]. apply (close_var (v := Some t') (more := []) HC HV H1 H3).
    - destruct HM as (H1 & H2 & H3). exists []. split; [|cbn; lia]. apply (close_var (v := Some t') (more := []) HC HV H1 H3).
    - destruct HM as [H|H]; [left|right; auto]. exists i, t. auto.
  Qed.

  Lemma create_step_d (m : M (world T C) (tensor T)) (st : state T C) l :
    consistent st l -> (forall R, balanced [] R (st_w st) -> opost_d [] R (m (st_w st))) ->
    step_post_d st l (Some 0%nat) (create m st).
  Proof.
    intros [HF HP] HM. unfold create.
    assert (HB : balanced [] (l ++ held (st_vars st)) (st_w st)).
    { unfold balanced. cbn [app]. rewrite HP. perm. }
    specialize (HM _ HB). destruct (m (st_w st)) as [t w|w| |]; cbn [opost_d] in HM; cbn [step_post_d]; auto;
      exists []; rewrite app_nil_r; (split; [|cbn; lia]).
    - destruct HM as [H1 H2]. unfold balanced in H2. cbn [app] in H2. split; cbn [st_vars st_w].
      + apply Forall_app. split; auto.
      + rewrite H2. unfold held. rewrite flat_map_app. cbn [flat_map]. rewrite app_nil_r. perm.
    - unfold balanced in HM. cbn [app] in HM. split; cbn [st_vars st_w]; auto. rewrite HM. perm.
  Qed.

  Lemma consume_step_d (m : tensor T -> M (world T C) (option (tensor T))) (st : state T C) l i n :
    consistent st l ->
    (forall t R, var st i = Some t -> tensor_ok t -> balanced [] (R ++ tn_mem t) (st_w st) ->
       match m t (st_w st) with
       | Done v w => exists more, (length more <= n)%nat /\ match v with Some t' => tensor_ok t' | None => True end /\
                     balanced [] (R ++ more ++ match v with Some t' => tn_mem t' | None => [] end) w
       | Unwound w => exists more, (length more <= n)%nat /\ balanced [] (R ++ more) w
       | Aborted => loud
       | Fault => False
       end) ->
    step_post_d st l (Some n) (consume i m st).
  Proof.
    intros HC HM. unfold consume. destruct (var st i) as [t|] eqn:HV.
    2:{ exists []. rewrite app_nil_r. split; auto. cbn. lia. }
    specialize (HM t _ eq_refl (var_ok HC HV) (open_var HC HV)).
    destruct (m t (st_w st)) as [v w|w| |]; cbn [step_post_d]; auto.
    - destruct HM as (more & HL & H1 & H2). exists more. split; auto. apply (close_var (v := v) HC HV H1 H2).
    - destruct HM as (more & HL & H2). exists more. split; auto. apply (close_var (v := None) HC HV I). now rewrite app_nil_r.
  Qed.

  Lemma keep_step_d (r : tensor T -> M (world T C) (tensor T)) (st : state T C) l i :
    consistent st l ->
    (forall t R, var st i = Some t -> tensor_ok t -> balanced [] (R ++ tn_mem t) (st_w st) -> opost_d [] R (r t (st_w st))) ->
    step_post_d st l (Some 0%nat) (consume i (fun t => kept (r t)) st).
  Proof.
    intros HC HM. apply consume_step_d; auto. intros t R HV Ht HB. specialize (HM t R HV Ht HB).
    unfold kept, seqM. destruct (r t (st_w st)) as [t' w'|w'| |]; cbn [opost_d] in HM; auto.
    - cbn [ret]. exists []. split; [cbn; lia|]. exact HM.
    - exists []. split; [cbn; lia|]. now rewrite app_nil_r.
  Qed.

  Theorem step_ok_d (o : op T C) (st : state T C) l :
    consistent st l -> op_ok o st -> step_post_d st l (leak_limit o) (step_d dtor al o st).
  Proof.
    intros HC HO. assert (HN : step_post_d st l (Some 0%nat) (Done tt st)) by (exists []; rewrite app_nil_r; cbn; auto).
    destruct o; cbn [step_d op_ok leak_limit] in *.
    - apply create_step_d; auto. intros R HB. destruct HO as (H1 & H2 & H3).
      pose proof (@with_capacity_post T C al ty cap (st_w st) [] R H1 H2 H3 HB) as H. destruct (tn_with_capacity al ty cap (st_w st)); auto. contradiction.
    - apply create_step_d; auto. intros R HB. rewrite from_vec_done. cbn [opost_d tn_mem].
      split; [now apply from_vec_ok|]. unfold balanced in *. cbn [w_made w_used w_dropped]. rewrite app_assoc, HB. perm.
    - apply create_step_d; auto. intros R HB. apply from_expr_post_d; tauto.
    - destruct (var st i) as [t|] eqn:HV; auto.
      apply create_step_d; auto. intros R HB. apply clone_post_d; auto. exact (var_ok HC HV).
    - apply on_var_step_d; auto. intros t R HV Ht HB. now apply clear_post_d.
    - apply on_var_step_d; auto. intros t R HV Ht HB. now apply truncate_post_d.
    - apply on_var_step_d; auto. intros t R HV Ht HB. now apply reserve_post_d.
    - apply on_var_step_d; auto. intros t R HV Ht HB. now apply try_reserve_post_d.
    - apply on_var_step_d; auto. intros t R HV Ht HB. now apply shrink_post_d.
    - apply on_var_step_d; auto. intros t R HV Ht HB. now apply expand_post_d.
    - apply on_var_step_d; auto. intros t R HV Ht HB. apply extend_post_d; auto.
    - apply on_var_step_d; auto. intros t R HV Ht HB. now apply resize_post_d.
    - apply on_var_step_d; auto. intros t R HV Ht HB. now apply resize_value_post_d.
    - apply on_var_step_d; auto. intros t R HV Ht HB. destruct HO as (H1 & H2 & H3). apply drain_take_post_d; auto.
    - destruct HO as (H1 & H2 & H3). unfold on_var. destruct (var st i) as [t|] eqn:HV.
      2:{ exists []. rewrite app_nil_r. cbn. auto. }
      destruct (drain_leak_post k (var_ok HC HV) H1 H2 (H3 t eq_refl) (open_var HC HV)) as (more & H).
      destruct (drained_by lo hi k _ (t, st_w st)) as [a [t' w']|[t' w']| |]; try contradiction;
        destruct H as [K1 K2]; exists more; (split; [|exact I]); apply (close_var (v := Some t') HC HV K1 K2).
    - destruct HO as [NE HT]. destruct (var st j) as [u|] eqn:HU; auto.
      apply on_var_step_d; auto. intros t R HV Ht HB. pose proof (var_ok HC HU) as Hu. apply clone_from_post_d; auto.
      + apply Hu.
      + rewrite (HT t u HV eq_refl). apply Hu.
      + exact (to_len Hu).
    - destruct (var st i) as [t|] eqn:HV; auto.
      destruct (var st j) as [u|] eqn:HU; auto.
      pose proof (var_ok HC HV) as Ht. pose proof (var_ok HC HU) as Hu.
      (* the program without the two tensors *)
      set (st1 := set_var i None (st_w st) st).
      assert (HU1 : var st1 j = Some u).
      { unfold var, st1, set_var. cbn [st_vars]. rewrite nth_error_upd_other by auto. now rewrite (var_nth HU). }
      assert (HB : balanced [] ((l ++ others st1 j) ++ tn_mem t ++ tn_mem u) (st_w st)).
      { pose proof (open_var HC HV) as H. unfold balanced in *. rewrite H. unfold others at 1.
        pose proof (@held_upd T (st_vars st1) j (Some u) (var_lt HU1)) as P. rewrite (upd_self (var_nth HU1)) in P.
        change (held (upd (st_vars st) i None)) with (held (st_vars st1)). rewrite P. unfold others. perm. }
      pose proof (@append_post_d t u (st_w st) [] (l ++ others st1 j) Ht Hu HB) as H.
      assert (G : forall t' u' w', tensor_ok t' -> tensor_ok u' ->
        balanced [] ((l ++ others st1 j) ++ tn_mem t' ++ tn_mem u') w' ->
        consistent (set_var j (Some u') w' (set_var i (Some t') w' st)) (l ++ [])).
      { intros t' u' w' Ht' Hu' HB'. split.
        - cbn [set_var st_vars]. apply Forall_upd'; auto. apply Forall_upd'; auto. apply HC.
        - unfold balanced in HB'. cbn [app] in HB'. cbn [set_var st_vars st_w]. rewrite HB'.
          assert (LJ : (j < length (upd (st_vars st) i (Some t')))%nat) by (rewrite upd_length; apply (var_lt HU)).
          rewrite (@held_upd T (upd (st_vars st) i (Some t')) j (Some u') LJ).
          assert (EX : upd (upd (st_vars st) i (Some t')) j None = upd (upd (st_vars st) j None) i (Some t')).
          { clear -HO. generalize (st_vars st). intros vs. revert i j HO. induction vs as [|v vs IH]; intros [|i] [|j] NE; cbn; auto; try congruence.
            f_equal. apply IH. congruence. }
          assert (EX' : upd (st_vars st1) j None = upd (upd (st_vars st) j None) i None).
          { unfold st1. cbn [set_var st_vars]. clear -HO. generalize (st_vars st). intros vs. revert i j HO. induction vs as [|v vs IH]; intros [|i] [|j] NE; cbn; auto; try congruence.
            f_equal. apply IH. congruence. }
          assert (LI : (i < length (upd (st_vars st) j None))%nat) by (rewrite upd_length; apply (var_lt HV)).
          rewrite EX. rewrite (@held_upd T _ i (Some t') LI). unfold others. rewrite EX'. rewrite app_nil_r. perm. }
      destruct (tn_append_d dtor al (t, u, st_w st)) as [a [[t' u'] w']|[[t' u'] w']| |]; try contradiction; [| |right; exact H];
        destruct H as (K1 & K2 & _ & _ & K3); exists []; (split; [|cbn; lia]); auto.
    - apply keep_step_d; auto. intros t R HV Ht HB. destruct HO as (H1 & H2 & H3). now apply into_shape_post_d.
    - apply keep_step_d; auto. intros t R HV Ht HB. now apply into_mapping_post_d.
    - apply keep_step_d; auto. intros t R HV Ht HB. rewrite into_flat_done by auto. cbn [opost_d tn_mem]. split; auto.
      apply from_vec_ok. apply (to_cap Ht).
    - apply consume_step_d; auto. intros t R HV Ht HB.
      destruct (@zip_with_post _ _ _ e f t (st_w st) [] R Ht (HO t HV) HB) as (more & HL & H).
      pose proof (@zip_with_cases _ e f t (st_w st)) as HZ.
      unfold kept, seqM. destruct (tn_zip_with e f t (st_w st)) as [t' w'|w'| |]; try contradiction.
      + rewrite HZ. cbn [ret]. exists more. split; auto. destruct H as (K1 & _ & _ & K2 & ->). auto.
      + destruct HZ as (ds & w1 & -> & ->).
        uw c HL'; eauto.
    - apply keep_step_d; auto. intros t R HV Ht HB. now apply map_post_d.
    - apply consume_step_d; auto. intros t R HV Ht HB. unfold seqM, tn_iterate_d.
      destruct (@into_nexts T (tn_ty t) (tn_dims t) (tn_mem t) k (to_len Ht)) as (it & E & ED). rewrite E, ED, somes_firstn.
      assert (HB' : forall c, balanced [] R (w_drop (skipn k (tn_mem t)) (w_set c (w_uses (firstn k (tn_mem t)) (st_w st))))).
      { intros c. unfold balanced, w_drop, w_uses, w_set in *. cbn [w_made w_used w_dropped]. rewrite HB.
        rewrite <- (firstn_skipn k (tn_mem t)) at 1. perm. }
      dr c HL; auto;
        exists []; (split; [cbn; lia|]); cbn [ret app]; rewrite app_nil_r; auto.
    - apply consume_step_d; auto. intros t R HV Ht HB. unfold seqM, tn_into_scalar_d.
      destruct (into_scalar_done (st_w st) Ht) as [H1 H2]. unfold tn_into_scalar in *. rewrite (to_vec_ok Ht) in *.
      unfold tn_len in *. rewrite sh_len_prod in *. destruct (Z.eqb_spec (prodZ (tn_dims t)) 1) as [E|E].
      + destruct (H1 E) as (x & EX & E2). rewrite EX in *. cbn [rev app] in *. exists []. split; [cbn; lia|]. split; auto.
        unfold balanced, w_use in *. cbn [w_made w_used w_dropped]. rewrite HB. cbn [app]. rewrite app_nil_r. perm.
      + uw c HL'; auto.
        exists []. split; [cbn; lia|]. rewrite app_nil_r. eapply balanced_dropped; [exact HB|reflexivity].
    - apply consume_step_d; auto. intros t R HV Ht HB. unfold seqM, tn_drop_d. rewrite (to_vec_ok Ht).
      dr c HL; auto;
        exists []; (split; [cbn; lia|]); cbn [ret app]; rewrite app_nil_r; try (split; [exact I|]); (eapply balanced_dropped; [exact HB|reflexivity]).
  Qed.

  (** ** Any number of steps *)

  Theorem run_ok_d (ops : list (op T C)) (st : state T C) l :
    consistent st l -> ops_ok_d dtor al ops st ->
    match run_ops_d dtor al ops st with
    | Done _ st' => exists more, consistent st' (l ++ more) /\ within more (leak_limits ops)
    | Aborted => loud \/ exists ops1 ops2 st1, ops = ops1 ++ ops2 /\ run_ops_d dtor al ops1 st = Done tt st1 /\ bad_default st1
    | _ => False
    end.
  Proof.
    revert st l. induction ops as [|o ops IH]; intros st l HC HO; cbn [run_ops_d leak_limits].
    - exists []. rewrite app_nil_r. cbn. auto.
    - destruct HO as [HO HS]. pose proof (step_ok_d HC HO) as H. unfold step_post_d in H. unfold seqM.
      destruct (step_d dtor al o st) as [[] st'|st'| |] eqn:E; auto.
      + destruct H as (more & HC' & HW). specialize (IH st' _ HC' (HS st' eq_refl)).
        destruct (run_ops_d dtor al ops st') as [[] st2|st2| |]; auto.
        * destruct IH as (more2 & HC2 & HW2). exists (more ++ more2). rewrite app_assoc. split; auto.
          unfold within in *. destruct (leak_limit o), (leak_limits ops); auto. rewrite app_length. lia.
        * destruct IH as [IH|(ops1 & ops2 & st1 & -> & ER & HB)]; auto. right. exists (o :: ops1), ops2, st1.
          split; auto. split; auto. cbn [run_ops_d]. unfold seqM. now rewrite E.
      + destruct H as [H|H]; auto. right. exists [], (o :: ops), st. split; auto.
  Qed.

  (** ** How many destructors panic *)

  (** All destructors of [xs] in order, whether they panic or not: the number of panics. *)
  Fixpoint panics (xs : list T) (c : C) : nat * C :=
    match xs with
    | [] => (O, c)
    | x :: xt =>
        match dtor x c with
        | Gives _ c => panics xt c
        | Throws c => let (n, c) := panics xt c in (S n, c)
        end
    end.

  Lemma drop_seq_panics b xs c :
    drop_seq dtor b xs c =
    match fst (panics xs c), b with
    | O, false => Quiet (snd (panics xs c))
    | O, true | S O, false => Loud (snd (panics xs c))
    | _, _ => Twice
    end.
  Proof.
    revert b c. induction xs as [|x xs IH]; intros b c; cbn [drop_seq panics].
    - cbn [fst snd]. now destruct b.
    - destruct (dtor x c) as [u c'|c']; [apply IH|]. destruct b.
      + destruct (panics xs c') as [n c2]. now destruct n.
      + rewrite IH. destruct (panics xs c') as [[|[|n]] c2]; reflexivity.
  Qed.

  Lemma dropping_panics {S A} xs (w : world T C) (a : A) (k : world T C -> S) :
    dropping dtor xs w a k =
    match fst (panics xs (w_clo w)) with
    | O => Done a (k (w_drop xs (w_set (snd (panics xs (w_clo w))) w)))
    | 1%nat => Unwound (k (w_drop xs (w_set (snd (panics xs (w_clo w))) w)))
    | _ => Aborted
    end.
  Proof. unfold dropping. rewrite drop_seq_panics. now destruct (fst (panics xs (w_clo w))) as [|[|n]]. Qed.

  Lemma unwinding_panics {S A} xs (w : world T C) (k : world T C -> S) :
    unwinding (A := A) dtor xs w k =
    match fst (panics xs (w_clo w)) with
    | O => Unwound (k (w_drop xs (w_set (snd (panics xs (w_clo w))) w)))
    | _ => Aborted
    end.
  Proof. unfold unwinding. rewrite drop_seq_panics. now destruct (fst (panics xs (w_clo w))) as [|[|n]]. Qed.

  Lemma panics_le xs c : (fst (panics xs c) <= length xs)%nat.
  Proof.
    revert c. induction xs as [|x xs IH]; intros c; cbn [panics length fst]; [lia|].
    destruct (dtor x c) as [u c'|c']; specialize (IH c'); [lia|]. destruct (panics xs c'). cbn [fst] in *. lia.
  Qed.

  (** ** Exact results *)

  Lemma clear_exact_d t (w : world T C) :
    tensor_ok t -> prodZ (sh_default (tn_ty t)) = 0 ->
    tn_clear_d dtor (t, w) =
    dropping dtor (tn_mem t) w tt (fun w => (mkTensor (tn_ty t) (sh_default (tn_ty t)) [] (tn_cap t), w)).
  Proof.
    intros Ht HD. unfold tn_clear_d. cbn [fst]. rewrite sh_len_prod, HD. cbn [Z.eqb]. unfold seqM at 1. cbn [check].
    unfold with_mut_parts_d. rewrite (to_vec_ok Ht). unfold seqM, vec_truncate_d. cbn [p_items p_cap p_dims p_w Z.to_nat firstn skipn].
    rewrite !dropping_panics. pose proof (panics_le (tn_mem t) (w_clo w)) as HL. pose proof (to_len Ht) as HT.
    destruct (fst (panics (tn_mem t) (w_clo w))) as [|[|n]]; cbn [p_set_dims p_items p_cap p_dims p_w]; auto.
    - rewrite sh_len_prod, HD. reflexivity.
    - rewrite !sh_len_prod, HD. unfold zlen. cbn [length].
      destruct (Z.eqb_spec (Z.of_nat 0) (prodZ (tn_dims t))) as [E|E]; [cbn in *; lia|].
      cbn [Z.eqb]. unfold unwinding. cbn [drop_seq]. unfold w_drop, w_set. cbn [w_clo w_made w_used w_dropped]. now rewrite app_nil_r.
  Qed.

  Lemma truncate_exact_d t (w : world T C) size :
    tensor_ok t -> outer_ok t = true -> 0 <= size ->
    let n := Z.min size (nth 0 (tn_dims t) 0) in
    let keep := Z.to_nat (n * prodZ (tl (tn_dims t))) in
    tn_truncate_d dtor size (t, w) =
    dropping dtor (skipn keep (tn_mem t)) w tt
      (fun w => (mkTensor (tn_ty t) (upd (tn_dims t) 0 n) (firstn keep (tn_mem t)) (tn_cap t), w)).
  Proof.
    intros Ht HO Hs n keep. destruct (outer_ok_inv HO) as [HD HH]. unfold tn_truncate_d, seqM. rewrite check_outer_spec, HO.
    pose proof (to_nonneg Ht) as HN. pose proof (to_len Ht) as HL. rewrite (dims_cons HD), prodZ_cons in HL.
    assert (HN' : 0 <= nth 0 (tn_dims t) 0 /\ nonneg (tl (tn_dims t))).
    { rewrite (dims_cons HD) in HN. inversion HN; auto. }
    destruct HN' as [HN0 HNt]. pose proof (prodZ_nonneg HNt) as HP. cbn [fst].
    destruct (Z.ltb_spec size (nth 0 (tn_dims t) 0)) as [Hlt|Hge].
    - assert (En : n = size) by (unfold n; lia). clearbody n. subst n.
      unfold with_mut_parts_d. rewrite (to_vec_ok Ht).
      unfold p_store, lift, seqM. cbn [p_dims]. rewrite sh_store_typed by (apply typed_head; auto; apply (to_typed Ht)).
      cbn [p_items p_cap p_w p_dims]. unfold vec_truncate_d. cbn [p_items p_cap p_w p_dims].
      rewrite sh_len_prod, prodZ_upd0 by auto. fold keep. rewrite !dropping_panics.
      assert (EL : zlen (firstn keep (tn_mem t)) =? sh_len (upd (tn_dims t) 0 size) = true).
      { rewrite sh_len_prod, prodZ_upd0 by auto. apply Z.eqb_eq. unfold keep. apply zlen_firstn. unfold zlen. nia. }
      destruct (fst (panics _ _)) as [|[|m]]; cbn [p_items p_cap p_dims p_w]; try rewrite EL; reflexivity.
    - assert (En : n = nth 0 (tn_dims t) 0) by (unfold n; lia). clearbody n. subst n.
      assert (EK : keep = length (tn_mem t)) by (unfold keep; lia). clearbody keep. subst keep.
      rewrite upd_same, firstn_all, skipn_all by (destruct (tn_dims t); cbn; [congruence|lia]).
      unfold dropping. cbn [drop_seq]. unfold w_drop, w_set. cbn [w_clo w_made w_used w_dropped]. rewrite app_nil_r. destruct t, w; reflexivity.
  Qed.

  Lemma drain_exact_d lo hi k t (w : world T C) :
    tensor_ok t -> bound_arg lo -> bound_arg hi -> nth 0 (tn_dims t) 0 <= usize_max ->
    let n := nth 0 (tn_dims t) 0 in
    let a := range_lo lo in let b := range_hi n hi in
    drained_by lo hi k (drain_drop_d dtor false) (t, w) =
    if outer_ok t && (a <=? b) && (b <=? n)
    then dropping dtor (skipn k (rows t a b)) (w_uses (firstn k (rows t a b)) w) tt
           (fun w => (mkTensor (tn_ty t) (upd (tn_dims t) 0 (n - (b - a))) (rows t 0 a ++ rows t b n) (tn_cap t), w))
    else Unwound (t, w).
  Proof.
    intros Ht Hl Hh Hd n a b. unfold drained_by. cbn [fst snd]. rewrite drain_ok_eq by auto. fold n a b.
    destruct (outer_ok t) eqn:HO; cbn [andb]; auto.
    destruct (Z.leb_spec a b) as [Hab|Hab]; cbn [andb]; auto.
    destruct (Z.leb_spec b n) as [Hbn|Hbn]; cbn [andb]; auto.
    assert (Ha : 0 <= a <= b) by (split; auto; unfold a; destruct lo; unfold bound_arg, usize, range_lo in *; lia).
    destruct (drain_nexts Ht HO Ha Hbn k) as (it & E & ES). rewrite E, ES, somes_firstn.
    set (w' := w_uses (firstn k (rows t a b)) w).
    pose proof (drain_drop_split false (drain_at (Nat.min k (length (rows t a b))) (drained t a b)) w') as HS.
    rewrite drain_drop_eq in HS by (auto; lia). destruct HS as (xs & EX & ->).
    assert (ES' : skipn (Nat.min k (length (rows t a b))) (rows t a b) = skipn k (rows t a b)).
    { destruct (Nat.le_ge_cases k (length (rows t a b))); [now rewrite Nat.min_l|]. rewrite Nat.min_r, !skipn_all2 by lia. reflexivity. }
    rewrite ES' in EX. assert (xs = skipn k (rows t a b)) as ->.
    { unfold w_drop in EX. injection EX as EX. symmetry. eapply app_inv_head. exact EX. }
    reflexivity.
  Qed.
End Facts.

(** ** Destructors that do nothing visible *)

Section Quiet.
  Context {T C : Type} (dtor : T -> C -> call unit C) (al : allocator).
  Hypothesis HQ : forall x c, dtor x c = Gives tt c.

  Lemma dropping_quiet {S A} xs (w : world T C) (a : A) (k : world T C -> S) :
    dropping dtor xs w a k = Done a (k (w_drop xs w)).
  Proof. unfold dropping. rewrite drop_seq_quiet by auto. now destruct w. Qed.
  Lemma unwinding_quiet {S A} xs (w : world T C) (k : world T C -> S) :
    unwinding (A := A) dtor xs w k = Unwound (k (w_drop xs w)).
  Proof. unfold unwinding. rewrite drop_seq_quiet by auto. now destruct w. Qed.

  Lemma truncate_quiet n p : vec_truncate_d dtor n p = vec_truncate n p.
  Proof. unfold vec_truncate_d, vec_truncate. now rewrite dropping_quiet. Qed.
  Lemma vec_resize_quiet n f p : vec_resize_with_d dtor al n f p = vec_resize_with al n f p.
  Proof. unfold vec_resize_with_d, vec_resize_with. now rewrite truncate_quiet. Qed.
  Lemma wmp_quiet {A} (m m' : shty -> M (parts T C) A) s :
    (forall ty p, m ty p = m' ty p) -> with_mut_parts_d dtor m s = with_mut_parts m' s.
  Proof.
    intros H. unfold with_mut_parts_d, with_mut_parts. destruct s as [t w]. destruct (to_vec_raw t); auto. rewrite H.
    destruct (m' _ _); auto. destruct (_ =? _); auto. destruct (_ =? _); auto. now rewrite unwinding_quiet.
  Qed.
  Lemma seqM_ext {S A B} (m m' : M S A) (k k' : A -> M S B) s :
    m s = m' s -> (forall a s, k a s = k' a s) -> seqM m k s = seqM m' k' s.
  Proof. intros H1 H2. unfold seqM. rewrite H1. destruct (m' s); auto. Qed.

  Lemma vec_extend_quiet fs p : vec_extend_d dtor al fs p = vec_extend al fs p.
  Proof.
    revert p. induction fs as [|f fs IH]; intros p; cbn [vec_extend_d vec_extend]; auto.
    apply seqM_ext; auto. intros x q. apply seqM_ext.
    - destruct (vec_reserve al 1 q); auto. now rewrite unwinding_quiet.
    - intros u r. apply seqM_ext; auto.
  Qed.
  Lemma timesM_ext {S} n (m m' : M S unit) s : (forall s, m s = m' s) -> timesM n m s = timesM n m' s.
  Proof. intros H. revert s. induction n as [|n IH]; intros s; cbn [timesM]; auto. now apply seqM_ext. Qed.
  Lemma copy_dim_quiet f old new s : copy_dim_d dtor f old new s = copy_dim f old new s.
  Proof.
    revert new s. induction old as [|o ot IH]; intros [|n nt] s; cbn [copy_dim_d copy_dim]; auto.
    apply seqM_ext.
    - destruct ot; auto. apply timesM_ext. auto.
    - intros _ s1. apply seqM_ext; auto. destruct (_ <? _); auto.
      unfold copy_drop_d, copy_drop. now rewrite dropping_quiet.
  Qed.
  Lemma resize_copy_quiet n new f p : resize_copy_d dtor al n new f p = resize_copy al n new f p.
  Proof.
    unfold resize_copy_d, resize_copy. destruct (al_ok al n); auto. rewrite copy_dim_quiet.
    destruct (copy_dim _ _ _ _); auto; [now rewrite dropping_quiet|now rewrite unwinding_quiet].
  Qed.
  Lemma resize_with_quiet new f s : tn_resize_with_d dtor al new f s = tn_resize_with al new f s.
  Proof.
    unfold tn_resize_with_d, tn_resize_with. apply seqM_ext; auto. intros _ s1. destruct new as [|n nt]; auto.
    destruct (sh_checked_len (n :: nt)); auto. apply wmp_quiet. intros ty p. apply seqM_ext; auto.
    destruct (_ =? _); [apply truncate_quiet|]. destruct (slice_eqb _ _); [apply vec_resize_quiet|apply resize_copy_quiet].
  Qed.
  Lemma drain_drop_quiet b d w :
    drain_drop_d dtor b d w =
    match drain_drop d w with Done _ s => if b then Unwound s else Done tt s | r => r end.
  Proof.
    pose proof (drain_drop_split dtor b d w) as H. destruct (drain_drop d w) as [[] [t w']|s| |]; auto.
    destruct H as (xs & -> & ->). destruct b; [apply unwinding_quiet|apply dropping_quiet].
  Qed.
  Lemma append_quiet s : tn_append_d dtor al s = tn_append al s.
  Proof.
    destruct s as [[t u] w]. unfold tn_append_d, tn_append. destruct (tn_drain u Unbounded Unbounded) as [d| | |]; auto.
    destruct (tn_expand al (e_drain d) _ _) as [[] [s' w']|[s' w']| |]; auto; rewrite drain_drop_quiet;
      match goal with |- context [drain_drop ?d ?w] => destruct (drain_drop d w) as [[] [t' w'']|[t' w'']| |] end; auto.
  Qed.
  Lemma assign_quiet cl i xs p : assign_loop_d dtor cl i xs p = assign_loop cl i xs p.
  Proof.
    revert i p. induction xs as [|x xs IH]; intros i p; cbn [assign_loop_d assign_loop]; auto.
    apply seqM_ext; auto. intros y q. apply seqM_ext; auto. destruct (nth_error _ _); auto. now rewrite dropping_quiet.
  Qed.
  Lemma clone_from_quiet cl src dims s : tn_clone_from_d dtor al cl src dims s = tn_clone_from al cl src dims s.
  Proof.
    apply wmp_quiet. intros _ p. apply seqM_ext; auto. unfold vec_clone_from_d, vec_clone_from.
    apply seqM_ext; [apply truncate_quiet|]. intros _ q. apply seqM_ext; auto. apply assign_quiet.
  Qed.
  Lemma clone_quiet cl t w : tn_clone_d dtor cl t w = tn_clone cl t w.
  Proof.
    unfold tn_clone_d, tn_clone. destruct (to_vec_raw t) as [items|]; auto. apply seqM_ext; auto. generalize (@nil T).
    revert w. induction items as [|x xs IH]; intros w l; cbn [clone_items_d clone_items]; auto.
    destruct (cl x (w_clo w)); auto. now rewrite unwinding_quiet.
  Qed.
  Lemma owning_quiet {A} items (m : M (world T C) A) w : owning_d dtor items m w = owning items m w.
  Proof. unfold owning_d, owning. destruct (m w); auto. now rewrite unwinding_quiet. Qed.
  Lemma zip_guard_quiet (z : zipping T C) : zip_guard_d dtor z = zip_guard z.
  Proof.
    pose proof (zip_guard_cases dtor z) as H. destruct (zip_guard z); auto. destruct H as (ds & -> & ->). apply unwinding_quiet.
  Qed.
  Lemma zip_with_quiet {Y} (e : expression Y) (f : T * Y -> C -> call T C) t w :
    tn_zip_with_d dtor e f t w = tn_zip_with e f t w.
  Proof.
    unfold tn_zip_with_d, tn_zip_with. destruct (to_vec_raw t); auto. destruct (e_zip _ _); auto using zip_guard_quiet.
    destruct ((zip_loop _ _ ;;; _) _); auto using zip_guard_quiet.
  Qed.

  Lemma on_var_ext {A} i (m m' : M (tensor T * world T C) A) st : (forall s, m s = m' s) -> on_var i m st = on_var i m' st.
  Proof. intros H. unfold on_var. destruct (var st i); auto. now rewrite H. Qed.
  Lemma create_ext (m m' : M (world T C) (tensor T)) st : (forall s, m s = m' s) -> create m st = create m' st.
  Proof. intros H. unfold create. now rewrite H. Qed.
  Lemma consume_ext i (m m' : tensor T -> M (world T C) (option (tensor T))) st :
    (forall t s, var st i = Some t -> m t s = m' t s) -> consume i m st = consume i m' st.
  Proof. intros H. unfold consume. destruct (var st i) eqn:E; auto. now rewrite H. Qed.
  Lemma kept_ext {A} (m m' : M (world T C) A) s : (forall s, m s = m' s) -> kept m s = kept m' s.
  Proof. intros H. unfold kept. now apply seqM_ext. Qed.

  Theorem step_quiet (o : op T C) (st : state T C) l :
    consistent st l -> step_d dtor al o st = step al o st.
  Proof.
    intros HC. destruct o; cbn [step_d step]; try reflexivity.
    - apply create_ext. intros w. unfold tn_from_expr_d, tn_from_expr. destruct (_ || _); auto.
      destruct (clone_into_vec _ _ _); auto. now rewrite unwinding_quiet.
    - destruct (var st i); auto. apply create_ext. intros w. apply clone_quiet.
    - apply on_var_ext. intros s. unfold tn_clear_d, tn_clear. apply seqM_ext; auto. intros _ s1. apply wmp_quiet.
      intros ty p. apply seqM_ext; auto. apply truncate_quiet.
    - apply on_var_ext. intros s. unfold tn_truncate_d, tn_truncate. apply seqM_ext; auto. intros _ s1.
      destruct (_ <? _); auto. apply wmp_quiet. intros ty p. apply seqM_ext; auto. intros u q. apply truncate_quiet.
    - apply on_var_ext. intros s. now apply wmp_quiet.
    - apply on_var_ext. intros s. now apply wmp_quiet.
    - apply on_var_ext. intros s. unfold tn_expand_d, tn_expand. apply seqM_ext; auto. intros _ s1.
      destruct (_ <? _); auto. now apply wmp_quiet.
    - apply on_var_ext. intros s. apply wmp_quiet. intros ty p. apply seqM_ext; auto. apply vec_extend_quiet.
    - apply on_var_ext. intros s. apply resize_with_quiet.
    - apply on_var_ext. intros s. unfold tn_resize_d, tn_resize. rewrite resize_with_quiet.
      destruct (tn_resize_with _ _ _ _) as [a [t w]|[t w]| |]; auto; [now rewrite dropping_quiet|now rewrite unwinding_quiet].
    - apply on_var_ext. intros s. unfold drained_by. destruct (tn_drain _ _ _); auto. destruct (it_nexts _ _) as [[xs it]| | |]; auto.
      rewrite drain_drop_quiet. match goal with |- context [drain_drop ?d ?w] => destruct (drain_drop d w) as [[] ?| | |] end; auto.
    - destruct (var st j); auto. apply on_var_ext. intros s. apply clone_from_quiet.
    - destruct (var st i); auto. destruct (var st j); auto. now rewrite append_quiet.
    - apply consume_ext. intros t w _. apply kept_ext. clear w. intros w. unfold tn_into_shape_d, tn_into_shape. apply seqM_ext; auto.
      intros x w1. apply seqM_ext; auto. apply owning_quiet.
    - apply consume_ext. intros t w _. apply kept_ext. clear w. intros w. unfold tn_into_mapping_d, tn_into_mapping. apply seqM_ext; auto.
      intros x w1. apply seqM_ext; auto. apply owning_quiet.
    - apply consume_ext. intros t w _. apply kept_ext. intros w1. apply zip_with_quiet.
    - apply consume_ext. intros t w _. apply kept_ext. intros w1. apply zip_with_quiet.
    - apply consume_ext. intros t w _. unfold seqM, tn_iterate_d. destruct (it_nexts _ _) as [[xs it]| | |]; auto.
      now rewrite dropping_quiet.
    - apply consume_ext. intros t w _. apply seqM_ext; auto. unfold tn_into_scalar_d, tn_into_scalar.
      destruct (_ =? _); auto. destruct (to_vec_raw t); auto. now rewrite unwinding_quiet.
    - apply consume_ext. intros t w HV. unfold seqM, tn_drop_d. rewrite (to_vec_ok (var_ok HC HV)). now rewrite dropping_quiet.
  Qed.
End Quiet.
