(** Moving elements out: consuming iteration, drain and append. *)
From Verif Require Import Base Spec SpecFacts Shape Mapping Index View Wf MappingFacts MapOps ReshapeFacts.
From Verif Require Import IndexFacts ViewFacts Expr ExprSpec ExprFacts IterFacts Tensor TensorSpec TraceFacts TensorFacts ResizeFacts.
From Verif Require Import TensorOps.
Unset Strict Implicit.

(** ** Expressions that take the elements of a list one after the other *)

Section Moving.
  Variables (A : Type) (e : expression A) (l : list A) (st : nat -> e_st e).
  Hypothesis HI : e_inner e = None.
  Hypothesis H0 : e_init e = st 0%nat.
  Hypothesis HR : forall d c s, e_reset e d c s = Ok s.
  Hypothesis HG : forall i k x, nth_error l k = Some x -> e_get e i (st k) = Ok (x, st (S k)).
  Hypothesis HL : zlen l = prodZ (e_dims e).

  Local Lemma outer0 : outer_rank e = 0%nat.
  Proof. unfold outer_rank. now rewrite HI. Qed.

  Local Lemma step_none it : step_outer (e := e) it = Ok (false, mkIter (it_st it) (it_index it) (it_limit it) (map (fun _ => 0) (it_outer it)) (it_olimit it)).
  Proof.
    unfold step_outer. rewrite outer0. destruct (0 <? e_rank e)%nat; [rewrite HR|]; reflexivity.
  Qed.

  Lemma moving_inner n i k : (k + n <= length l)%nat ->
    inner_trace e n i (st k) = (firstn n (skipn k l), Ok (st (k + n)%nat)).
  Proof.
    revert i k. induction n as [|n IH]; intros i k Hk; cbn [inner_trace].
    - rewrite Nat.add_0_r. reflexivity.
    - destruct (nth_error l k) as [x|] eqn:E; [|apply nth_error_None in E; lia].
      rewrite (HG i E), (IH (i + 1) (S k)) by lia.
      assert (ES : skipn k l = x :: skipn (S k) l).
      { clear - E. revert l E. induction k; intros [|y l]; cbn; try discriminate; [now intros [= ->]|]. intros E. now apply IHk. }
      rewrite ES. cbn [firstn]. do 2 f_equal. f_equal. lia.
  Qed.

  Lemma new_moving : it_new e = mkIter (st 0%nat) 0 (zlen l) [] [].
  Proof.
    unfold it_new. rewrite outer0, H0. cbn [Nat.ltb Nat.leb skipn]. f_equal. rewrite fold_mul_prod, <- HL. lia.
  Qed.

  Lemma moving_trace : e_trace e = (l, Ok tt).
  Proof.
    unfold e_trace. rewrite new_moving. unfold it_fuel. cbn [loop_trace it_limit it_index it_st it_outer it_olimit].
    rewrite (@moving_inner (Z.to_nat (zlen l - 0)) 0 0) by (unfold zlen; lia).
    rewrite step_none. f_equal. cbn [skipn]. apply firstn_all2. unfold zlen. lia.
  Qed.

  Lemma moving_honest : nonneg (e_dims e) -> honest e.
  Proof.
    intros Hn. split; auto. rewrite moving_trace. cbn [fst snd]. unfold zlen in HL. split; [lia|]. left. split; auto.
  Qed.

  (** [k] calls of [next], some of which may be after the end. *)
  Local Lemma nexts_at n k : (k <= length l)%nat ->
    exists it, it_nexts n (mkIter (e := e) (st k) (Z.of_nat k) (zlen l) [] []) = 
        Ok (map Some (firstn n (skipn k l)) ++ repeat None (n - (length l - k)), it) /\
      it_st it = st (Nat.min (k + n) (length l)).
  Proof.
    revert k. induction n as [|n IH]; intros k Hk.
    - cbn. eexists. split; [reflexivity|]. cbn [it_st]. f_equal. lia.
    - cbn [it_nexts]. unfold it_next. cbn [it_index it_limit it_st it_outer it_olimit].
      destruct (Z.eqb_spec (Z.of_nat k) (zlen l)) as [E|E].
      + assert (k = length l) as -> by (unfold zlen in E; lia). rewrite step_none. cbn [bind it_st it_index it_limit it_outer it_olimit map].
        rewrite skipn_all. cbn [firstn map app]. destruct (IH (length l) ltac:(lia)) as (it & E1 & E2).
        rewrite E1. cbn [bind]. exists it. rewrite skipn_all, firstn_nil. cbn [map app].
        rewrite Nat.sub_diag, !Nat.sub_0_r. split; [reflexivity|]. rewrite E2. f_equal. lia.
      + destruct (nth_error l k) as [x|] eqn:EN; [|apply nth_error_None in EN; unfold zlen in E; lia].
        rewrite (HG _ EN). cbn [bind].
        replace (Z.of_nat k + 1) with (Z.of_nat (S k)) by lia.
        assert (Hk' : (k < length l)%nat) by (unfold zlen in E; lia).
        destruct (IH (S k) ltac:(lia)) as (it & E1 & E2). rewrite E1. cbn [bind]. exists it.
        assert (ES : skipn k l = x :: skipn (S k) l).
        { clear - EN. revert l EN. induction k; intros [|y l]; cbn; try discriminate; [now intros [= ->]|]. intros E. now apply IHk. }
        rewrite ES. cbn [firstn map app]. split; [|rewrite E2; f_equal; lia].
        replace (S n - (length l - k))%nat with (n - (length l - S k))%nat by lia. reflexivity.
  Qed.

  Lemma moving_nexts n :
    exists it, it_nexts n (it_new e) = Ok (map Some (firstn n l) ++ repeat None (n - length l), it) /\
      it_st it = st (Nat.min n (length l)).
  Proof.
    rewrite new_moving. destruct (@nexts_at n 0 ltac:(lia)) as (it & E1 & E2). exists it.
    rewrite Nat.sub_0_r in E1. cbn [skipn] in E1. change (Z.of_nat 0) with 0%Z in E1. split; [exact E1|]. rewrite E2. reflexivity.
  Qed.
End Moving.

(** The owned buffer. *)
Lemma into_trace {A} ty dims (l : list A) : zlen l = prodZ dims -> e_trace (e_into ty dims l) = (l, Ok tt).
Proof.
  intros HL. apply (@moving_trace A (e_into ty dims l) l (fun k => Z.of_nat k)); auto.
  intros i k x E. cbn [e_into e_get]. rewrite Nat2Z.id, E, Nat2Z.inj_succ. reflexivity.
Qed.
Lemma into_nexts {A} ty dims (l : list A) n : zlen l = prodZ dims ->
  exists it, it_nexts n (it_new (e_into ty dims l)) = Ok (map Some (firstn n l) ++ repeat None (n - length l), it) /\
    into_dropped l (it_st it) = skipn n l.
Proof.
  intros HL.
  destruct (@moving_nexts A (e_into ty dims l) l (fun k => Z.of_nat k)) with (n := n) as (it & E1 & E2); auto.
  - intros i k x E. cbn [e_into e_get]. rewrite Nat2Z.id, E, Nat2Z.inj_succ. reflexivity.
  - exists it. split; [exact E1|]. rewrite E2. unfold into_dropped. rewrite Nat2Z.id.
    destruct (Nat.le_ge_cases n (length l)); [now rewrite Nat.min_l|]. rewrite Nat.min_r, !skipn_all2 by lia. reflexivity.
Qed.

(** ** Drain *)

Definition drain_at {T} (k : nat) (d : drain T) : drain T :=
  mkDrain (d_ty d) (d_dims d) (d_mem d) (d_cap d) (d_ptr d) (d_view d) (d_new_size d) (d_tail d) (Z.of_nat k).

(** The rows [a .. b-1] of [t]. *)
Definition rows {T} (t : tensor T) (a b : Z) : list T :=
  cells (tn_mem t) (a * prodZ (tl (tn_dims t))) ((b - a) * prodZ (tl (tn_dims t))).

Definition drained {T} (t : tensor T) (a b : Z) : drain T :=
  let P := prodZ (tl (tn_dims t)) in
  let n := nth 0 (tn_dims t) 0 in
  mkDrain (tn_ty t) (upd (tn_dims t) 0 a) (tn_mem t) (tn_cap t) (a * P) (upd (tn_dims t) 0 (b - a)) (n - (b - a))
    ((n - b) * P) 0.

Lemma upd_upd0 (d : list Z) a b : upd (upd d 0 a) 0 b = upd d 0 b.
Proof. now destruct d. Qed.
Lemma tl_upd0 (d : list Z) a : tl (upd d 0 a) = tl d.
Proof. now destruct d. Qed.
Lemma upd0_nil (d : list Z) a : d <> [] -> upd d 0 a <> [].
Proof. destruct d; [congruence|discriminate]. Qed.

Section Drain.
  Variables (T : Type) (t : tensor T) (a b : Z).
  Hypothesis Ht : tensor_ok t.
  Hypothesis HO : outer_ok t = true.
  Hypothesis Ha : 0 <= a <= b.
  Hypothesis Hb : b <= nth 0 (tn_dims t) 0.
  Let n := nth 0 (tn_dims t) 0.
  Let P := prodZ (tl (tn_dims t)).

  Local Lemma HD : tn_dims t <> [].
  Proof. apply (outer_ok_inv HO). Qed.
  Local Lemma HH : head_dyn (tn_ty t) = true.
  Proof. apply (outer_ok_inv HO). Qed.
  Local Lemma HP : 0 <= P.
  Proof.
    apply prodZ_nonneg. pose proof (to_nonneg Ht) as H. rewrite (dims_cons HD) in H. now inversion H.
  Qed.
  Local Lemma HM : zlen (tn_mem t) = n * P.
  Proof. pose proof (to_len Ht) as H. rewrite (dims_cons HD), prodZ_cons in H. exact H. Qed.

  Lemma drain_new_eq : drain_new t a b = Ok (drained t a b).
  Proof.
    pose proof HD as HD'. pose proof HH as HH'. pose proof (to_typed Ht) as HT.
    unfold drain_new. fold n. destruct (Z.leb_spec a b); [|lia]. destruct (Z.leb_spec b n); [|unfold n in *; lia]. cbn [andb assert bind].
    assert (HW : wf_map (DenseM (tn_ty t) (tn_dims t))).
    { apply wf_whole; [apply (to_nonneg Ht)|exact HT|apply (to_ty Ht)]. }
    destruct (@ax_resize_map_ok (AxConst 0) (DenseM (tn_ty t) (tn_dims t)) 0%nat (n - (b - a) - a) HW) as (m' & E & Ed & _).
    - unfold m_rank. cbn [m_dims is_axis]. split; [destruct (tn_dims t); [congruence|cbn; lia]|reflexivity].
    - unfold n. lia.
    - rewrite E. cbn [bind]. rewrite !sh_resize_dim_spec by (rewrite ?upd_length; destruct (tn_dims t); [congruence|cbn; lia]).
      rewrite (proj2 (accepts_typed _ _) (typed_head a HT HH' HD')). cbn [bind].
      rewrite sh_resize_dim_spec by (rewrite ?upd_length; destruct (tn_dims t); [congruence|cbn; lia]).
      rewrite upd_upd0. rewrite (proj2 (accepts_typed _ _) (typed_head (b - a) HT HH' HD')). cbn [bind].
      unfold drained. f_equal. f_equal.
      + rewrite sh_len_prod, prodZ_upd0 by auto. reflexivity.
      + unfold m_len. rewrite sh_len_prod, Ed. cbn [m_dims]. rewrite prodZ_upd0 by auto. unfold n, P. lia.
  Qed.

  Local Lemma view_len : sh_len (d_view (drained t a b)) = (b - a) * P.
  Proof. cbn [drained d_view]. rewrite sh_len_prod, prodZ_upd0; auto. apply HD. Qed.

  Lemma rows_length : zlen (rows t a b) = (b - a) * P.
  Proof.
    pose proof HM. pose proof HP. unfold rows, cells. fold P.
    apply zlen_firstn. rewrite zlen_skipn; unfold n in *; nia.
  Qed.

  Lemma drain_take_at k x :
    nth_error (rows t a b) k = Some x ->
    drain_take (drain_at k (drained t a b)) = Ok (x, drain_at (S k) (drained t a b)).
  Proof.
    pose proof HP as HP'. intros E. pose proof rows_length as HL.
    assert (Hk : (k < length (rows t a b))%nat) by (apply nth_error_Some; congruence).
    unfold drain_take. change (d_view (drain_at k (drained t a b))) with (d_view (drained t a b)). rewrite view_len.
    cbn [drain_at d_index d_mem d_ptr]. unfold zlen in HL.
    destruct (Z.ltb_spec (Z.of_nat k) ((b - a) * P)); [|lia].
    unfold rows, cells in E. rewrite nth_error_firstn' in E. destruct (_ <? _)%nat; [|discriminate].
    rewrite nth_error_skipn' in E. cbn [drained d_mem d_ptr d_ty d_dims d_cap d_view d_new_size d_tail]. fold P. fold P in E.
    replace (Z.to_nat (a * P + Z.of_nat k)) with (Z.to_nat (a * P) + k)%nat by nia. rewrite E.
    unfold drain_at. cbn [drained d_mem d_ptr d_ty d_dims d_cap d_view d_new_size d_tail]. repeat f_equal. lia.
  Qed.

  Lemma drain_moving_dims : zlen (rows t a b) = prodZ (e_dims (e_drain (drained t a b))).
  Proof. cbn [e_drain e_dims]. rewrite rows_length, <- view_len, sh_len_prod. reflexivity. Qed.

  Lemma drain_trace : e_trace (e_drain (drained t a b)) = (rows t a b, Ok tt).
  Proof.
    apply (@moving_trace T (e_drain (drained t a b)) (rows t a b) (fun k => drain_at k (drained t a b))); auto.
    - intros i k x E. apply drain_take_at. exact E.
    - apply drain_moving_dims.
  Qed.

  Lemma drain_nexts k :
    exists it, it_nexts k (it_new (e_drain (drained t a b))) =
        Ok (map Some (firstn k (rows t a b)) ++ repeat None (k - length (rows t a b)), it) /\
      it_st it = drain_at (Nat.min k (length (rows t a b))) (drained t a b).
  Proof.
    apply (@moving_nexts T (e_drain (drained t a b)) (rows t a b) (fun k => drain_at k (drained t a b))); auto.
    - intros i k' x E. apply drain_take_at. exact E.
    - apply drain_moving_dims.
  Qed.

  Lemma drain_takes_eq k : (k <= length (rows t a b))%nat ->
    drain_takes k (drained t a b) = Ok (firstn k (rows t a b), drain_at k (drained t a b)).
  Proof.
    assert (G : forall k j, (j + k <= length (rows t a b))%nat ->
      drain_takes k (drain_at j (drained t a b)) = Ok (firstn k (skipn j (rows t a b)), drain_at (j + k) (drained t a b))).
    { clear k. induction k as [|k IH]; intros j Hj; cbn [drain_takes].
      - now rewrite Nat.add_0_r.
      - destruct (nth_error (rows t a b) j) as [x|] eqn:E; [|apply nth_error_None in E; lia].
        rewrite (drain_take_at E). cbn [bind]. rewrite IH by lia. cbn [bind].
        assert (ES : skipn j (rows t a b) = x :: skipn (S j) (rows t a b)).
        { clear - E. revert j E. generalize (rows t a b) as l. intros l j. revert l.
          induction j; intros [|y l]; cbn; try discriminate; [now intros [= ->]|]. intros E. now apply IHj. }
        rewrite ES. cbn [firstn]. do 3 f_equal. lia. }
    intros Hk. specialize (G k 0%nat ltac:(lia)). cbn [skipn Nat.add] in G. exact G.
  Qed.

  (** The tensor when the drain is dropped. *)
  Definition remaining : tensor T :=
    mkTensor (tn_ty t) (upd (tn_dims t) 0 (n - (b - a))) (rows t 0 a ++ rows t b n) (tn_cap t).

  Local Lemma split_rows : tn_mem t = rows t 0 a ++ rows t a b ++ rows t b n.
  Proof.
    pose proof HM as HM'. pose proof HP as HP'. unfold rows, cells. fold P. rewrite !Z.sub_0_r, Z.mul_0_l. cbn [Z.to_nat skipn].
    rewrite <- (firstn_skipn (Z.to_nat (a * P)) (tn_mem t)) at 1. f_equal.
    rewrite <- (firstn_skipn (Z.to_nat ((b - a) * P)) (skipn (Z.to_nat (a * P)) (tn_mem t))) at 1. f_equal.
    assert (ESS : forall p q (l : list T), skipn p (skipn q l) = skipn (q + p) l).
    { clear. intros p q. induction q; intros [|x l]; cbn; auto. now rewrite skipn_nil. }
    rewrite ESS.
    replace (Z.to_nat (a * P) + Z.to_nat ((b - a) * P))%nat with (Z.to_nat (b * P)) by nia.
    symmetry. apply firstn_all2. rewrite skipn_length. unfold zlen in HM'. unfold n in *. nia.
  Qed.

  Lemma drain_drop_eq {C} k (w : world T C) : (k <= length (rows t a b))%nat ->
    drain_drop (drain_at k (drained t a b)) w = Done tt (remaining, w_drop (skipn k (rows t a b)) w).
  Proof.
    intros Hk. pose proof HM as HM'. pose proof HP as HP'. pose proof rows_length as HL. pose proof HD as HD'.
    unfold drain_drop. change (d_view (drain_at k (drained t a b))) with (d_view (drained t a b)). rewrite view_len.
    unfold drain_at. cbn [d_index d_mem d_ptr d_ty d_dims d_cap d_new_size d_tail].
    cbn [drained d_mem d_ptr d_ty d_dims d_cap d_new_size d_tail]. fold P. fold n. unfold zlen in HL.
    destruct (Z.leb_spec 0 ((b - a) * P - Z.of_nat k)); [|lia].
    destruct (Z.leb_spec (a * P + (b - a) * P) (zlen (tn_mem t))); [|unfold n in *; nia]. cbn [andb].
    rewrite sh_resize_dim_spec by (rewrite ?upd_length; destruct (tn_dims t); [congruence|cbn; lia]).
    rewrite upd_upd0. rewrite (proj2 (accepts_typed _ _) (typed_head (n - (b - a)) (to_typed Ht) HH HD')).
    replace (a * P + (b - a) * P) with (b * P) by lia.
    unfold copy_cells. destruct (Z.leb_spec (b * P + (n - b) * P) (zlen (tn_mem t))); [|lia].
    destruct (Z.leb_spec (a * P + (n - b) * P) (zlen (tn_mem t))); [|nia].
    destruct (Z.leb_spec 0 (b * P)); [|nia]. destruct (Z.leb_spec 0 (a * P)); [|nia].
    destruct (Z.leb_spec 0 ((n - b) * P)); [|unfold n in *; nia]. cbn [andb].
    assert (EF : firstn (Z.to_nat (a * P)) (tn_mem t) = rows t 0 a).
    { unfold rows, cells. rewrite Z.sub_0_r, Z.mul_0_l. reflexivity. }
    change (cells (tn_mem t) (b * P) ((n - b) * P)) with (rows t b n). rewrite EF.
    assert (L1 : zlen (rows t 0 a) = a * P) by (rewrite <- EF; apply zlen_firstn; unfold n in *; nia).
    assert (L2 : zlen (rows t b n) = (n - b) * P).
    { unfold rows, cells. fold P. apply zlen_firstn. rewrite zlen_skipn; unfold n in *; nia. }
    rewrite sh_len_prod, prodZ_upd0 by auto. fold P.
    destruct (Z.leb_spec ((n - (b - a)) * P) (zlen (rows t 0 a ++ rows t b n ++ skipn (Z.to_nat (a * P + (n - b) * P)) (tn_mem t)))).
    2:{ rewrite !zlen_app, L1, L2 in *. pose proof (@zlen_nonneg _ (skipn (Z.to_nat (a * P + (n - b) * P)) (tn_mem t))). nia. }
    unfold remaining. fold n. repeat f_equal.
    - rewrite app_assoc, firstn_app. rewrite firstn_all2 by (unfold zlen in *; rewrite app_length; nia).
      replace (Z.to_nat ((n - (b - a)) * P) - length (rows t 0 a ++ rows t b n))%nat with 0%nat
        by (unfold zlen in *; rewrite app_length; nia). cbn [firstn]. now rewrite app_nil_r.
    - unfold rows, cells. fold P.
      replace (Z.to_nat (a * P + Z.of_nat k)) with (Z.to_nat (a * P) + k)%nat by nia.
      replace (Z.to_nat ((b - a) * P - Z.of_nat k)) with (Z.to_nat ((b - a) * P) - k)%nat by nia.
      rewrite skipn_firstn_comm. f_equal.
      assert (ESS : forall p q (l : list T), skipn p (skipn q l) = skipn (q + p) l).
      { clear. intros p q. induction q; intros [|x l]; cbn; auto. now rewrite skipn_nil. }
      now rewrite ESS.
  Qed.

  Lemma drain_leak_eq k : drain_leak (drain_at k (drained t a b)) =
    Some (mkTensor (tn_ty t) (upd (tn_dims t) 0 a) (rows t 0 a) (tn_cap t)).
  Proof.
    pose proof HM as HM'. pose proof HP as HP'. unfold drain_leak, drain_at. cbn [drained d_mem d_ptr d_ty d_dims d_cap d_new_size d_tail].
    rewrite sh_len_prod, prodZ_upd0 by apply HD. fold P. destruct (Z.leb_spec (a * P) (zlen (tn_mem t))); [|unfold n in *; nia].
    unfold rows, cells. now rewrite Z.sub_0_r, Z.mul_0_l.
  Qed.

  Lemma remaining_ok : tensor_ok remaining.
  Proof.
    pose proof HM as HM'. pose proof HP as HP'. pose proof split_rows as SR. pose proof rows_length as RL.
    assert (EL : zlen (rows t 0 a ++ rows t b n) = (n - (b - a)) * P).
    { rewrite zlen_app. rewrite SR, !zlen_app in HM'. nia. }
    constructor; cbn [remaining tn_dims tn_ty tn_mem tn_cap].
    - apply nonneg_upd; [apply (to_nonneg Ht)|unfold n in *; lia].
    - apply typed_head; [apply (to_typed Ht)|apply HH|apply HD].
    - apply (to_ty Ht).
    - rewrite prodZ_upd0 by apply HD. exact EL.
    - pose proof (to_cap Ht) as HC. fold (zlen (rows t 0 a ++ rows t b n)). fold (zlen (tn_mem t)) in HC. rewrite EL. nia.
  Qed.

  Lemma leaked_ok : tensor_ok (mkTensor (tn_ty t) (upd (tn_dims t) 0 a) (rows t 0 a) (tn_cap t)).
  Proof.
    pose proof HM as HM'. pose proof HP as HP'. pose proof split_rows as SR. pose proof rows_length as RL.
    assert (EL : zlen (rows t 0 a) = a * P).
    { unfold rows, cells. rewrite Z.sub_0_r, Z.mul_0_l. apply zlen_firstn. fold P. cbn [Z.to_nat skipn]. unfold n in *; nia. }
    constructor; cbn [tn_dims tn_ty tn_mem tn_cap].
    - apply nonneg_upd; [apply (to_nonneg Ht)|lia].
    - apply typed_head; [apply (to_typed Ht)|apply HH|apply HD].
    - apply (to_ty Ht).
    - rewrite prodZ_upd0 by apply HD. exact EL.
    - pose proof (to_cap Ht) as HC. fold (zlen (rows t 0 a)). fold (zlen (tn_mem t)) in HC. rewrite EL. unfold n in *. nia.
  Qed.

  Lemma rows_split : tn_mem t = rows t 0 a ++ rows t a b ++ rows t b n.
  Proof. exact split_rows. Qed.
End Drain.
