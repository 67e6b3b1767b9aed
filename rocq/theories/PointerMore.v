(** Which views can be iterated with the pointer staying inside the allocation. *)
From Verif Require Import Base Spec SpecFacts Shape Mapping Index View Wf MappingFacts MapOps ReshapeFacts ViewFacts ViewMore.
From Verif Require Import Expr ExprSpec ExprFacts IterFacts SourceFacts ExprTree ExprMore PropsView PropsExpr NextFacts.
From Verif Require Import Pointer PointerFacts.
Unset Strict Implicit.

Section Walk.
  Context (n : Z) (rep : bool) (v : view).
  Hypothesis Hv : valid_view n v.
  Hypothesis Hs : v_layout v = Strided.
  Hypothesis Hr : (2 <= length (v_dims v))%nat.
  Hypothesis Hz : last (v_dims v) 1 = 0.
  Let D := v_dims v.
  Let r := length D.
  Let q := (r - 1)%nat.
  Let str := m_strides (v_map v).
  Let g := firstn q str.
  Let e := e_view n rep v.
  Let e' := e_view_in n rep v.

  Lemma wk_outer : outer_rank e = q.
  Proof. apply ev_outer; auto. Qed.

  Lemma wk_len : length str = r.
  Proof. apply (wf_strides (vv_wf Hv)). Qed.

  Lemma wk_inner : prodZ (skipn q D) = 0.
  Proof.
    unfold q, r. destruct (@exists_last _ D) as (l & x & E).
    { intros E. unfold D in E. rewrite E in Hr. cbn in Hr. lia. }
    unfold D in *. rewrite E in *. rewrite app_length. cbn [length]. replace (length l + 1 - 1)%nat with (length l) by lia.
    rewrite skipn_app, skipn_all, Nat.sub_diag. rewrite last_last in Hz. cbn. lia.
  Qed.

  Lemma wk_laws : laws e (pure_action (v_addr v)) D q
    (fun o _ (p : Z) _ => p = v_ptr v + dot g o) (fun o k (p : Z) _ => p = v_ptr v + dot g (zero_tail o k)).
  Proof.
    assert (Hlg : length g = q) by (unfold g; rewrite firstn_length, wk_len; lia).
    assert (Hq : (q <= length D)%nat) by (unfold q, r; lia).
    assert (NOP : forall p : Z, reset_at e (length D) (length D - 1) 0 p = Ok p).
    { intros p. unfold reset_at. replace (length D - (length D - 1))%nat with 1%nat by (unfold D; lia).
      change (e_rank e) with (length D). destruct (Nat.leb_spec 1 (length D)); [|reflexivity].
      unfold e. rewrite ev_reset; auto; [|apply (vv_wf Hv)|unfold D; lia]. okz. }
    assert (GN : forall j, (j < q)%nat -> nth j g 0 = nth j str 0).
    { intros j Hj. unfold g. rewrite <- (firstn_skipn q str) at 2. rewrite app_nth1; auto. fold g. now rewrite Hlg. }
    constructor.
    - intros o i p [] _ _ Hi. rewrite wk_inner in Hi. lia.
    - intros o p [] -> B Hlt. eexists. split; [apply NOP|]. now rewrite zero_tail_0.
    - intros o p [] -> B Hlt. eexists. split; [apply NOP|]. reflexivity.
    - intros o p [] -> B Hlt. now rewrite zero_tail_0.
    - intros o k p [] -> B Hk. pose proof (olim_in_length Hq B) as Lo.
      eexists. split; [|reflexivity]. unfold reset_at. change (e_rank e) with (length D).
      destruct (Nat.leb_spec (length D - (q - 1 - k)) (length D)); [|lia].
      replace (length D - (length D - (q - 1 - k)))%nat with (q - 1 - k)%nat by lia.
      unfold e. rewrite ev_reset; auto; [|apply (vv_wf Hv)|unfold D in *; lia]. fold str.
      replace (k + 1)%nat with (S k) by lia. rewrite zero_tail_S by lia. rewrite Lo.
      rewrite dot_upd by (rewrite ?zero_tail_length; lia). rewrite zero_tail_nth by lia. rewrite GN by lia. okz.
    - intros o k p [] -> B Hk Hmax Hlt. pose proof (olim_in_length Hq B) as Lo.
      eexists. split; [|reflexivity]. unfold step_at. change (e_rank e) with (length D).
      destruct (Nat.leb_spec (length D - (q - 1 - k)) (length D)); [|lia].
      replace (length D - (length D - (q - 1 - k)))%nat with (q - 1 - k)%nat by lia.
      unfold e. rewrite ev_step; auto; [|apply (vv_wf Hv)|unfold D in *; lia]. fold str.
      unfold succ_at. rewrite Lo. rewrite dot_upd by (rewrite ?zero_tail_length; lia). rewrite zero_tail_nth by lia. rewrite GN by lia. okz.
  Qed.

  Lemma p_move_inv p p1 : p_move n p = Ok p1 -> p1 = p /\ 0 <= p <= n.
  Proof.
    unfold p_move. destruct (Z.leb_spec 0 p); destruct (Z.leb_spec p n); cbn [andb]; intros E; try discriminate.
    injection E as <-. lia.
  Qed.

  Lemma wk_reset d c (p p1 : Z) : e_reset e' d c p = Ok p1 -> e_reset e d c p = Ok p1 /\ 0 <= p1 <= n.
  Proof.
    unfold e, e'. cbn [e_view_in e_view e_reset]. destruct (m_stride (v_map v) d); cbn [bind]; try discriminate.
    intros E. apply p_move_inv in E. destruct E as [-> B]. auto.
  Qed.

  Lemma wk_step d (p p1 : Z) : e_step e' d p = Ok p1 -> e_step e d p = Ok p1 /\ 0 <= p1 <= n.
  Proof.
    unfold e, e'. cbn [e_view_in e_view e_step]. destruct (m_stride (v_map v) d); cbn [bind]; try discriminate.
    intros E. apply p_move_inv in E. destruct E as [-> B]. auto.
  Qed.

  Lemma wk_loop lim k : forall (p : Z) o b (p1 : Z) o1,
    step_loop e' lim k p o = Ok (b, p1, o1) ->
    step_loop e lim k p o = Ok (b, p1, o1) /\ (0 <= p <= n -> 0 <= p1 <= n).
  Proof.
    induction k as [|k IH]; intros p o b p1 o1 E; cbn [step_loop] in *.
    - apply Ok_inj in E. split; [exact (f_equal (@Ok _) E)|]. intros B.
      assert (p1 = p) by congruence. subst. exact B.
    - destruct (_ <? _).
      + destruct (e_step e' k p) as [p2| | |] eqn:E2; cbn [bind] in E; try discriminate.
        apply wk_step in E2. destruct E2 as [-> B2]. cbn [bind].
        assert (p1 = p2) by congruence. subst p2. split; [exact E|auto].
      + destruct (e_reset e' k (nth k o 0) p) as [p2| | |] eqn:E2; cbn [bind] in E; try discriminate.
        apply wk_reset in E2. destruct E2 as [-> B2]. cbn [bind]. apply IH in E. destruct E as [E K]. split; auto.
  Qed.

  Definition wk_of (it : iter e') : iter e :=
    @mkIter _ e (it_st it) (it_index it) (it_limit it) (it_outer it) (it_olimit it).

  (** The same, from the other side. *)
  Lemma wk_reset' d c (p p1 : Z) : e_reset e d c p = Ok p1 ->
    e_reset e' d c p = UB \/ e_reset e' d c p = Ok p1 /\ 0 <= p1 <= n.
  Proof.
    unfold e, e'. cbn [e_view_in e_view e_reset]. destruct (m_stride (v_map v) d); cbn [bind]; try discriminate.
    intros E. apply (@Ok_inj Z) in E. rewrite E. unfold p_move.
    destruct (Z.leb_spec 0 p1); destruct (Z.leb_spec p1 n); cbn [andb]; auto.
  Qed.

  Lemma wk_step' d (p p1 : Z) : e_step e d p = Ok p1 ->
    e_step e' d p = UB \/ e_step e' d p = Ok p1 /\ 0 <= p1 <= n.
  Proof.
    unfold e, e'. cbn [e_view_in e_view e_step]. destruct (m_stride (v_map v) d); cbn [bind]; try discriminate.
    intros E. apply (@Ok_inj Z) in E. rewrite E. unfold p_move.
    destruct (Z.leb_spec 0 p1); destruct (Z.leb_spec p1 n); cbn [andb]; auto.
  Qed.

  Lemma wk_loop' lim k : forall (p : Z) o b (p1 : Z) o1,
    step_loop e lim k p o = Ok (b, p1, o1) ->
    step_loop e' lim k p o = UB \/ step_loop e' lim k p o = Ok (b, p1, o1).
  Proof.
    induction k as [|k IH]; intros p o b p1 o1 E; cbn [step_loop] in *.
    - right. exact E.
    - destruct (_ <? _).
      + destruct (e_step e k p) as [p2| | |] eqn:E2; cbn [bind] in E; try discriminate.
        apply wk_step' in E2. destruct E2 as [-> |[-> B2]]; cbn [bind]; auto.
      + destruct (e_reset e k (nth k o 0) p) as [p2| | |] eqn:E2; cbn [bind] in E; try discriminate.
        apply wk_reset' in E2. destruct E2 as [-> |[-> B2]]; cbn [bind]; auto.
  Qed.

  Lemma wk_step_outer (it : iter e') b (jt : iter e) :
    step_outer (wk_of it) = Ok (b, jt) ->
    step_outer it = UB \/
    0 <= (it_st it : Z) <= n /\ exists it1, step_outer it = Ok (b, it1) /\ jt = wk_of it1.
  Proof.
    unfold step_outer. change (outer_rank e') with (outer_rank e). change (e_rank e') with (e_rank e). rewrite wk_outer.
    change (e_rank e) with r. replace (q <? r)%nat with true by (symmetry; apply Nat.ltb_lt; unfold q, r, D; lia).
    cbn [wk_of it_st it_index it_limit it_outer it_olimit].
    destruct (e_reset e (r - 1) 0 (it_st it)) as [p2| | |] eqn:E2; cbn [bind]; try discriminate.
    assert (EP : p2 = (it_st it : Z)).
    { pose proof E2 as E3. unfold e in E3. rewrite ev_reset in E3; auto; [|apply (vv_wf Hv)|unfold r, D; lia].
      apply (@Ok_inj Z) in E3. rewrite <- E3. rewrite Z.mul_0_r. apply Z.add_0_r. }
    apply wk_reset' in E2. destruct E2 as [E2|[E2 B2]]; [rewrite E2; cbn [bind]; auto|].
    destruct (step_loop e _ q p2 _) as [[[b1 p3] o3]| | |] eqn:E3; cbn [bind]; try discriminate.
    intros E. apply Ok_inj in E. apply pair_equal_spec in E. destruct E as [-> <-].
    apply wk_loop' in E3. rewrite E2. cbn [bind]. destruct E3 as [E3|E3]; rewrite E3; cbn [bind]; [auto|].
    right. split; [rewrite <- EP; exact B2|]. eexists. split; reflexivity.
  Qed.

  Let O := olim q D.

  Lemma wk_fold T (f : T -> Z -> outcome T) fuel : forall (it : iter e') o acc,
    @at_pos _ unit e (fun o _ (p : Z) _ => p = v_ptr v + dot g o) (wk_of it) o 0 tt ->
    it_index it = 0 -> (Z.to_nat (prodZ O - flat O o) <= fuel)%nat ->
    fold_loop f fuel it acc = UB \/
    fold_loop f fuel it acc = Ok acc /\
    forall o1, in_bounds O o1 -> flat O o <= flat O o1 -> 0 <= v_ptr v + dot g o1 <= n.
  Proof.
    assert (P0 : prodZ (skipn (outer_rank e) (e_dims e)) = 0) by (rewrite wk_outer; exact wk_inner).
    assert (OE : olim (outer_rank e) (e_dims e) = O) by (rewrite wk_outer; reflexivity).
    assert (HL : laws e (pure_action (v_addr v)) (e_dims e) (outer_rank e)
      (fun o _ (p : Z) _ => p = v_ptr v + dot g o) (fun o k (p : Z) _ => p = v_ptr v + dot g (zero_tail o k)))
      by (rewrite wk_outer; exact wk_laws).
    assert (HD : nonneg (e_dims e)) by exact (wf_nonneg (vv_wf Hv)).
    induction fuel as [|fuel IH]; intros it o acc HA Hi Hf.
    - pose proof (flat_bounds (ap_in HA)) as B. rewrite OE in B. lia.
    - pose proof HA as HA0. destruct HA0 as [Hp Hlim Hout Holim B]. rewrite OE in B.
      cbn [wk_of it_st it_limit it_outer it_olimit] in Hp, Hlim, Hout, Holim.
      cbn [fold_loop]. rewrite Hi, Hlim, P0. cbn [Z.sub Z.to_nat inner_loop bind].
      change (Z.to_nat (0 - 0)) with 0%nat. cbn [inner_loop bind].
      set (it0 := mkIter (it_st it) 0 0 (it_outer it) (it_olimit it)).
      assert (HA' : @at_pos _ unit e (fun o _ (p : Z) _ => p = v_ptr v + dot g o) (wk_of it0) o
                      (prodZ (skipn (outer_rank e) (e_dims e))) tt).
      { constructor; cbn [it0 wk_of it_st it_limit it_outer it_olimit]; auto. now rewrite OE. }
      destruct (step_outer_spec HL HA') as (b & jt & E & Ei & Hb).
      destruct (wk_step_outer E) as [E'|(Bp & it1 & E' & ->)]; rewrite E'; cbn [bind]; [auto|].
      cbn [it0 it_st] in Bp. rewrite Hp in Bp. rewrite OE in Hb.
      assert (SAME : forall o1, in_bounds O o1 -> flat O o1 = flat O o -> 0 <= v_ptr v + dot g o1 <= n).
      { intros o1 B1 F. rewrite (flat_inj B1 B F). exact Bp. }
      destruct b.
      + destruct Hb as (o1 & F1 & HA1).
        destruct (IH (mkIter (it_st it1) 0 (it_limit it1) (it_outer it1) (it_olimit it1)) o1 acc) as [E1|[E1 K]].
        * destruct HA1. constructor; auto.
        * reflexivity.
        * rewrite F1. lia.
        * auto.
        * right. split; [exact E1|]. intros o2 B2 F2.
          destruct (Z.eq_dec (flat O o2) (flat O o)) as [F|NF]; [now apply SAME|]. apply K; auto. lia.
      + right. split; [reflexivity|]. intros o2 B2 F2. apply SAME; auto.
        pose proof (flat_bounds B2). lia.
  Qed.

  Lemma wk_walks : (forall o, in_bounds O o -> 0 <= v_ptr v + dot g o <= n) -> walks n v.
  Proof.
    intros K idx B. fold str.
    assert (Li : length idx = r). { rewrite (in_bounds_length B), map_length. reflexivity. }
    assert (SP : exists o x, idx = o ++ [x] /\ length o = q).
    { destruct (@exists_last _ idx) as (o & x & E); [intros ->; cbn in Li; unfold r, D in *; lia|].
      exists o, x. split; auto. rewrite E, app_length in Li. cbn in Li. unfold q. lia. }
    destruct SP as (o & x & -> & Lo).
    assert (SD : exists d0, map (Z.max 1) D = O ++ [d0] /\ d0 = 1).
    { destruct (@exists_last _ D) as (l & y & E); [intros E; unfold D in E; rewrite E in Hr; cbn in Hr; lia|].
      assert (q = length l) by (unfold q, r; rewrite E, app_length; cbn; lia).
      exists (Z.max 1 y). unfold O, olim. rewrite E, H, firstn_app, firstn_all, Nat.sub_diag, map_app. cbn [firstn map].
      rewrite app_nil_r. split; auto. unfold D in E. rewrite E, last_last in Hz. lia. }
    destruct SD as (d0 & E & ->). fold D in B. rewrite E in B.
    assert (LO : length O = q) by (apply olim_length; unfold q, r; lia).
    apply in_bounds_app in B; [|now rewrite LO]. destruct B as [B Bx].
    inversion Bx as [|? ? ? ? Hx]; subst. assert (x = 0) by lia. subst x.
    replace (dot str (o ++ [0])) with (dot g o); [auto|].
    unfold g. rewrite <- (firstn_skipn q str) at 2. rewrite dot_app.
    - assert (EZ : dot (skipn q str) [0] = 0).
      { destruct (skipn q str) as [|y [|]]; cbn; lia. }
      rewrite EZ. lia.
    - rewrite firstn_length, wk_len. lia.
  Qed.

  Lemma walk_exact T (f : T -> Z -> outcome T) acc : ~ walks n v -> e_fold e' f acc = UB.
  Proof.
    intros NW. unfold e_fold, it_fold.
    destruct (@wk_fold T f (it_fuel (it_new e')) (it_new e') (repeat 0 q) acc) as [E|[_ K]]; auto.
    - constructor.
      + cbn. rewrite dot_zeros. lia.
      + cbn [wk_of it_limit it_new]. rewrite fold_mul_prod, Z.mul_1_l. reflexivity.
      + unfold oz. cbn [wk_of it_outer it_new]. change (outer_rank e') with (outer_rank e). rewrite wk_outer.
        destruct (Nat.ltb_spec 0 q); [|reflexivity]. rewrite <- repeat_app. f_equal. change (e_rank e) with r. change (e_rank e') with r. unfold q, r, D. lia.
      + cbn [wk_of it_olimit it_new]. reflexivity.
      + rewrite wk_outer. change (e_dims e) with D. fold O.
        assert (LO : length O = q) by (apply olim_length; unfold q, r; lia). rewrite <- LO. apply in_bounds_zeros, olim_positive.
    - unfold it_fuel. cbn [it_new it_olimit]. change (outer_rank e') with (outer_rank e). rewrite wk_outer.
      change (e_dims e') with D. rewrite fold_mul_prod. replace (0 <? q)%nat with true by (symmetry; apply Nat.ltb_lt; unfold q, r, D; lia).
      change (map (Z.max 1) (firstn q D)) with O.
      assert (0 <= flat O (repeat 0 q)); [|lia].
      apply flat_bounds. assert (LO : length O = q) by (apply olim_length; unfold q, r; lia). rewrite <- LO. apply in_bounds_zeros, olim_positive.
    - exfalso. apply NW. apply wk_walks. intros o B. apply K; auto.
      assert (LO : length O = q) by (apply olim_length; unfold q, r; lia). rewrite <- LO.
      rewrite flat_zeros. apply flat_bounds in B. lia.
  Qed.
End Walk.

(** A view iterated alone: where [stays] holds all is well, elsewhere it is undefined. *)
Lemma stays_ok n rep v T (f : T -> Z -> outcome T) acc :
  valid_view n v -> view_fine v -> stays n v ->
  e_fold (e_view_in n rep v) f acc = foldM f (map (v_addr v) (indices (v_dims v))) acc.
Proof.
  intros Hv HF HS. rewrite <- (@view_fold T n rep v f acc Hv HF).
  unfold stays in HS. destruct (v_layout v) eqn:EL.
  - apply flat_in; [apply (vv_wf Hv)|exact HS|auto].
  - destruct (Nat.leb_spec (length (v_dims v)) 1) as [L|L].
    + apply flat_in; [apply (vv_wf Hv)|exact HS|auto].
    + assert (HI : t_inside (fun _ => 0) (TView n rep v)) by exact HS.
      destruct (@build_cases _ (TView n rep v) Hv) as [(HZ & e0 & E0 & B)|(HZ & E0)]; [|discriminate].
      destruct (@p_build_cases (fun _ => 0) _ (TView n rep v) Hv HI) as [(_ & e' & E' & B')|(HZ' & _)]; [|contradiction].
      injection E0 as <-. injection E' as <-. apply (built_same B B').
      apply view_tree_fine; [apply (vv_wf Hv)|exact HF].
Qed.

Lemma not_stays_empty n v : valid_view n v -> view_fine v -> ~ stays n v ->
  prodZ (v_dims v) = 0 /\ (v_layout v = Strided -> (2 <= length (v_dims v))%nat -> last (v_dims v) 1 = 0).
Proof.
  intros Hv HF NS. pose proof (wf_nonneg (vv_wf Hv)) as HN. fold (v_dims v) in HN.
  assert (NP : ~ positive (v_dims v)).
  { intros HP. apply NS. unfold stays. pose proof (valid_first Hv HP). pose proof (walks_full Hv HP).
    destruct (v_layout v); [lia|]. destruct (_ <=? _)%nat; [lia|auto]. }
  split.
  - pose proof (prodZ_nonneg HN). destruct (Z.eq_dec (prodZ (v_dims v)) 0); auto. exfalso. apply NP, prodZ_pos_inv; auto. lia.
  - intros EL Hr. destruct (@exists_last _ (v_dims v)) as (l & x & E); [intros E; rewrite E in Hr; cbn in Hr; lia|].
    unfold view_fine in HF. rewrite EL, E in HF. rewrite removelast_last, !last_last in HF. rewrite E, last_last.
    destruct HF as [?|[HF|HF]]; [discriminate| |assumption].
    rewrite E in HN, NP. apply Forall_app in HN. destruct HN as [_ HN]. inversion HN; subst.
    destruct (Z.eq_dec x 0); auto. exfalso. apply NP. apply Forall_app. split; auto. repeat constructor. lia.
Qed.

Lemma stays_not n rep v T (f : T -> Z -> outcome T) acc :
  valid_view n v -> view_fine v -> ~ stays n v -> e_fold (e_view_in n rep v) f acc = UB.
Proof.
  intros Hv HF NS. destruct (not_stays_empty Hv HF NS) as [E0 HL].
  assert (CASE : v_layout v = Strided /\ (2 <= length (v_dims v))%nat \/ (v_layout v = Dense \/ (length (v_dims v) <= 1)%nat) /\ ~ 0 <= v_ptr v <= n).
  { unfold stays in NS. destruct (v_layout v); [auto|]. destruct (Nat.leb_spec (length (v_dims v)) 1); [right|left]; split; auto. }
  destruct CASE as [[EL Hr]|[HD HP]].
  - apply walk_exact; auto. intros W. apply NS. unfold stays. rewrite EL.
    destruct (Nat.leb_spec (length (v_dims v)) 1); [lia|auto].
  - assert (Q : outer_rank (e_view_in n rep v) = 0%nat).
    { unfold outer_rank, e_rank. cbn [e_view_in e_inner e_dims]. unfold map_inner_rank, v_layout, v_dims, m_rank in *.
      destruct (v_map v) as [ty dims|ty dims strides]; cbn [m_layout m_dims m_ty] in *.
      - destruct (sh_rank ty) as [[|k]|]; lia.
      - destruct HD as [E|E]; [discriminate|]. destruct (Nat.ltb_spec 0 (length dims)); lia. }
    assert (R1 : (0 < m_rank (v_map v))%nat).
    { destruct (v_dims v) as [|d ds] eqn:ED; [cbn in E0; lia|]. unfold m_rank, v_dims in *. rewrite ED. cbn. lia. }
    unfold e_fold, it_fold, it_fuel. rewrite Q. cbn [firstn map fold_left]. change (Z.to_nat 1) with 1%nat.
    cbn [fold_loop]. unfold it_new. rewrite Q. cbn [it_limit it_index it_st it_outer it_olimit skipn].
    change (e_dims (e_view_in n rep v)) with (v_dims v). rewrite fold_mul_prod, E0. change (Z.to_nat (1 * 0 - 0)) with 0%nat.
    cbn [inner_loop bind]. unfold step_outer. rewrite Q. cbn [step_loop it_st it_outer it_olimit it_index it_limit].
    change (e_rank (e_view_in n rep v)) with (m_rank (v_map v)).
    destruct (Nat.ltb_spec 0 (m_rank (v_map v))) as [L|L]; [|lia].
    cbn [e_view_in e_reset e_init]. rewrite m_stride_ok; [|apply (wf_strides (vv_wf Hv))|lia]. cbn [bind].
    unfold p_move. replace (v_ptr v + - _ * 0) with (v_ptr v) by lia.
    destruct (Z.leb_spec 0 (v_ptr v)); destruct (Z.leb_spec (v_ptr v) n); cbn [andb bind]; try reflexivity. lia.
Qed.
