(** Facts about arrays whose elements have no size. *)
From Verif Require Import Base Spec SpecFacts Shape Mapping Index View Wf MappingFacts MapOps ReshapeFacts.
From Verif Require Import IndexFacts ViewFacts ViewMore Expr ExprSpec ExprFacts IterFacts SourceFacts.
From Verif Require Import Machine MachineSpec MachineFacts MachineViews MachineReshape MachineRun MachineWrap MachineRelease MachineSteps.
From Verif Require Import MachineIter MachineIterFacts MachineSources MachineChecks Zst.
Unset Strict Implicit.

(** ** Access without overflow checks *)

Lemma get_nth_in l i : (i < length l)%nat -> get_nth l i = Ok (nth i l 0).
Proof. intros H. unfold get_nth. rewrite (nth_error_nth' l 0 H). reflexivity. Qed.

Lemma z_loop_ok dims idx calls : Forall (fun c => (fst c < length idx)%nat) calls ->
  forall o, exists r, x_offset_loop false dims idx calls o = Ok r.
Proof.
  induction 1 as [|[i s] calls Hi HF IH]; intros o; cbn [x_offset_loop]; [eauto|].
  cbn [fst] in Hi. rewrite get_nth_in by exact Hi. cbn [bind dassert]. rewrite !i_res_false. cbn [bind]. rewrite i_res_false. cbn [bind].
  apply IH.
Qed.
Lemma z_dense_calls n dims : forall s, exists l, x_dense_calls false n dims s = Ok l /\ Forall (fun c => (fst c < n)%nat) l.
Proof.
  induction n as [|n IH]; intros s; cbn [x_dense_calls]; [eauto|]. rewrite u_res_false. cbn [bind].
  destruct (IH (as_usize (s * nth n dims 0))) as (l & -> & HF). cbn [bind]. eexists. split; [reflexivity|].
  constructor; [cbn; lia|]. eapply Forall_impl; [|exact HF]. cbn. lia.
Qed.
Lemma z_calls m : exists l, x_calls false m = Ok l /\ Forall (fun c => (fst c < m_rank m)%nat) l.
Proof.
  unfold m_rank. destruct m as [ty d|ty d s]; cbn [x_calls m_dims]; [apply z_dense_calls|]. eexists. split; [reflexivity|].
  apply Forall_forall. intros c Hc. apply in_map_iff in Hc as (i & <- & Hi). apply in_seq in Hi. cbn. lia.
Qed.
Lemma z_offset_ok m idx : length idx = m_rank m -> exists r, x_offset false m idx = Ok r.
Proof.
  intros HL. unfold x_offset. cbn [dassert bind]. destruct (z_calls m) as (l & -> & HF). cbn [bind]. apply z_loop_ok. now rewrite HL.
Qed.

Lemma in_bounds_nonneg d i : in_bounds d i -> Forall (fun x => 0 <= x) i.
Proof. intros H. induction H; constructor; auto. lia. Qed.

Lemma z_get_in v idx : in_bounds (v_dims v) idx -> z_get false v idx = Ok tt.
Proof.
  intros H. unfold z_get, x_index_multi. pose proof (in_bounds_length H) as HL.
  rewrite assert_true by (apply Nat.eqb_eq; exact HL). cbn [bind]. fold (v_dims v).
  destruct (@index_in_bounds_spec _ _ HL (in_bounds_nonneg H)) as [[-> _]|[_ N]]; [|contradiction]. cbn [bind].
  destruct (@z_offset_ok (v_map v) idx HL) as (r & ->). reflexivity.
Qed.
Lemma z_get_out dbg v idx : Forall (fun i => 0 <= i) idx -> ~ in_bounds (v_dims v) idx -> z_get dbg v idx = Panic.
Proof.
  intros HF HN. unfold z_get, x_index_multi, m_rank.
  destruct (Nat.eqb_spec (length idx) (length (m_dims (v_map v)))) as [HL|]; [|reflexivity]. cbn [assert bind].
  destruct (@index_in_bounds_spec _ _ HL HF) as [[_ B]|[-> _]]; [contradiction|reflexivity].
Qed.

(** *** Linear access *)

Lemma z_linear_loop n : forall dims strides k o, positive dims -> (n <= length dims)%nat -> exists r, x_linear_loop false n dims strides k o = Ok r.
Proof.
  induction n as [|n IH]; intros dims strides k o HP HL; cbn [x_linear_loop]; [eauto|].
  pose proof (@positive_nth dims n HP ltac:(lia)). rewrite assert_true by (apply negb_true_iff, Z.eqb_neq; lia). cbn [bind].
  rewrite !i_res_false. cbn [bind]. rewrite i_res_false. cbn [bind]. apply IH; [exact HP|lia].
Qed.
Lemma z_len v : zst_view v -> x_len false (v_dims v) = Ok (prodZ (v_dims v)).
Proof.
  intros HV. rewrite x_len_wrap, as_usize_fit; [reflexivity|]. split; [|apply HV]. apply prodZ_nonneg, wf_nonneg, HV.
Qed.
Lemma z_linear_in v k : zst_view v -> 0 <= k < prodZ (v_dims v) -> z_get_linear false v k = Ok tt.
Proof.
  intros HV HK. unfold z_get_linear, x_index_linear. fold (v_dims v). rewrite z_len by exact HV. cbn [bind].
  rewrite assert_true by lia. cbn [bind]. unfold x_linear_offset. cbn [bind].
  assert (HP : positive (v_dims v)) by (apply prodZ_pos_inv; [apply wf_nonneg, HV|lia]).
  unfold v_dims in HP. destruct (v_map v) as [ty d|ty d s]; cbn [bind m_dims] in *; [reflexivity|].
  destruct (@z_linear_loop (length d) d s k 0 HP (le_n _)) as (r & ->). reflexivity.
Qed.
Lemma z_linear_out dbg v k : zst_view v -> prodZ (v_dims v) <= k -> z_get_linear dbg v k = Panic.
Proof.
  intros HV HK. unfold z_get_linear, x_index_linear. fold (v_dims v). destruct (le_len dbg (v_dims v)) as [->|(n & E & F)]; [reflexivity|].
  rewrite E. rewrite (z_len HV) in F. injection F as <-. cbn [bind]. destruct (Z.geb_spec k (prodZ (v_dims v))); [reflexivity|lia].
Qed.
(** Linear access to a dense array never overflows. *)
Lemma z_prod_fit dbg dims : forall acc, 0 <= acc -> positive dims -> acc * prodZ dims <= usize_max -> x_prod dbg acc dims = Ok (acc * prodZ dims).
Proof.
  induction dims as [|d dims IH]; intros acc HA HP HU; cbn [x_prod]; [now rewrite Z.mul_1_r|].
  inversion HP as [|? ? H1 H2]; subst. rewrite prodZ_cons in *. pose proof (prodZ_pos H2).
  rewrite u_res_fit by (unfold is_usize; nia). cbn [bind]. rewrite IH; [f_equal; ring|nia|exact H2|]. rewrite <- Z.mul_assoc. exact HU.
Qed.
Lemma z_linear_dense dbg v k : zst_view v -> v_layout v = Dense -> 0 <= k < prodZ (v_dims v) -> z_get_linear dbg v k = Ok tt.
Proof.
  intros HV HL HK. unfold z_get_linear, x_index_linear. fold (v_dims v).
  assert (HP : positive (v_dims v)) by (apply prodZ_pos_inv; [apply wf_nonneg, HV|lia]).
  assert (E : x_len dbg (v_dims v) = Ok (prodZ (v_dims v))).
  { unfold x_len. rewrite z_prod_fit; [f_equal; ring|lia|exact HP|]. pose proof (zv_len HV). lia. }
  rewrite E. cbn [bind]. rewrite assert_true by lia. cbn [bind]. unfold x_linear_offset. fold (v_dims v). rewrite E. cbn [bind].
  rewrite assert_true by (apply Z.ltb_lt; lia). unfold v_layout in HL. destruct (v_map v); [|discriminate]. destruct dbg; reflexivity.
Qed.

(** ** Access with overflow checks, dense layout *)

Lemma z_calls_dense dbg n dims : forall s, positive dims -> (n <= length dims)%nat -> 0 <= s -> s * prodZ (firstn n dims) <= usize_max ->
  x_dense_calls dbg n dims s = Ok (map wc (dense_calls n dims s)).
Proof.
  induction n as [|n IH]; intros s HP HL HS HB; [reflexivity|]. cbn [x_dense_calls dense_calls map].
  pose proof (@positive_nth dims n HP ltac:(lia)) as Hd.
  rewrite firstn_more in HB by lia. rewrite prodZ_app, prodZ_cons in HB. change (prodZ []) with 1 in HB.
  assert (PF : 0 < prodZ (firstn n dims)) by (apply prodZ_pos; now apply pos_front).
  rewrite u_res_fit by (unfold is_usize; nia). cbn [bind]. rewrite IH by (auto; nia). reflexivity.
Qed.

Lemma flat_skip dims idx n : length idx = length dims -> (S n <= length dims)%nat ->
  flat (skipn n dims) (skipn n idx) = nth n idx 0 * prodZ (skipn (S n) dims) + flat (skipn (S n) dims) (skipn (S n) idx).
Proof.
  revert dims idx. induction n as [|n IH]; intros [|d dims] [|i idx] HL HN; cbn [length] in *; try lia.
  - cbn [skipn nth flat]. reflexivity.
  - change (skipn (S n) (d :: dims)) with (skipn n dims). change (skipn (S n) (i :: idx)) with (skipn n idx).
    change (skipn (S (S n)) (d :: dims)) with (skipn (S n) dims). change (skipn (S (S n)) (i :: idx)) with (skipn (S n) idx).
    cbn [nth]. apply IH; lia.
Qed.
Lemma flat_mono dims idx n : in_bounds dims idx -> (n <= length dims)%nat -> 0 <= flat (skipn n dims) (skipn n idx) <= flat dims idx.
Proof.
  intros HB. pose proof (in_bounds_length HB) as HL. pose proof (in_bounds_dims HB) as HP.
  assert (N0 : forall n, (n <= length dims)%nat -> 0 <= flat (skipn n dims) (skipn n idx)).
  { clear n. intros n. remember (length dims - n)%nat as k eqn:E. revert n E. induction k as [|k IH]; intros n E HN.
    - rewrite skipn_all2 by lia. cbn. lia.
    - rewrite flat_skip by lia. pose proof (IH (S n) ltac:(lia) ltac:(lia)). pose proof (in_bounds_nth HB (i := n) ltac:(lia)).
      pose proof (prodZ_pos (@pos_back (S n) dims HP)). nia. }
  induction n as [|n IH]; intros HN; [split; [now apply N0|cbn [skipn]; lia]|]. split; [now apply N0|].
  specialize (IH ltac:(lia)). rewrite flat_skip in IH by lia. pose proof (in_bounds_nth HB (i := n) ltac:(lia)).
  pose proof (prodZ_pos (@pos_back (S n) dims HP)). nia.
Qed.

Lemma i_res_big x : isize_max < x -> i_res true x = Panic.
Proof. intros H. unfold i_res, i_fits. destruct (Z.leb_spec x isize_max); [lia|]. now rewrite andb_false_r. Qed.

Lemma suffix_prod n dims : (S n <= length dims)%nat -> prodZ (skipn n dims) = nth n dims 0 * prodZ (skipn (S n) dims).
Proof.
  revert dims. induction n as [|n IH]; intros [|d dims] H; cbn [length] in *; try lia; [apply prodZ_cons|].
  change (skipn (S n) (d :: dims)) with (skipn n dims). change (skipn (S (S n)) (d :: dims)) with (skipn (S n) dims). apply IH. lia.
Qed.

(** No dimension beyond [isize::MAX]: the offset is computed exactly. *)
Lemma z_loop_small dims idx : in_bounds dims idx -> prodZ dims <= usize_max -> Forall (fun d => d <= isize_max) dims ->
  forall n, (n <= length dims)%nat -> flat (skipn n dims) (skipn n idx) <= isize_max ->
  x_offset_loop true dims idx (map wc (dense_calls n dims (prodZ (skipn n dims)))) (flat (skipn n dims) (skipn n idx)) =
    if flat dims idx <=? isize_max then Ok (flat dims idx) else Panic.
Proof.
  intros HB HU HD. pose proof (in_bounds_length HB) as HL. pose proof (in_bounds_dims HB) as HP.
  induction n as [|n IH]; intros HN HF; cbn [dense_calls map x_offset_loop wc fst snd].
  - cbn [skipn] in *. destruct (Z.leb_spec (flat dims idx) isize_max); [reflexivity|lia].
  - rewrite get_nth_in by lia. cbn [bind]. pose proof (in_bounds_nth HB (i := n) ltac:(lia)) as HK.
    cbn [dassert]. rewrite assert_true by (apply Z.ltb_lt; lia). cbn [bind].
    pose proof (@flat_mono dims idx n HB ltac:(lia)) as M. pose proof (@flat_mono dims idx (S n) HB HN) as M1.
    rewrite flat_skip in M, IH by lia. set (s := prodZ (skipn (S n) dims)) in *. set (k := nth n idx 0) in *.
    set (o := flat (skipn (S n) dims) (skipn (S n) idx)) in *.
    assert (HS : 1 <= s) by (pose proof (prodZ_pos (@pos_back (S n) dims HP)); unfold s; lia).
    assert (ND : nth n dims 0 <= isize_max) by (apply (proj1 (Forall_nth _ _) HD n 0); lia).
    assert (EP : as_isize s * as_isize k = s * k).
    { rewrite (@as_isize_fit k) by (unfold is_isize, isize_min, isize_max in *; lia). destruct (Z.eq_dec k 0) as [->|NZ]; [ring|].
      rewrite as_isize_fit; [reflexivity|]. pose proof (suffix_prod HN) as E. fold s in E. pose proof (suffix_le n HP) as SL.
      assert (2 * s <= usize_max) by nia. unfold is_isize, isize_min, isize_max, usize_max in *. lia. }
    rewrite EP. destruct (Z.leb_spec (s * k) isize_max) as [L1|G1].
    2:{ rewrite i_res_big by exact G1. cbn [bind]. destruct (Z.leb_spec (flat dims idx) isize_max); [nia|reflexivity]. }
    rewrite i_res_fit by (unfold is_isize, isize_min; nia). cbn [bind].
    destruct (Z.leb_spec (o + s * k) isize_max) as [L2|G2].
    2:{ rewrite i_res_big by exact G2. cbn [bind]. destruct (Z.leb_spec (flat dims idx) isize_max); [nia|reflexivity]. }
    rewrite i_res_fit by (unfold is_isize, isize_min; nia). cbn [bind].
    replace (o + s * k) with (k * s + o) by ring. replace (s * nth n dims 0) with (prodZ (skipn n dims)) by (rewrite (suffix_prod HN); fold s; ring).
    apply IH; lia.
Qed.

(** One dimension beyond [isize::MAX]: all others are one. *)
Lemma z_ones dims i : positive dims -> prodZ dims <= usize_max -> (i < length dims)%nat -> isize_max < nth i dims 0 ->
  forall j, (j < length dims)%nat -> j <> i -> nth j dims 0 = 1.
Proof.
  revert i. induction dims as [|d dims IH]; intros i HP HU HI HD j HJ NE; cbn [length] in *; [lia|].
  inversion HP as [|? ? H1 H2]; subst. rewrite prodZ_cons in HU. pose proof (prodZ_pos H2).
  assert (NL : forall l, positive l -> prodZ l = 1 -> forall j, (j < length l)%nat -> nth j l 0 = 1).
  { clear. induction l as [|x l IH]; intros HP HE j HJ; cbn [length] in *; [lia|]. inversion HP; subst. rewrite prodZ_cons in HE.
    pose proof (prodZ_pos H2). destruct j as [|j]; cbn [nth]; [nia|]. apply IH; [exact H2|nia|lia]. }
  assert (GE : forall l i, positive l -> (i < length l)%nat -> nth i l 0 <= prodZ l).
  { clear. induction l as [|x l IH]; intros i HP HI; cbn [length] in *; [lia|]. inversion HP; subst. rewrite prodZ_cons.
    pose proof (prodZ_pos H2). destruct i as [|i]; cbn [nth]; [nia|]. specialize (IH i H2 ltac:(lia)). nia. }
  destruct i as [|i]; destruct j as [|j]; cbn [nth] in *; try lia.
  - apply (NL dims H2); [|lia]. unfold isize_max, usize_max in *. nia.
  - pose proof (GE dims i H2 ltac:(lia)). unfold isize_max, usize_max in *. nia.
  - apply (IH i); auto; try lia. nia.
Qed.
Lemma z_loop_big dims idx i : in_bounds dims idx -> (i < length dims)%nat -> (forall j, (j < length dims)%nat -> j <> i -> nth j dims 0 = 1) ->
  forall n s o, (n <= length dims)%nat -> is_isize o -> ((n <= i)%nat \/ s = 1 /\ o = 0) ->
  exists r, x_offset_loop true dims idx (map wc (dense_calls n dims s)) o = Ok r.
Proof.
  intros HB HI HO. pose proof (in_bounds_length HB) as HL.
  induction n as [|n IH]; intros s o HN IO C; cbn [dense_calls map x_offset_loop wc fst snd]; [eauto|].
  rewrite get_nth_in by lia. cbn [bind]. pose proof (in_bounds_nth HB (i := n) ltac:(lia)) as HK.
  cbn [dassert]. rewrite assert_true by (apply Z.ltb_lt; lia). cbn [bind].
  destruct (Nat.eq_dec n i) as [->|NE].
  - destruct C as [C|[-> ->]]; [lia|]. change (as_isize 1) with 1. rewrite Z.mul_1_l, Z.add_0_l || rewrite Z.mul_1_l.
    rewrite i_res_fit by apply as_isize_range. cbn [bind]. rewrite ?Z.add_0_l, i_res_fit by apply as_isize_range. cbn [bind].
    apply IH; [lia|apply as_isize_range|left; lia].
  - rewrite (HO n) in HK by lia. replace (nth n idx 0) with 0 by lia. change (as_isize 0) with 0. rewrite Z.mul_0_r.
    rewrite i_res_fit by (unfold is_isize, isize_min, isize_max; lia). cbn [bind]. rewrite Z.add_0_r, i_res_fit by exact IO. cbn [bind].
    apply IH; [lia|exact IO|]. destruct C as [C|[-> ->]]; [left; lia|]. right. rewrite (HO n) by lia. split; reflexivity.
Qed.

Lemma z_get_dense v idx : zst_view v -> v_layout v = Dense -> in_bounds (v_dims v) idx ->
  z_get true v idx = if (flat (v_dims v) idx <=? isize_max) || existsb (fun d => isize_max <? d) (v_dims v) then Ok tt else Panic.
Proof.
  intros HV HD HB. unfold z_get, x_index_multi. pose proof (in_bounds_length HB) as HL. pose proof (in_bounds_dims HB) as HP.
  rewrite assert_true by (apply Nat.eqb_eq; exact HL). cbn [bind]. fold (v_dims v).
  destruct (@index_in_bounds_spec _ _ HL (in_bounds_nonneg HB)) as [[-> _]|[_ N]]; [|contradiction]. cbn [bind].
  unfold x_offset. cbn [dassert]. rewrite assert_true by (apply Nat.eqb_eq; exact HL). cbn [bind].
  pose proof (zv_len HV) as HU. unfold v_layout, v_dims in *. destruct (v_map v) as [ty d|]; [|discriminate]. cbn [m_dims x_calls] in *.
  rewrite z_calls_dense; [|exact HP|lia|lia|rewrite firstn_all; lia]. cbn [bind].
  destruct (existsb (fun d => isize_max <? d) d) eqn:EX.
  - rewrite orb_true_r. apply existsb_exists in EX as (x & HX & EX). apply Z.ltb_lt in EX. destruct (In_nth _ _ 0 HX) as (i & HI & <-).
    destruct (@z_loop_big d idx i HB HI (z_ones HP HU HI EX) (length d) 1 0 (le_n _)) as (r & ->); [|right; auto|reflexivity].
    unfold is_isize, isize_min, isize_max. lia.
  - rewrite orb_false_r.
    assert (HF : Forall (fun x => x <= isize_max) d).
    { apply Forall_forall. intros x HX. destruct (Z.ltb_spec isize_max x) as [G|]; [|lia]. exfalso.
      assert (existsb (fun d => isize_max <? d) d = true) by (apply existsb_exists; exists x; split; [exact HX|now apply Z.ltb_lt]). congruence. }
    pose proof (@z_loop_small d idx HB HU HF (length d) (le_n _)) as Q. rewrite !skipn_all2 in Q by lia. cbn [flat] in Q. change (prodZ []) with 1 in Q.
    rewrite Q by (unfold isize_max; lia). destruct (flat d idx <=? isize_max); reflexivity.
Qed.

(** ** Iteration *)

Definition unit_act : action unit unit := fun _ s => Ok (tt, s).

Lemma z_stride m d : wf_map m -> (d < m_rank m)%nat -> exists s, x_stride false m d = Ok s.
Proof.
  intros HW HD. unfold m_rank in HD. pose proof (wf_strides HW) as HL. destruct m as [ty dd|ty dd st]; cbn [x_stride m_dims m_strides] in *;
    rewrite assert_true by (apply Nat.ltb_lt; exact HD); cbn [bind].
  - change 1 with (as_usize 1). rewrite x_prod_wrap. cbn [bind]. eauto.
  - rewrite get_nth_in by lia. eauto.
Qed.
Lemma z_reset rep v d c p : wf_map (v_map v) -> (d < length (v_dims v))%nat -> e_reset (z_view false rep v) d c p = Ok p.
Proof.
  intros HW HD. cbn [z_view e_reset]. destruct (@z_stride (v_map v) d HW HD) as (s & ->). cbn [bind]. rewrite i_res_false. cbn [bind].
  rewrite i_res_false. reflexivity.
Qed.
Lemma z_step rep v d p : wf_map (v_map v) -> (d < length (v_dims v))%nat -> e_step (z_view false rep v) d p = Ok p.
Proof. intros HW HD. cbn [z_view e_step]. destruct (@z_stride (v_map v) d HW HD) as (s & ->). reflexivity. Qed.

Lemma computes_z_view rep v : wf_map (v_map v) -> computes (z_view false rep v) unit_act tt 0.
Proof.
  intros HW. split; [apply (wf_nonneg HW)|]. intros D q C. pose proof (cp_rank C) as CR. pose proof (cp_q C) as CQ.
  exists (fun _ _ _ _ => True), (fun _ _ _ _ => True).
  assert (RS : forall j c s, (j < length D)%nat -> exists s1, reset_at (z_view false rep v) (length D) j c s = Ok s1 /\ True).
  { intros j c s HJ. unfold reset_at. change (e_rank (z_view false rep v)) with (length (v_dims v)) in *.
    destruct (Nat.leb_spec (length D - j) (length (v_dims v))) as [H|H]; [|eauto]. rewrite z_reset by (auto; lia). eauto. }
  split; [constructor|exact I].
  - intros o i s s' _ _ _. cbn [z_view e_get]. rewrite i_res_false. cbn. destruct s, s'. auto.
  - intros o s s' _ _ HQ. apply RS. lia.
  - intros o s s' _ _ HQ. apply RS. lia.
  - auto.
  - intros o m s s' _ _ HM. apply RS. lia.
  - intros o m s s' _ _ HM _ _. unfold step_at. change (e_rank (z_view false rep v)) with (length (v_dims v)) in *.
    destruct (Nat.leb_spec (length D - (q - 1 - m)) (length (v_dims v))) as [H|H]; [|eauto]. rewrite z_step by (auto; lia). eauto.
Qed.

(** With overflow checks, a dense array: the inner dimensions are all of them. *)
Lemma z_laws_dense dbg rep v : zst_view v -> v_layout v = Dense -> positive (v_dims v) ->
  laws (z_view dbg rep v) unit_act (v_dims v) (outer_rank (z_view dbg rep v)) (fun _ _ _ _ => True) (fun _ _ _ _ => True).
Proof.
  intros HV HD HP.
  assert (Q0 : outer_rank (z_view dbg rep v) = 0%nat).
  { unfold outer_rank, e_rank. cbn [z_view e_inner e_dims]. unfold map_inner_rank. fold (v_layout v). rewrite HD.
    change (m_rank (v_map v)) with (length (v_dims v)). destruct (sh_rank (m_ty (v_map v))) as [[|]|]; lia. }
  rewrite Q0.
  assert (RS : (0 < length (v_dims v))%nat -> forall s, exists s1, reset_at (z_view dbg rep v) (length (v_dims v)) (length (v_dims v) - 1) 0 s = Ok s1 /\ True).
  { intros HL s. unfold reset_at. change (e_rank (z_view dbg rep v)) with (length (v_dims v)).
    destruct (Nat.leb_spec (length (v_dims v) - (length (v_dims v) - 1)) (length (v_dims v))) as [H|H]; [|eauto].
    cbn [z_view e_reset]. unfold v_layout, v_dims in *. destruct (v_map v) as [ty d|]; [|discriminate]. cbn [m_dims x_stride] in *.
    rewrite assert_true by (apply Nat.ltb_lt; lia). cbn [bind]. rewrite skipn_all2 by lia. cbn [x_prod bind]. change (as_isize 1) with 1.
    cbn. eauto. }
  constructor.
  - intros o i s s' _ _ HI. cbn [z_view e_get]. unfold v_layout, v_dims in *. destruct (v_map v) as [ty d|]; [|discriminate]. cbn [inner_stride m_dims] in *.
    destruct (sh_rank ty) as [[|]|]; rewrite ?Z.mul_1_l, ?Z.mul_0_l, i_res_fit by (apply as_isize_range || (unfold is_isize, isize_min, isize_max; lia));
      cbn; destruct s, s'; auto.
  - intros o s s' _ _ HQ. now apply RS.
  - intros o s s' _ _ HQ. now apply RS.
  - auto.
  - intros; lia.
  - intros; lia.
Qed.

(** The iterator of an expression with given laws. *)
Lemma laws_new {A S} (e : expression A) (act : action A S) s0 R Q :
  laws e act (e_dims e) (outer_rank e) R Q -> R (repeat 0 (outer_rank e)) 0 (e_init e) s0 -> nonneg (e_dims e) -> Inv R (it_new e) 0 s0.
Proof.
  intros HL R0 Hn. exists (repeat 0 (outer_rank e)), 0. pose proof (outer_rank_le e) as Hq.
  assert (LO : length (olim (outer_rank e) (e_dims e)) = outer_rank e) by (apply olim_length; auto).
  split; [|split; [reflexivity|]].
  - constructor.
    + exact R0.
    + unfold it_new. cbn [it_limit]. rewrite fold_mul_prod, Z.mul_1_l. reflexivity.
    + unfold it_new. cbn [it_outer]. unfold oz. destruct (Nat.ltb_spec 0 (outer_rank e)); auto.
      rewrite <- repeat_app. f_equal. lia.
    + reflexivity.
    + rewrite <- LO at 2. apply in_bounds_zeros, olim_positive.
  - split.
    + pose proof (prodZ_nonneg (nonneg_skipn (outer_rank e) Hn)). lia.
    + rewrite <- LO at 2. rewrite flat_zeros. lia.
Qed.

Lemma run_times {T} (f : T -> unit -> outcome T) l : forall acc,
  run_value unit_act f l tt acc = times (length l) (fun a => f a tt) acc.
Proof.
  unfold run_value. induction l as [|i l IH]; intros acc; cbn [run times length unit_act bind]; [reflexivity|].
  destruct (f acc tt); cbn [bind]; auto.
Qed.
Lemma items_units l : items unit_act l tt = Ok (repeat tt (length l), tt).
Proof. induction l as [|i l IH]; cbn [items length repeat unit_act bind]; [reflexivity|]. now rewrite IH. Qed.

Section Walk.
  Variables (dbg rep : bool) (v : view).
  Hypotheses (HV : zst_view v) (HP : positive (v_dims v)) (HC : dbg = false \/ v_layout v = Dense).
  Let e := z_view dbg rep v.

  Lemma z_laws : exists R Q, laws e unit_act (e_dims e) (outer_rank e) R Q /\ Inv R (it_new e) 0 tt.
  Proof.
    destruct HC as [->|HD].
    - apply (@new_inv _ _ e unit_act tt 0); [apply computes_z_view, HV|lia].
    - exists (fun _ _ _ _ => True), (fun _ _ _ _ => True). pose proof (z_laws_dense dbg rep HV HD HP) as L. split; [exact L|].
      apply (laws_new L); [exact I|]. apply (wf_nonneg (zv_wf HV)).
  Qed.
  Let z_size : prodZ (e_dims e) <= usize_max. Proof. exact (zv_len HV). Qed.

  Lemma z_new : x_it_new dbg e = Ok (it_new e) /\ iter_ok (it_new e).
  Proof.
    apply x_new_ok; change (e_dims e) with (v_dims v).
    - now apply positive_nonneg.
    - apply HV.
    - pose proof (@mx_skipn (outer_rank e) (v_dims v)) as H. rewrite (mx_positive HP) in H. pose proof (zv_len HV). lia.
  Qed.
  Lemma z_count : length (indices (v_dims v)) = Z.to_nat (prodZ (v_dims v)).
  Proof. apply indices_length. now apply positive_nonneg. Qed.

  Lemma z_fold T (f : T -> unit -> outcome T) acc :
    x_fold dbg e f acc = times (Z.to_nat (prodZ (v_dims v))) (fun a => f a tt) acc.
  Proof.
    destruct z_new as [E1 E2]. unfold x_fold. rewrite E1. cbn [bind]. rewrite x_it_fold_ok by exact E2.
    destruct z_laws as (R & Q & HL & HI).
    assert (HF : outer_fine e) by (left; now apply pos_front).
    rewrite (@fold_inv _ _ _ _ _ _ HL (wf_nonneg (zv_wf HV)) HF _ f _ _ _ acc HI).
    rewrite positions_zrange, <- indices_unflat by apply (wf_nonneg (zv_wf HV)).
    rewrite run_times. change (e_dims e) with (v_dims v). now rewrite z_count.
  Qed.

  Lemma z_next n : (n <= Z.to_nat (prodZ (v_dims v)))%nat ->
    exists it, (let* it := x_it_new dbg e in x_nexts dbg n it) = Ok (repeat (Some tt) n, it) /\
      x_size dbg it = Ok (prodZ (v_dims v) - Z.of_nat n) /\
      (n = Z.to_nat (prodZ (v_dims v)) -> exists it', x_next dbg it = Ok (None, it')).
  Proof.
    intros Hn. destruct z_new as [E1 E2]. rewrite E1. cbn [bind]. destruct z_laws as (R & Q & HL & HI).
    pose proof (positive_nonneg HP) as HD. pose proof (prodZ_nonneg HD) as HPN.
    assert (HN : next_fine e) by (right; exact HP). pose proof (next_outer_fine HN) as HF.
    assert (HL0 : outer_rank e = 0%nat \/ 0 < it_limit (it_new e)).
    { right. rewrite new_limit. apply prodZ_pos. now apply pos_back. }
    destruct (@x_nexts_ok dbg unit e n (it_new e) E2 HL0) as [-> HO].
    pose proof (@nexts_inv _ _ _ _ _ _ n _ 0 tt HL HD HN HI) as G. change (e_dims e) with (v_dims v) in G. specialize (G ltac:(lia)).
    rewrite Z.add_0_l, items_units in G. destruct (it_nexts n (it_new e)) as [[l it]| | |] eqn:EN; cbn [agree fst snd] in G; try contradiction.
    destruct G as [El HI']. destruct (HO _ _ eq_refl) as [IO IL]. exists it. split.
    - do 2 f_equal. rewrite El. rewrite map_length, positions_zrange. unfold zrange. rewrite map_length, seq_length, Nat2Z.id.
      clear. induction n; cbn; congruence.
    - split.
      + rewrite x_size_ok; auto. f_equal. apply (size_inv HF HN HI').
      + intros E. assert (HI2 : Inv R it (prodZ (e_dims e)) tt).
        { change (e_dims e) with (v_dims v). replace (prodZ (v_dims v)) with (Z.of_nat n) by lia. exact HI'. }
        destruct (next_end HL HF HN HI2) as (it' & E' & HDn). exists it'.
        destruct (@x_next_ok dbg unit e it IO) as [-> _]; auto. right. rewrite IL. destruct HL0; auto.
        rewrite new_limit. apply prodZ_pos. now apply pos_back.
  Qed.
End Walk.

(** The checks only add panics. *)
Lemma sim_z rep v : e_le (a := z_view true rep v) (b := z_view false rep v) eq.
Proof.
  constructor; auto; cbn [z_view e_get e_reset e_step].
  - intros i s ? <-. ole_step. cbn. auto.
  - intros d c s ? <-. ole_step. ole_step. ole_step. reflexivity.
  - intros d s ? <-. ole_step. reflexivity.
Qed.
