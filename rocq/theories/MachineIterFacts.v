(** Facts about [MachineIter.v]: when the integers of an iteration fit. *)
From Verif Require Import Base Spec SpecFacts Shape Mapping Index View Wf MappingFacts MapOps ReshapeFacts.
From Verif Require Import IndexFacts ViewFacts ViewMore Expr ExprSpec ExprFacts IterFacts SourceFacts ExprTree ExprMore Pointer PointerFacts.
From Verif Require Import Machine MachineSpec MachineFacts MachineViews MachineIter.
Unset Strict Implicit.

(** ** The iterator *)

(** Indices are below their limits, and the limits fit. *)
Record iter_ok {A} {e : expression A} (it : iter e) : Prop := {
  io_outer : forall i, 0 <= nth i (it_outer it) 0 < Z.max 1 (nth i (it_olimit it) 0);
  io_olimit : forall i, nth i (it_olimit it) 0 <= usize_max;
  io_index : 0 <= it_index it <= it_limit it;
  io_limit : it_limit it <= usize_max;
  io_shape : it_olimit it = if (0 <? outer_rank e)%nat then e_dims e else [];
  io_length : length (it_outer it) = length (it_olimit it);
  io_inner : it_limit it = prodZ (skipn (outer_rank e) (e_dims e))
}.

Lemma usize_pos : 1 < usize_max. Proof. unfold usize_max. lia. Qed.

Lemma nth_upd i j (l : list Z) x : nth j (upd l i x) 0 = if (j =? i)%nat && (i <? length l)%nat then x else nth j l 0.
Proof.
  destruct (Nat.eqb_spec j i) as [->|NE]; cbn [andb].
  - destruct (Nat.ltb_spec i (length l)); [now apply upd_nth_same|].
    rewrite !nth_overflow by (rewrite ?upd_length; lia). reflexivity.
  - apply upd_nth_other. auto.
Qed.

Lemma x_step_loop_ok dbg {A} (e : expression A) olimit n : forall st outer,
  (forall i, 0 <= nth i outer 0 < Z.max 1 (nth i olimit 0)) -> (forall i, nth i olimit 0 <= usize_max) ->
  x_step_loop dbg e olimit n st outer = step_loop e olimit n st outer /\
  forall b st' outer', step_loop e olimit n st outer = Ok (b, st', outer') -> length outer' = length outer /\
    forall i, 0 <= nth i outer' 0 < Z.max 1 (nth i olimit 0).
Proof.
  induction n as [|i IH]; intros st outer HO HL; cbn [x_step_loop step_loop].
  - split; [reflexivity|]. intros b st' outer' E. injection E as <- <- <-. split; [reflexivity|exact HO].
  - pose proof (HO i) as Hi. pose proof (HL i) as Li. pose proof usize_pos.
    rewrite u_res_fit by (unfold is_usize; lia). cbn [bind].
    destruct (Z.ltb_spec (nth i outer 0 + 1) (nth i olimit 0)) as [L|L].
    + destruct (e_step e i st) as [st1| | |]; cbn [bind]; (split; [reflexivity|]); intros b st' outer' E; try discriminate.
      injection E as <- <- <-. split; [apply upd_length|]. intros j. rewrite nth_upd. pose proof (HO j).
      destruct (Nat.eqb_spec j i) as [->|]; cbn [andb]; [|lia]. destruct (_ <? _)%nat; lia.
    + destruct (e_reset e i (nth i outer 0) st) as [st1| | |]; cbn [bind]; try (split; [reflexivity|]; discriminate).
      destruct (IH st1 (upd outer i 0)) as [E1 E2]; auto.
      { intros j. rewrite nth_upd. pose proof (HO j). destruct (_ && _); lia. }
      split; [exact E1|]. intros b st' outer' E. apply E2 in E. now rewrite upd_length in E.
Qed.

Lemma zeros_nth {B} (l : list B) i : nth i (map (fun _ => 0) l) 0 = 0.
Proof. revert i. induction l; intros [|i]; cbn; auto. Qed.

Lemma x_step_outer_ok dbg {A} {e : expression A} (it : iter e) : iter_ok it ->
  x_step_outer dbg it = step_outer it /\
  forall b it', step_outer it = Ok (b, it') ->
    iter_ok it' /\ it_index it' = it_index it /\ it_limit it' = it_limit it.
Proof.
  intros [H1 H2 H3 H4 H5 H6 H7]. unfold x_step_outer, step_outer.
  destruct (if (outer_rank e <? e_rank e)%nat then _ else _) as [st| | |]; cbn [bind]; try (split; [reflexivity|discriminate]).
  destruct (@x_step_loop_ok dbg A e (it_olimit it) (outer_rank e) st (it_outer it) H1 H2) as [E HB]. rewrite E.
  destruct (step_loop e (it_olimit it) (outer_rank e) st (it_outer it)) as [[[b st'] outer]| | |] eqn:ES; cbn [bind];
    try (split; [reflexivity|discriminate]).
  split; [reflexivity|]. intros b0 it' EI. injection EI as <- <-. cbn [it_index it_limit]. destruct (HB _ _ _ eq_refl) as [L1 B1].
  split; [|auto]. constructor; cbn; auto; try lia.
  - intros i. destruct b; [apply B1|rewrite zeros_nth; lia].
  - destruct b; rewrite ?map_length; congruence.
Qed.

Lemma x_fold_loop_ok dbg {A T} {e : expression A} (f : T -> A -> outcome T) fuel : forall (it : iter e) acc, iter_ok it ->
  x_fold_loop dbg f fuel it acc = fold_loop f fuel it acc.
Proof.
  induction fuel as [|k IH]; intros it acc HI; cbn [x_fold_loop fold_loop]; [reflexivity|].
  destruct (inner_loop e f _ _ _ _) as [[st acc']| | |]; cbn [bind]; auto.
  assert (HI' : iter_ok (mkIter st (it_index it) (it_limit it) (it_outer it) (it_olimit it))) by (destruct HI; constructor; auto).
  destruct (x_step_outer_ok dbg HI') as [E HB]. rewrite E.
  destruct (step_outer _) as [[b it']| | |] eqn:ES; cbn [bind]; auto. destruct (HB _ _ eq_refl) as (OK & E1 & E2).
  destruct b; auto. apply IH. destruct OK as [O1 O2 O3 O4 O5 O6 O7]. constructor; cbn; auto. lia.
Qed.

Lemma x_it_fold_ok dbg {A T} {e : expression A} (f : T -> A -> outcome T) (it : iter e) acc : iter_ok it ->
  x_it_fold dbg f it acc = it_fold f it acc.
Proof. intros H. unfold x_it_fold, it_fold. now apply x_fold_loop_ok. Qed.

Lemma step_none {A} {e : expression A} (it : iter e) b it' : outer_rank e = 0%nat -> step_outer it = Ok (b, it') -> b = false.
Proof.
  intros E0. unfold step_outer. rewrite E0. destruct (if (0 <? e_rank e)%nat then _ else _); cbn; try discriminate.
  intros E. now injection E.
Qed.

Lemma x_next_ok dbg {A} {e : expression A} (it : iter e) : iter_ok it -> outer_rank e = 0%nat \/ 0 < it_limit it ->
  x_next dbg it = it_next it /\ forall x it', it_next it = Ok (x, it') -> iter_ok it' /\ it_limit it' = it_limit it.
Proof.
  intros HI HP. unfold x_next, it_next. cbv zeta.
  assert (TK : forall it0 : iter e, iter_ok it0 -> it_index it0 < it_limit it0 ->
    (let* i := u_res dbg (it_index it0 + 1) in
     let* k := u_res dbg (i - 1) in
     let* (a, st) := e_get e k (it_st it0) in
     Ok (Some a, mkIter st i (it_limit it0) (it_outer it0) (it_olimit it0))) =
    (let* (a, st) := e_get e (it_index it0 + 1 - 1) (it_st it0) in
     Ok (Some a, mkIter st (it_index it0 + 1) (it_limit it0) (it_outer it0) (it_olimit it0))) /\
    (forall x it', (let* (a, st) := e_get e (it_index it0 + 1 - 1) (it_st it0) in
     Ok (Some a, mkIter st (it_index it0 + 1) (it_limit it0) (it_outer it0) (it_olimit it0))) = Ok (x, it') ->
     iter_ok it' /\ it_limit it' = it_limit it0)).
  { intros it0 [H1 H2 H3 H4 H5 H6 H7] HL.
    rewrite u_res_fit by (unfold is_usize; lia). cbn [bind]. rewrite u_res_fit by (unfold is_usize; lia). cbn [bind].
    split; [reflexivity|]. intros x it' E. destruct (e_get e _ _) as [[a st]| | |]; try discriminate.
    injection E as <- <-. split; [|reflexivity]. constructor; cbn; auto. lia. }
  destruct (Z.eqb_spec (it_index it) (it_limit it)) as [EQ|NE].
  - destruct (x_step_outer_ok dbg HI) as [E HB]. rewrite E.
    destruct (step_outer it) as [[b it1]| | |] eqn:ES; cbn [bind]; try (split; [reflexivity|discriminate]).
    destruct (HB _ _ eq_refl) as (OK & E1 & E2). destruct b.
    + destruct HP as [H0|HP]; [now apply (step_none H0) in ES|].
      assert (OK0 : iter_ok (mkIter (it_st it1) 0 (it_limit it1) (it_outer it1) (it_olimit it1))).
      { destruct OK as [O1 O2 O3 O4 O5 O6 O7]. constructor; cbn; auto. lia. }
      destruct (TK _ OK0) as [T1 T2]; [cbn; lia|]. split; [exact T1|]. intros x it' EI. apply T2 in EI. cbn in EI.
      split; [apply EI|]. destruct EI as [_ ->]. exact E2.
    + split; [reflexivity|]. intros x it' EI. injection EI as <- <-. auto.
  - apply TK; auto. destruct HI as [O1 O2 O3 O4 O5 O6 O7]. lia.
Qed.

Lemma x_nexts_ok dbg {A} {e : expression A} n : forall (it : iter e), iter_ok it -> outer_rank e = 0%nat \/ 0 < it_limit it ->
  x_nexts dbg n it = it_nexts n it /\ forall l it', it_nexts n it = Ok (l, it') -> iter_ok it' /\ it_limit it' = it_limit it.
Proof.
  induction n as [|n IH]; intros it HI HP; cbn [x_nexts it_nexts].
  - split; [reflexivity|]. intros l it' E. injection E as <- <-. auto.
  - destruct (x_next_ok dbg HI HP) as [-> HN]. destruct (it_next it) as [[x it1]| | |]; cbn [bind]; try (split; [reflexivity|discriminate]).
    destruct (HN _ _ eq_refl) as [H1 L1]. destruct (IH it1 H1) as [-> HL]; [rewrite L1; exact HP|].
    destruct (it_nexts n it1) as [[l it2]| | |]; cbn [bind]; try (split; [reflexivity|discriminate]).
    split; [reflexivity|]. intros l' it' E. injection E as <- <-. destruct (HL _ _ eq_refl) as [H2 L2]. split; [exact H2|congruence].
Qed.

Lemma new_limit {A} (e : expression A) : it_limit (it_new e) = prodZ (skipn (outer_rank e) (e_dims e)).
Proof. unfold it_new. cbn [it_limit]. rewrite fold_mul_prod. lia. Qed.

Lemma x_new_ok dbg {A} (e : expression A) :
  nonneg (e_dims e) -> Forall (fun d => d <= usize_max) (e_dims e) -> mx (skipn (outer_rank e) (e_dims e)) <= usize_max ->
  x_it_new dbg e = Ok (it_new e) /\ iter_ok (it_new e).
Proof.
  intros HN HD HM. pose proof (nonneg_skipn (outer_rank e) HN) as HS. pose proof (mx_prod HS) as HP. pose proof usize_pos.
  split.
  - unfold x_it_new. rewrite x_prod_fit by (auto; lia). cbn [bind]. f_equal. unfold it_new. f_equal.
    rewrite fold_mul_prod. reflexivity.
  - constructor.
    + intros i. unfold it_new. cbn [it_outer it_olimit]. destruct (0 <? outer_rank e)%nat.
      * rewrite nth_repeat. lia.
      * destruct i; cbn; lia.
    + intros i. unfold it_new. cbn [it_olimit]. destruct (0 <? outer_rank e)%nat; [|destruct i; cbn; lia].
      destruct (Nat.lt_ge_cases i (e_rank e)) as [L|L]; [|rewrite nth_overflow by exact L; lia].
      rewrite Forall_forall in HD. apply HD, nth_In, L.
    + rewrite new_limit. cbn. lia.
    + rewrite new_limit. lia.
    + reflexivity.
    + unfold it_new. cbn [it_outer it_olimit]. destruct (0 <? outer_rank e)%nat; [apply repeat_length|reflexivity].
    + apply new_limit.
Qed.

(** The remaining length. *)
Lemma x_size_loop_ok dbg n : forall limit index len, 1 <= len -> (n <= length limit)%nat -> length index = length limit ->
  (forall i, (i < n)%nat -> 0 <= nth i index 0 < nth i limit 0) -> len * prodZ (firstn n limit) <= usize_max ->
  x_size_loop dbg n limit index len = Ok (size_loop n limit index len) /\
  1 <= size_loop n limit index len <= len * prodZ (firstn n limit).
Proof.
  induction n as [|n IH]; intros limit index len H1 HL HE HB HM; cbn [x_size_loop size_loop firstn].
  - replace (prodZ []) with 1 by reflexivity. split; [reflexivity|lia].
  - destruct limit as [|l lt]; [cbn in HL; lia|]. destruct index as [|i it]; [discriminate HE|].
    cbn [length firstn] in *. cbn [prodZ fold_right] in *. fold (prodZ (firstn n lt)) in *.
    pose proof (HB 0%nat ltac:(lia)) as B0. cbn in B0.
    assert (BT : forall j, (j < n)%nat -> 0 <= nth j it 0 < nth j lt 0) by (intros j Hj; apply (HB (S j)); lia).
    assert (PP : 1 <= prodZ (firstn n lt)).
    { assert (PN : positive (firstn n lt)); [|pose proof (prodZ_pos PN); lia].
      apply Forall_forall. intros x Hx. apply (In_nth _ _ 0) in Hx as (j & Hj & <-). rewrite firstn_length in Hj.
      specialize (BT j ltac:(lia)). rewrite <- (firstn_skipn n lt) in BT. rewrite app_nth1 in BT by (rewrite firstn_length; lia). lia. }
    set (P := prodZ (firstn n lt)) in *. rewrite Z.mul_assoc in HM |- *.
    assert (H0 : l <= len * l) by nia. assert (HP : len * l * 1 <= len * l * P) by (apply Z.mul_le_mono_nonneg_l; lia).
    assert (HX : 0 <= len * l <= usize_max) by lia.
    assert (HS : (len * l - i) * P <= len * l * P) by (apply Z.mul_le_mono_nonneg_r; lia).
    rewrite u_res_fit by exact HX. cbn [bind]. rewrite u_res_fit by (unfold is_usize; lia). cbn [bind].
    destruct (IH lt it (len * l - i)) as [E R]; auto; fold P; try lia. rewrite E. split; [reflexivity|]. fold P in R. lia.
Qed.

Lemma x_size_ok dbg {A} {e : expression A} (it : iter e) : iter_ok it -> positive (e_dims e) -> prodZ (e_dims e) <= usize_max ->
  x_size dbg it = Ok (it_size it).
Proof.
  intros [H1 H2 H3 H4 H5 H6 H7] HP HU. unfold x_size, it_size. pose proof (outer_rank_le e) as Hq. unfold e_rank in Hq.
  set (q := outer_rank e) in *.
  pose proof HP as HP'. rewrite <- (firstn_skipn q (e_dims e)) in HP'. apply positive_app in HP' as [PA PB].
  pose proof (prodZ_pos PA) as QA. pose proof (prodZ_pos PB) as QB.
  assert (EP : prodZ (e_dims e) = prodZ (firstn q (e_dims e)) * prodZ (skipn q (e_dims e))).
  { rewrite <- prodZ_app, firstn_skipn. reflexivity. }
  assert (X : x_size_loop dbg q (it_olimit it) (it_outer it) 1 = Ok (size_loop q (it_olimit it) (it_outer it) 1) /\
              1 <= size_loop q (it_olimit it) (it_outer it) 1 <= prodZ (firstn q (e_dims e))).
  { destruct (Nat.ltb_spec 0 q) as [L|L].
    - rewrite H5 in *. rewrite <- (Z.mul_1_l (prodZ (firstn q (e_dims e)))). apply x_size_loop_ok; try lia.
      + intros i Hi. specialize (H1 i). assert (0 < nth i (e_dims e) 0).
        { unfold positive in HP. rewrite Forall_forall in HP. apply HP, nth_In. lia. }
        lia.
      + nia.
    - assert (q = 0%nat) as -> by lia. cbn [x_size_loop size_loop]. split; [reflexivity|]. cbn. lia. }
  destruct X as [E R]. rewrite E. cbn [bind]. rewrite H7 in *.
  assert (M : size_loop q (it_olimit it) (it_outer it) 1 * prodZ (skipn q (e_dims e)) <= prodZ (e_dims e)).
  { rewrite EP. apply Z.mul_le_mono_nonneg_r; lia. }
  rewrite u_res_fit by (unfold is_usize; nia). cbn [bind]. apply u_res_fit. unfold is_usize. nia.
Qed.

(** ** Views *)

Lemma i_abs dbg x : Z.abs x <= isize_max -> i_res dbg x = Ok x.
Proof. intros H. apply i_res_fit. now apply isize_abs. Qed.

Lemma wk_strides dbg n v i : walkable dbg n v -> (i < length (v_dims v))%nat ->
  isize_min <= nth i (m_strides (v_map v)) 0 <= isize_max /\ (dbg = true -> nth i (m_strides (v_map v)) 0 <> isize_min).
Proof.
  intros (HV & _ & _ & HS) Hi. rewrite Forall_forall in HS. apply HS, nth_In.
  rewrite (wf_strides (vv_wf HV)). exact Hi.
Qed.

Lemma wk_roomy dbg n v : walkable dbg n v -> roomy (v_dims v).
Proof. intros (HV & HN & HP & _). apply (valid_roomy HV HN). now apply prodZ_pos. Qed.

(** Moving along one dimension stays within the storage. *)
Lemma term_bound n v i k : valid_view n v -> positive (v_dims v) -> (i < length (v_dims v))%nat -> 0 <= k < nth i (v_dims v) 0 ->
  Z.abs (nth i (m_strides (v_map v)) 0 * k) < n.
Proof.
  intros HV HP Hi Hk. pose proof (IterFacts.in_bounds_zeros HP) as B0.
  assert (LS : length (m_strides (v_map v)) = length (v_dims v)) by apply (wf_strides (vv_wf HV)).
  assert (B1 : in_bounds (v_dims v) (upd (repeat 0 (length (v_dims v))) i k)).
  { apply in_bounds_intro; [now rewrite upd_length, repeat_length|]. intros j Hj. rewrite nth_upd, repeat_length, nth_repeat.
    pose proof (in_bounds_nth B0 Hj) as H. rewrite nth_repeat in H.
    destruct (Nat.eqb_spec j i) as [->|]; cbn [andb]; [|exact H]. destruct (Nat.ltb_spec i (length (v_dims v))); [exact Hk|lia]. }
  pose proof (vv_range HV B0) as R0. pose proof (vv_range HV B1) as R1.
  unfold v_addr in *. rewrite m_offset_dot in R0, R1; auto; try (rewrite ?upd_length, repeat_length; reflexivity).
  rewrite dot_upd, nth_repeat, dot_zeros in R1; [|lia|rewrite repeat_length; lia].
  rewrite dot_zeros in R0. rewrite Z.sub_0_r in R1. lia.
Qed.

Lemma dim_isize n v i k : valid_view n v -> n <= isize_max -> positive (v_dims v) -> (i < length (v_dims v))%nat ->
  0 <= k < nth i (v_dims v) 0 -> as_isize k = k.
Proof.
  intros HV HN HP Hi Hk. apply as_isize_fit. apply small_isize.
  pose proof (valid_roomy HV HN (prodZ_pos HP)) as HR. pose proof (@roomy_nth (v_dims v) i HR). lia.
Qed.

Lemma x_view_reset dbg n rep v d c (p : Z) : walkable dbg n v -> (d < length (v_dims v))%nat -> 0 <= c < nth d (v_dims v) 0 ->
  e_reset (x_e_view dbg n rep v) d c p = Ok (p + - nth d (m_strides (v_map v)) 0 * c).
Proof.
  intros HK Hd Hc. pose proof HK as (HV & HN & HP & _). pose proof (wk_strides HK Hd) as [HS HM].
  cbn [x_e_view e_reset]. rewrite x_stride_fit; [|apply (vv_wf HV)|apply (wk_roomy HK)].
  rewrite m_stride_ok; [|apply (wf_strides (vv_wf HV))|exact Hd]. cbn [bind].
  rewrite (dim_isize HV HN HP Hd Hc). pose proof (term_bound HV HP Hd Hc) as HT.
  set (s := nth d (m_strides (v_map v)) 0) in *.
  destruct (Z.eq_dec s isize_min) as [E|E].
  - destruct dbg; [now elim HM|]. assert (c = 0) as ->.
    { rewrite E in HT. unfold isize_min, isize_max in *. nia. }
    unfold i_res at 1. destruct (i_fits (- s)); cbn [bind]; rewrite !Z.mul_0_r; rewrite i_res_fit by (unfold is_isize, isize_min, isize_max; lia);
      cbn [bind]; okz.
  - rewrite i_res_fit by (unfold is_isize, isize_min, isize_max in *; lia). cbn [bind].
    rewrite i_abs by lia. cbn [bind]. reflexivity.
Qed.

Lemma x_view_step dbg n rep v d (p : Z) : walkable dbg n v -> (d < length (v_dims v))%nat ->
  e_step (x_e_view dbg n rep v) d p = Ok (p + nth d (m_strides (v_map v)) 0).
Proof.
  intros HK Hd. pose proof HK as (HV & _).
  cbn [x_e_view e_step]. rewrite x_stride_fit; [|apply (vv_wf HV)|apply (wk_roomy HK)].
  rewrite m_stride_ok; [|apply (wf_strides (vv_wf HV))|exact Hd]. reflexivity.
Qed.

(** The product of a stride and an index whose exact value is small. *)
Lemma i_mul dbg s i : 0 <= i -> Z.abs (s * i) <= isize_max -> i_res dbg (s * as_isize i) = Ok (s * i).
Proof.
  intros Hi H. destruct (Z.eq_dec s 0) as [->|NE].
  - rewrite !Z.mul_0_l. apply i_abs. unfold isize_max. lia.
  - rewrite as_isize_fit; [now apply i_abs|]. apply small_isize. nia.
Qed.

Lemma computes_x_view dbg n rep v :
  walkable dbg n v -> computes (x_e_view dbg n rep v) (pure_action (v_addr v)) tt 0.
Proof.
  intros HK. pose proof HK as (Hv & HN & HP & _). pose proof (vv_wf Hv) as Hw.
  split; [apply (wf_nonneg Hw)|]. intros D q C.
  assert (C' : compat (e_view n rep v) 0 D q) by (destruct C; constructor; auto).
  pose proof (@walk_range n rep v D q Hv (walks_full Hv HP) C') as RG.
  set (g := firstn q (gs (length D) (v_map v))) in *.
  assert (Hrank : (m_rank (v_map v) <= length D)%nat) by apply (cp_rank C).
  assert (Hlg : length g = q) by (apply g_length; auto; apply (cp_q C)).
  assert (Hdims : lastn (m_rank (v_map v)) D = m_dims (v_map v)) by apply (cp_dims C).
  assert (DN : forall j, (length D - j <= m_rank (v_map v))%nat ->
    nth (m_rank (v_map v) - (length D - j)) (v_dims v) 0 = nth j D 0).
  { intros j Hj. unfold v_dims. rewrite <- Hdims. rewrite lastn_nth by exact Hrank.
    destruct (Nat.lt_ge_cases j (length D)); [f_equal; lia|]. rewrite !nth_overflow by lia. reflexivity. }
  exists (fun o i p _ => p = v_ptr v + dot g o).
  exists (fun o k p _ => p = v_ptr v + dot g (zero_tail o k)).
  assert (NOP : forall o, (q < length D)%nat ->
    reset_at (x_e_view dbg n rep v) (length D) (length D - 1) 0 (v_ptr v + dot g o) = Ok (v_ptr v + dot g o)).
  { intros o Hlt. unfold reset_at. replace (length D - (length D - 1))%nat with 1%nat by lia.
    destruct (Nat.leb_spec 1 (e_rank (x_e_view dbg n rep v))) as [L|L]; [|reflexivity].
    change (e_rank (x_e_view dbg n rep v)) with (length (v_dims v)) in *.
    rewrite x_view_reset; auto; [|lia|].
    - okz.
    - split; [lia|]. unfold positive in HP. rewrite Forall_forall in HP. apply HP, nth_In. lia. }
  split; [constructor|].
  - intros o i p [] -> B Hi. unfold pure_action.
    assert (E : v_addr v (lastn (e_rank (e_view n rep v)) (o ++ unflat (skipn q D) i)) =
                v_ptr v + dot g o + inner_stride (v_map v) * i).
    { unfold v_addr. change (e_rank (e_view n rep v)) with (m_rank (v_map v)).
      rewrite full_offset; auto; try apply C; [unfold g; lia|].
      apply in_bounds_length in B. rewrite firstn_length in B. pose proof (cp_q C). lia. }
    assert (RG' : 0 <= v_ptr v + dot g o + inner_stride (v_map v) * i < n).
    { rewrite <- E. apply (vv_range Hv). apply (compat_index C'); auto. }
    assert (RO : 0 <= v_ptr v + dot g o <= n) by (apply RG; rewrite (olim_inb B); exact B).
    change (e_rank (x_e_view dbg n rep v)) with (e_rank (e_view n rep v)).
    cbn [x_e_view e_get]. rewrite i_mul by lia. cbn [bind].
    unfold e_ref. rewrite E. destruct (Z.leb_spec 0 (v_ptr v + dot g o + inner_stride (v_map v) * i)); [|lia].
    destruct (Z.ltb_spec (v_ptr v + dot g o + inner_stride (v_map v) * i) n); [|lia]. cbn. auto.
  - intros o p [] -> B Hlt. exists (v_ptr v + dot g o). split; [now apply NOP|]. now rewrite zero_tail_0.
  - intros o p [] -> B Hlt. exists (v_ptr v + dot g (zero_tail o 0)). rewrite zero_tail_0.
    split; [now apply NOP|]. reflexivity.
  - intros o p [] -> B Hlt. now rewrite zero_tail_0.
  - intros o k p [] -> B Hk. pose proof (olim_in_length (cp_q C) B) as Lo. pose proof (cp_q C) as Hq.
    exists (v_ptr v + dot g (zero_tail o (k + 1))). split; [|reflexivity].
    assert (E : dot g (zero_tail o (k + 1)) =
                dot g (zero_tail o k) + nth (q - 1 - k) g 0 * (0 - nth (q - 1 - k) o 0)).
    { replace (k + 1)%nat with (S k) by lia. rewrite zero_tail_S by lia. rewrite Lo.
      unfold g. rewrite move_outer; auto; try apply C; try lia.
      - rewrite zero_tail_nth by lia. reflexivity.
      - rewrite zero_tail_length; lia. }
    unfold g in E at 3. rewrite g_nth in E; auto; try apply C; try lia.
    unfold reset_at. change (e_rank (x_e_view dbg n rep v)) with (m_rank (v_map v)).
    destruct (Nat.leb_spec (length D - (q - 1 - k)) (m_rank (v_map v))) as [L|L].
    + assert (HR : (m_rank (v_map v) - (length D - (q - 1 - k)) < length (v_dims v))%nat).
      { change (length (v_dims v)) with (m_rank (v_map v)). lia. }
      rewrite x_view_reset; auto; [okz|].
      rewrite (DN _ L). pose proof (@in_bounds_nth _ _ (q - 1 - k) B ltac:(rewrite olim_length; lia)) as HB.
      rewrite olim_nth in HB by lia.
      assert (0 < nth (q - 1 - k) D 0); [|lia].
      rewrite <- (DN _ L). unfold positive in HP. rewrite Forall_forall in HP. apply HP, nth_In, HR.
    + okz.
  - intros o k p [] -> B Hk Hmax Hlt. pose proof (olim_in_length (cp_q C) B) as Lo. pose proof (cp_q C) as Hq.
    exists (v_ptr v + dot g (succ_at o k)). split; [|reflexivity].
    assert (E : dot g (succ_at o k) = dot g (zero_tail o k) + nth (q - 1 - k) g 0).
    { unfold succ_at. rewrite Lo. unfold g. rewrite move_outer; auto; try apply C; try lia.
      - rewrite zero_tail_nth by lia. lia.
      - rewrite zero_tail_length; lia. }
    unfold g in E at 3. rewrite g_nth in E; auto; try apply C; try lia.
    unfold step_at. change (e_rank (x_e_view dbg n rep v)) with (m_rank (v_map v)).
    destruct (Nat.leb_spec (length D - (q - 1 - k)) (m_rank (v_map v))) as [L|L].
    + rewrite x_view_step; auto; [okz|]. change (length (v_dims v)) with (m_rank (v_map v)). lia.
    + okz.
  - cbn. rewrite dot_zeros. lia.
Qed.

(** ** Subarrays *)

Lemma x_ax_get_fit dbg a m : wf_map m -> roomy (m_dims m) -> x_ax_get dbg a m = ax_get a m.
Proof.
  intros HW HR. unfold x_ax_get, ax_get. destruct (ax_index a (m_rank m)) as [i| | |]; cbn [bind]; auto.
  destruct (m_dim m i); cbn [bind]; auto. rewrite x_stride_fit by auto. destruct (m_stride m i); cbn [bind]; auto.
Qed.

Lemma x_axis_ok dbg n rep v a i :
  walkable dbg n v -> is_axis a (length (v_dims v)) i -> fits (remove_at i (v_dims v)) ->
  exists e, x_axis dbg rep v a = Ok e /\ e_ty e = STuple [ax_dim a (v_ty v)] /\
    e_dims e = [nth i (v_dims v) 0] /\ e_inner e = Some 1%nat /\ e_rep e = rep /\
    computes e (pure_action (fun idx => axis_item v a (nth 0 idx 0))) tt 0.
Proof.
  intros HK HA Hfit. pose proof HK as (HV & HN & HP & _). pose proof (vv_wf HV) as Hw. pose proof (wk_roomy HK) as HR.
  assert (HIL : (i < length (v_dims v))%nat) by apply HA.
  unfold x_axis. rewrite x_ax_get_fit by auto.
  destruct (ax_get_ok Hw HA) as (m & Em & Hd & Hs & Hty & Hl & Hwm). rewrite Em. cbn [bind].
  eexists. split; [reflexivity|]. cbn [e_ty e_dims e_inner e_rep]. rewrite Hd.
  repeat (split; [reflexivity|]).
  set (s := nth i (m_strides (v_map v)) 0) in *.
  assert (ES : inner_stride m = s).
  { apply inner_stride_one; auto. unfold m_rank. rewrite Hd. reflexivity. }
  rewrite ES.
  assert (SB : forall k, 0 <= k < nth i (v_dims v) 0 -> Z.abs (s * k) <= isize_max).
  { intros k Hk. pose proof (term_bound HV HP HIL Hk) as H. fold s in H. lia. }
  split. { cbn [e_dims]. rewrite <- Hd. apply (wf_nonneg Hwm). }
  intros D q C. pose proof (cp_q C) as Hq. pose proof (cp_inner C) as Hin. cbn [e_inner] in Hin.
  pose proof (cp_rank C) as Hr. unfold e_rank in Hr. cbn [e_dims length] in Hr.
  assert (HD1 : nth (length D - 1) D 0 = nth i (v_dims v) 0).
  { pose proof (cp_dims C) as H. unfold e_rank in H. cbn [e_dims length] in H.
    assert (E : nth 0 (lastn 1 D) 0 = nth (length D - 1) D 0) by (rewrite lastn_nth by lia; f_equal; lia).
    rewrite H in E. cbn in E. unfold v_dims. congruence. }
  set (w := fun o : list Z => if (q =? length D)%nat then s * nth (q - 1) o 0 else 0).
  exists (fun o (_ : Z) off (_ : unit) => off = w o).
  exists (fun o m off (_ : unit) => off = w (zero_tail o m)).
  assert (NR : forall o, (q < length D)%nat -> w o = 0).
  { intros o Hlt. unfold w. destruct (Nat.eqb_spec q (length D)); [lia|reflexivity]. }
  assert (one : forall j, (length D - j <=? 1)%nat = negb (j <? length D - 1)%nat).
  { intros j. destruct (Nat.leb_spec (length D - j) 1), (Nat.ltb_spec j (length D - 1)); cbn; auto; lia. }
  split; [constructor|].
  - intros o k off [] -> B Hk. cbn [e_get].
    match goal with |- context [pure_action _ (lastn ?r _)] => change r with 1%nat end.
    assert (Ho : length o = q) by (apply in_bounds_length in B; rewrite firstn_length in B; lia).
    pose proof (compat_index C B Hk) as HB.
    match type of HB with in_bounds ?x (lastn ?r _) =>
      change x with [nth i (v_dims v) 0] in HB; change r with 1%nat in HB end.
    set (x := nth 0 (lastn 1 (o ++ unflat (skipn q D) k)) 0).
    assert (HX : 0 <= x < nth i (v_dims v) 0).
    { unfold x. exact (@in_bounds_nth _ _ 0%nat HB ltac:(cbn; lia)). }
    assert (EO : w o + s * k = s * x /\ (k = x \/ k = 0)).
    { unfold w, x. destruct (Nat.eqb_spec q (length D)) as [E|NE].
      - rewrite (skipn_all2 D) in * by lia. cbn [unflat] in *. rewrite app_nil_r.
        cbn in Hk. rewrite lastn_nth by lia. replace (length o - 1 + 0)%nat with (q - 1)%nat by lia. assert (k = 0) as -> by lia. split; [lia|auto].
      - destruct (@inner_one D q) as (d & Ed); [lia|]. rewrite Ed, unflat_one, lastn_snoc by lia.
        replace (lastn (1 - 1) o) with (@nil Z). 2:{ unfold lastn. rewrite skipn_all2; auto. lia. }
        cbn [app nth]. split; [lia|auto]. }
    destruct EO as [EO EK].
    assert (HSK : Z.abs (s * k) <= isize_max) by (apply SB; lia).
    rewrite i_mul by lia. cbn [bind]. rewrite EO. rewrite i_abs by (apply SB; lia). cbn [bind].
    rewrite x_ax_remove_fit by auto.
    unfold pure_action, axis_item, v_axis_at. fold x.
    assert (HA' : is_axis a (m_rank (v_map v)) i) by exact HA.
    rewrite (ax_index_ok HA'). cbn [bind]. unfold v_dims in *. rewrite m_dim_ok by auto. cbn [bind].
    rewrite assert_true by lia. cbn [bind].
    destruct (ax_remove_map_ok Hw HA) as (m' & -> & Hd' & _). cbn [bind].
    rewrite m_stride_ok by (auto; apply (wf_strides Hw)). cbn [bind].
    rewrite Hd'. rewrite checked_len_fits by exact Hfit.
    rewrite m_is_empty_spec, Hd'. cbn. split; reflexivity.
  - intros o off [] -> B Hlt. unfold reset_at. exists 0.
    change (e_rank _) with 1%nat. rewrite one. destruct (Nat.ltb_spec (length D - 1) (length D - 1)); [lia|].
    cbn [negb e_reset]. split; auto. now rewrite NR.
  - intros o off [] -> B Hlt. unfold reset_at. exists 0.
    change (e_rank _) with 1%nat. rewrite one. destruct (Nat.ltb_spec (length D - 1) (length D - 1)); [lia|].
    cbn [negb e_reset]. split; auto. now rewrite NR.
  - intros o off [] -> B Hlt. now rewrite zero_tail_0.
  - intros o m0 off [] -> B Hm. pose proof (olim_in_length (cp_q C) B) as Lo.
    unfold reset_at. change (e_rank _) with 1%nat. rewrite one.
    replace (m0 + 1)%nat with (S m0) by lia.
    destruct (Nat.ltb_spec (q - 1 - m0) (length D - 1)) as [L|L]; cbn [negb e_reset].
    + eexists. split; [reflexivity|]. unfold w. destruct (Nat.eqb_spec q (length D)) as [E|NE]; auto.
      f_equal. rewrite !zero_tail_nth' by lia.
      destruct (Nat.ltb_spec (q - 1) (length o - m0)), (Nat.ltb_spec (q - 1) (length o - S m0)); auto; lia.
    + eexists. split; [reflexivity|]. unfold w. destruct (Nat.eqb_spec q (length D)) as [E|NE]; auto.
      rewrite zero_tail_nth' by lia. destruct (Nat.ltb_spec (q - 1) (length o - S m0)); lia.
  - intros o m0 off [] -> B Hm Hmax Hlt. pose proof (olim_in_length (cp_q C) B) as Lo.
    unfold step_at. change (e_rank _) with 1%nat. rewrite one.
    destruct (Nat.ltb_spec (q - 1 - m0) (length D - 1)) as [L|L]; cbn [negb e_step].
    + eexists. split; [reflexivity|]. unfold w, succ_at. rewrite Lo. destruct (Nat.eqb_spec q (length D)) as [E|NE]; auto.
      f_equal. rewrite upd_nth_other by lia. reflexivity.
    + exists (w (succ_at o m0)). split; [|reflexivity]. unfold w. destruct (Nat.eqb_spec q (length D)) as [E|NE]; [|lia].
      assert (m0 = 0%nat) as -> by lia. unfold succ_at. rewrite Lo. replace (q - 1 - 0)%nat with (q - 1)%nat in * by lia.
      rewrite zero_tail_0, upd_nth_same by lia.
      pose proof (@in_bounds_nth _ _ (q - 1) B ltac:(rewrite olim_length; lia)) as HB.
      rewrite olim_nth in Hlt, HB by lia.
      assert (EN : nth (q - 1) D 0 = nth i (v_dims v) 0) by (rewrite <- HD1; f_equal; lia).
      replace (s * nth (q - 1) o 0 + s) with (s * (nth (q - 1) o 0 + 1)) by lia. apply i_abs. apply SB. lia.
  - unfold w. cbn. rewrite nth_repeat. destruct (_ =? _)%nat; lia.
Qed.

Lemma dot_near n v a b : valid_view n v -> in_bounds (v_dims v) a -> in_bounds (v_dims v) b ->
  Z.abs (dot (m_strides (v_map v)) a - dot (m_strides (v_map v)) b) < n.
Proof.
  intros HV HA HB. pose proof (vv_range HV HA) as R1. pose proof (vv_range HV HB) as R2. pose proof (wf_strides (vv_wf HV)) as HL.
  unfold v_addr in *. rewrite m_offset_dot in R1, R2; auto; try (now apply in_bounds_length). lia.
Qed.

Lemma x_lanes_ok dbg n rep v a i :
  walkable dbg n v -> is_axis a (length (v_dims v)) i -> fits (remove_at i (v_dims v)) ->
  exists m e, ax_remove_map a (v_map v) = Ok m /\ x_lanes dbg rep v a = Ok e /\ e_ty e = ax_remove a (v_ty v) /\
    e_dims e = remove_at i (v_dims v) /\ e_inner e = map_inner_rank m /\ e_rep e = rep /\
    computes e (pure_action (lane_item v a i)) tt (length (remove_at i (v_dims v))).
Proof.
  intros HK HA Hfit. pose proof HK as (HV & HN & HP & _). pose proof (vv_wf HV) as Hw. pose proof (wk_roomy HK) as HRo.
  assert (HIL : (i < length (v_dims v))%nat) by apply HA.
  unfold x_lanes. rewrite x_ax_remove_fit by auto.
  destruct (ax_remove_map_ok Hw HA) as (m & Em & Hd & Hs & Hty & Hl & Hwm). rewrite Em. cbn [bind].
  exists m.
  unfold v_dims in *. rewrite Hd, checked_len_fits by auto.
  eexists. split; [reflexivity|]. split; [reflexivity|]. cbn [e_ty e_dims e_inner e_rep].
  repeat (split; [first [reflexivity|assumption]|]).
  split. { cbn [e_dims]. rewrite <- Hd. apply (wf_nonneg Hwm). }
  assert (HRm : roomy (m_dims m)).
  { rewrite Hd. unfold roomy in *. pose proof (@mx_remove i (m_dims (v_map v)) HIL). lia. }
  intros D q C. pose proof (cp_q C) as Hq. pose proof (cp_need C) as Hneed.
  pose proof (cp_dims C) as HD. unfold e_rank in HD. cbn [e_dims] in HD.
  pose proof (cp_rank C) as HR. unfold e_rank in HR. cbn [e_dims] in HR.
  set (r := length (remove_at i (m_dims (v_map v)))) in *.
  assert (Er : m_rank m = r) by (unfold m_rank, r; now rewrite Hd).
  assert (OUT : forall j, (j < q)%nat -> (length D - j <=? r)%nat = false).
  { intros j Hj. apply Nat.leb_gt. lia. }
  exists (fun _ _ off _ => off = 0), (fun _ _ off _ => off = 0).
  assert (NR : (q < length D)%nat -> forall off : Z, off = 0 ->
    (if (length D - (length D - 1) <=? r)%nat
     then let* s := x_stride dbg m (r - (length D - (length D - 1))) in
          let* p := i_res dbg (s * as_isize 0) in i_res dbg (off - p) else Ok off) = Ok 0).
  { intros Hlt off ->. destruct (Nat.leb_spec (length D - (length D - 1)) r) as [L|L]; auto.
    rewrite x_stride_fit by auto. rewrite m_stride_ok; [|apply (wf_strides Hwm)|lia]. cbn [bind].
    change (as_isize 0) with 0. rewrite Z.mul_0_r. rewrite i_abs by (unfold isize_max; lia). cbn [bind]. apply i_abs. unfold isize_max. lia. }
  split; [constructor|].
  - intros o k off [] -> B Hk. cbn [e_get].
    match goal with |- context [pure_action _ (lastn ?x _)] => change x with r end.
    assert (Ho : length o = q) by (apply in_bounds_length in B; rewrite firstn_length in B; lia).
    unfold pure_action, lane_item. rewrite x_ax_get_fit by auto.
    assert (HIN : match map_inner_rank m with None => True | Some k => (length D - q <= k)%nat end) by apply (cp_inner C).
    pose proof (@full_offset m D q Hwm Hq (cp_nonneg C) ltac:(lia) ltac:(rewrite Er, Hd; exact HD) HIN o k Ho Hk) as FO.
    rewrite Er in FO.
    rewrite m_offset_dot in FO.
    2:{ apply (wf_strides Hwm). }
    2:{ rewrite lastn_length. fold (m_rank m). lia. rewrite app_length, unflat_length, skipn_length. lia. }
    assert (G0 : firstn q (gs (length D) m) = repeat 0 q).
    { unfold gs. rewrite firstn_app, repeat_length, firstn_repeat_all.
      replace (q - (length D - m_rank m))%nat with 0%nat by lia. cbn [firstn]. rewrite app_nil_r. f_equal. lia. }
    rewrite G0, dot_zero_strides in FO. rewrite Z.add_0_l in FO.
    pose proof (compat_index C B Hk) as HB.
    match type of HB with in_bounds ?x (lastn ?y _) => change x with (remove_at i (m_dims (v_map v))) in HB; change y with r in HB end.
    set (idx := lastn r (o ++ unflat (skipn q D) k)) in *.
    assert (HSK : Z.abs (inner_stride m * k) <= isize_max).
    { rewrite <- FO, Hs. pose proof (IterFacts.in_bounds_zeros HP) as B0.
      assert (DI : 0 <= 0 < nth i (m_dims (v_map v)) 0).
      { split; [lia|]. unfold positive in HP. rewrite Forall_forall in HP. apply HP, nth_In, HIL. }
      pose proof (proj2 (@in_bounds_insert (m_dims (v_map v)) i 0 idx HIL DI) HB) as B1.
      pose proof (@dot_near n v _ _ HV B1 B0) as ND. rewrite dot_zeros in ND.
      rewrite dot_remove in ND.
      - lia.
      - rewrite (wf_strides Hw). exact HIL.
      - apply in_bounds_length in HB. rewrite remove_at_length in HB by auto. rewrite (wf_strides Hw). exact HB. }
    rewrite i_mul by lia. cbn [bind].
    destruct (ax_get_ok Hw HA) as (m1 & -> & Hd1 & Hs1 & _). cbn [bind].
    rewrite x_is_empty_fit.
    2:{ rewrite Hd1. constructor; [|constructor]. pose proof (wf_nonneg Hw) as NN. unfold nonneg in NN. rewrite Forall_forall in NN. apply NN, nth_In, HIL. }
    2:{ rewrite Hd1. unfold mx. cbn [map]. unfold prodZ. cbn [fold_right]. pose proof (@roomy_nth _ i HRo). unfold isize_max, usize_max in *. lia. }
    cbn [bind]. destruct (m_is_empty m1); [cbn; auto|].
    rewrite <- Hs, FO. cbn. auto.
  - intros o off [] -> B Hlt. exists 0. split; auto. unfold reset_at.
    change (e_rank _) with r. cbn [e_reset]. now apply NR.
  - intros o off [] -> B Hlt. exists 0. split; auto. unfold reset_at.
    change (e_rank _) with r. cbn [e_reset]. now apply NR.
  - auto.
  - intros o m0 off [] -> B Hm. exists 0. split; auto. unfold reset_at.
    change (e_rank _) with r. rewrite OUT by lia. reflexivity.
  - intros o m0 off [] -> B Hm Hmax Hlt. exists 0. split; auto. unfold step_at.
    change (e_rank _) with r. rewrite OUT by lia. reflexivity.
  - reflexivity.
Qed.
