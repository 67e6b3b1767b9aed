(** Machine arithmetic agrees with exact arithmetic where nothing overflows. *)
From Verif Require Import Base Spec SpecFacts Shape Mapping Index View Wf MappingFacts MapOps ReshapeFacts IndexFacts ViewFacts Machine MachineSpec.
Unset Strict Implicit.

(** ** Machine integers *)

Lemma u_res_fit dbg x : is_usize x -> u_res dbg x = Ok x.
Proof.
  intros [H1 H2]. unfold u_res, u_fits. destruct (Z.leb_spec 0 x); [|lia]. destruct (Z.leb_spec x usize_max); [reflexivity|lia].
Qed.
Lemma i_res_fit dbg x : is_isize x -> i_res dbg x = Ok x.
Proof.
  intros [H1 H2]. unfold i_res, i_fits. destruct (Z.leb_spec isize_min x); [|lia]. destruct (Z.leb_spec x isize_max); [reflexivity|lia].
Qed.
Lemma as_isize_fit x : is_isize x -> as_isize x = x.
Proof. unfold is_isize, isize_min, isize_max, as_isize. intros H. rewrite Z.mod_small; lia. Qed.
Lemma as_usize_fit x : is_usize x -> as_usize x = x.
Proof. unfold is_usize, usize_max, as_usize. intros H. apply Z.mod_small. lia. Qed.
Lemma as_isize_range x : is_isize (as_isize x).
Proof.
  unfold is_isize, as_isize, isize_min, isize_max. pose proof (Z.mod_pos_bound (x + 2 ^ 63) (2 ^ 64) ltac:(lia)). lia.
Qed.
Lemma i_res_range dbg x y : i_res dbg x = Ok y -> is_isize y.
Proof.
  unfold i_res. destruct (i_fits x) eqn:E.
  - intros [= <-]. unfold i_fits in E. apply andb_true_iff in E. destruct E as [E1 E2].
    apply Z.leb_le in E1, E2. split; auto.
  - destruct dbg; [discriminate|]. intros [= <-]. apply as_isize_range.
Qed.
Lemma small_isize x : 0 <= x <= isize_max -> is_isize x.
Proof. unfold is_isize, isize_min. lia. Qed.
Lemma small_usize x : 0 <= x <= isize_max -> is_usize x.
Proof. unfold is_usize, isize_max, usize_max. lia. Qed.
#[local] Hint Resolve small_isize small_usize : core.

(** ** Products of dimensions, counting empty dimensions as one *)

Lemma mx_cons d dims : mx (d :: dims) = Z.max 1 d * mx dims.
Proof. reflexivity. Qed.
Lemma mx_app a b : mx (a ++ b) = mx a * mx b.
Proof. unfold mx. now rewrite map_app, prodZ_app. Qed.
Lemma mx_pos dims : 1 <= mx dims.
Proof. induction dims as [|d dims IH]; [cbn; lia|]. rewrite mx_cons. nia. Qed.
Lemma mx_prod dims : nonneg dims -> 0 <= prodZ dims <= mx dims.
Proof.
  intros H. induction H as [|d dims Hd HN IH]; [cbn; lia|]. rewrite prodZ_cons, mx_cons. nia.
Qed.
Lemma mx_positive dims : positive dims -> mx dims = prodZ dims.
Proof. intros H. induction H as [|d dims Hd HN IH]; [reflexivity|]. rewrite mx_cons, prodZ_cons, IH. f_equal. lia. Qed.
Lemma mx_skipn k dims : mx (skipn k dims) <= mx dims.
Proof. rewrite <- (firstn_skipn k dims) at 2. rewrite mx_app. pose proof (@mx_pos (firstn k dims)). pose proof (@mx_pos (skipn k dims)). nia. Qed.
Lemma mx_firstn k dims : mx (firstn k dims) <= mx dims.
Proof. rewrite <- (firstn_skipn k dims) at 2. rewrite mx_app. pose proof (@mx_pos (firstn k dims)). pose proof (@mx_pos (skipn k dims)). nia. Qed.
Lemma mx_nth k dims : nth k dims 0 <= mx dims.
Proof.
  revert k. induction dims as [|d dims IH]; intros [|k]; cbn [nth]; try (cbn; lia); rewrite mx_cons; pose proof (@mx_pos dims).
  - nia.
  - specialize (IH k). nia.
Qed.
Lemma mx_le a b : Forall2 Z.le a b -> mx a <= mx b.
Proof.
  intros H. induction H as [|x y a b Hx H IH]; [lia|]. rewrite !mx_cons. pose proof (@mx_pos a). nia.
Qed.

Lemma x_prod_fit dbg dims : forall acc, nonneg dims -> 0 <= acc -> acc * mx dims <= usize_max ->
  x_prod dbg acc dims = Ok (acc * prodZ dims).
Proof.
  induction dims as [|d dims IH]; intros acc HN HA HB; cbn [x_prod].
  - change (prodZ []) with 1. now rewrite Z.mul_1_r.
  - inversion HN as [|? ? Hd HN']; subst. rewrite mx_cons in HB. pose proof (@mx_pos dims) as MP.
    assert (AD : 0 <= acc * d) by nia.
    assert (B1 : acc * d * mx dims <= acc * (Z.max 1 d * mx dims)).
    { rewrite <- Z.mul_assoc. apply Z.mul_le_mono_nonneg_l; [lia|]. nia. }
    rewrite u_res_fit by (split; nia). cbn [bind]. rewrite IH by (auto; nia).
    rewrite prodZ_cons. f_equal. ring.
Qed.

Lemma x_len_fit dbg dims : nonneg dims -> mx dims <= usize_max -> x_len dbg dims = Ok (prodZ dims).
Proof. intros HN HB. unfold x_len. rewrite x_prod_fit by (auto; lia). f_equal. ring. Qed.

Lemma x_is_empty_fit dbg m : nonneg (m_dims m) -> mx (m_dims m) <= usize_max -> x_is_empty dbg (m_dims m) = Ok (m_is_empty m).
Proof. intros HN HB. unfold x_is_empty. rewrite x_len_fit by auto. cbn [bind]. now rewrite m_is_empty_spec. Qed.

Lemma roomy_usize dims : roomy dims -> mx dims <= usize_max.
Proof. unfold roomy, isize_max, usize_max. lia. Qed.
Lemma roomy_nth dims k : roomy dims -> nth k dims 0 <= isize_max.
Proof. unfold roomy. pose proof (@mx_nth k dims). lia. Qed.
#[local] Hint Resolve roomy_usize : core.

(** ** Strides *)

Lemma x_stride_fit dbg m i : wf_map m -> roomy (m_dims m) -> x_stride dbg m i = m_stride m i.
Proof.
  intros HW HR. destruct m as [ty dims|ty dims st]; [|reflexivity]. cbn [m_dims] in *. unfold x_stride, m_stride.
  destruct (i <? length dims)%nat; [|reflexivity]. cbn [assert bind]. pose proof (wf_nonneg HW) as HN. cbn [m_dims] in HN.
  assert (NS : nonneg (skipn (i + 1) dims)).
  { unfold nonneg in *. rewrite <- (firstn_skipn (i + 1) dims) in HN. apply Forall_app in HN. apply HN. }
  pose proof (@mx_skipn (i + 1) dims) as M1. unfold roomy in HR. pose proof (mx_prod NS) as M2.
  rewrite x_prod_fit; auto; [|lia|].
  - cbn [bind]. rewrite fold_mul_prod. rewrite as_isize_fit; [reflexivity|]. apply small_isize. lia.
  - unfold isize_max, usize_max in *. lia.
Qed.

Lemma x_dense_calls_fit dbg n : forall dims s, nonneg dims -> (n <= length dims)%nat -> 0 <= s -> s * mx (firstn n dims) <= isize_max ->
  x_dense_calls dbg n dims s = Ok (dense_calls n dims s).
Proof.
  induction n as [|n IH]; intros dims s HN HL HS HB; [reflexivity|]. cbn [x_dense_calls dense_calls].
  rewrite (@firstn_snoc Z n dims 0) in HB by lia. rewrite mx_app in HB. unfold mx at 2 in HB. cbn [map prodZ fold_right] in HB.
  pose proof (@mx_pos (firstn n dims)) as MP.
  assert (D : 0 <= nth n dims 0) by (apply (Forall_nth (fun d => 0 <= d) dims); [exact HN|lia]).
  set (d := nth n dims 0) in *. rewrite Z.mul_1_r in HB.
  assert (B1 : s * d * mx (firstn n dims) <= s * (mx (firstn n dims) * Z.max 1 d)).
  { rewrite <- Z.mul_assoc. apply Z.mul_le_mono_nonneg_l; [lia|]. nia. }
  assert (SD : 0 <= s * d) by nia.
  assert (SI : s <= isize_max) by nia.
  rewrite u_res_fit by (apply small_usize; nia). cbn [bind].
  rewrite IH by (auto; lia). cbn [bind]. rewrite as_isize_fit by auto. reflexivity.
Qed.

Lemma x_calls_fit dbg m : nonneg (m_dims m) -> roomy (m_dims m) -> x_calls dbg m = Ok (for_each_stride m).
Proof.
  intros HN HR. destruct m as [ty dims|ty dims st]; [|reflexivity]. cbn [m_dims] in *. cbn [x_calls for_each_stride].
  apply x_dense_calls_fit; auto; [lia|]. rewrite firstn_all. unfold roomy in HR. lia.
Qed.


Lemma loop_room d acc P : 0 <= d -> 0 <= acc -> 1 <= P -> acc * (P * Z.max 1 d) <= isize_max ->
  0 <= acc * d /\ acc * d * P <= isize_max /\ acc <= isize_max /\ acc * d <= isize_max.
Proof.
  intros HD HA HP HB.
  assert (B1 : acc * d * P <= acc * (P * Z.max 1 d)).
  { rewrite <- Z.mul_assoc. apply Z.mul_le_mono_nonneg_l; [lia|]. nia. }
  assert (SD : 0 <= acc * d) by nia. repeat split; nia.
Qed.

Lemma x_contiguous_loop_fit dbg n : forall dims strides s, nonneg dims -> (n <= length dims)%nat -> 0 <= s ->
  (forall i, nth i dims 0 <= isize_max) ->
  s * mx (firstn n dims) <= isize_max -> x_contiguous_loop dbg n dims strides s = Ok (contiguous_loop n dims strides s).
Proof.
  induction n as [|n IH]; intros dims strides s HN HL HS HI HB; [reflexivity|]. cbn [x_contiguous_loop contiguous_loop].
  destruct (negb (nth n strides 0 =? s)) eqn:EN; [reflexivity|].
  rewrite (@firstn_snoc Z n dims 0) in HB by lia. rewrite mx_app in HB. unfold mx at 2 in HB. cbn [map prodZ fold_right] in HB.
  pose proof (@mx_pos (firstn n dims)) as MP.
  assert (D : 0 <= nth n dims 0) by (apply (Forall_nth (fun d => 0 <= d) dims); [exact HN|lia]).
  rewrite Z.mul_1_r in HB. destruct (loop_room D HS MP HB) as (R1 & R2 & R3 & R4).
  rewrite as_isize_fit by (apply small_isize; split; [exact D|apply HI]).
  rewrite i_res_fit by (apply small_isize; lia). cbn [bind]. apply IH; auto. lia.
Qed.

Lemma x_is_contiguous_fit dbg m : nonneg (m_dims m) -> roomy (m_dims m) -> x_is_contiguous dbg m = Ok (is_contiguous m).
Proof.
  intros HN HR. destruct m as [ty dims|ty dims st]; [reflexivity|]. cbn [m_dims] in *. cbn [x_is_contiguous is_contiguous].
  apply x_contiguous_loop_fit; auto; [lia| |].
  - intros i. now apply roomy_nth.
  - rewrite firstn_all. unfold roomy in HR. lia.
Qed.

(** ** Operations on mappings *)

Lemma x_remap_fit dbg l ty m : nonneg (m_dims m) -> roomy (m_dims m) -> x_remap dbg l ty m = m_remap l ty m.
Proof.
  intros HN HR. destruct l; cbn [x_remap m_remap].
  - now rewrite x_is_contiguous_fit.
  - destruct (dims_new_cases ty (m_rank m)) as [E|E]; rewrite E; [|reflexivity]. cbn [bind]. now rewrite x_calls_fit.
Qed.

Lemma x_prepend_fit dbg l ty m n s : nonneg (m_dims m) -> roomy (m_dims m) ->
  x_prepend_dim dbg l ty m n s = m_prepend_dim l ty m n s.
Proof.
  intros HN HR. destruct l; cbn [x_prepend_dim m_prepend_dim].
  - destruct (is_dense (m_layout m)); [|reflexivity]. cbn [assert bind]. rewrite x_len_fit by auto. cbn [bind].
    unfold m_len. rewrite sh_len_prod. rewrite as_isize_fit; [reflexivity|]. apply small_isize.
    pose proof (mx_prod HN). unfold roomy in HR. lia.
  - destruct (dims_new_cases ty (m_rank m + 1)) as [E|E]; rewrite E; [|reflexivity]. cbn [bind]. now rewrite x_calls_fit.
Qed.

Lemma x_remove_fit dbg l ty m i : nonneg (m_dims m) -> roomy (m_dims m) -> x_remove_dim dbg l ty m i = m_remove_dim l ty m i.
Proof.
  intros HN HR. destruct l; cbn [x_remove_dim m_remove_dim]; [reflexivity|].
  destruct (i <? m_rank m)%nat; [|reflexivity]. cbn [assert bind].
  destruct (dims_new_cases ty (m_rank m - 1)) as [E|E]; rewrite E; [|reflexivity]. cbn [bind]. now rewrite x_calls_fit.
Qed.

Lemma x_reorder_fit dbg l m : nonneg (m_dims m) -> roomy (m_dims m) -> x_reorder dbg l m = m_reorder l m.
Proof.
  intros HN HR. destruct l; cbn [x_reorder m_reorder]; [reflexivity|].
  destruct (dims_new_cases (sh_reverse (m_ty m)) (m_rank m)) as [E|E]; rewrite E; [|reflexivity]. cbn [bind]. now rewrite x_calls_fit.
Qed.

Lemma x_resize_fit dbg l ty m i n : nonneg (m_dims m) -> roomy (m_dims m) ->
  x_resize_dim dbg l ty m i n = m_resize_dim l ty m i n.
Proof.
  intros HN HR. destruct l; cbn [x_resize_dim m_resize_dim]; [reflexivity|].
  destruct (dims_new_cases ty (m_rank m)) as [E|E]; rewrite E; [|reflexivity]. cbn [bind]. now rewrite x_calls_fit.
Qed.

Lemma x_sh_reshape_fit dbg old ty req : nonneg old -> mx old <= usize_max -> x_sh_reshape dbg old ty req = sh_reshape old ty req.
Proof.
  intros HN HR. unfold x_sh_reshape, sh_reshape. rewrite x_len_fit by auto. rewrite sh_len_prod. reflexivity.
Qed.

(** ** Permutation masks *)

Lemma u_shl_small dbg x n : 0 <= n < 64 -> u_shl dbg x n = Ok (as_usize (Z.shiftl x n)).
Proof. intros H. unfold u_shl. destruct (Z.ltb_spec n 64); [reflexivity|lia]. Qed.

Lemma x_mask_fit dbg rank perm : forall mask, (rank < 64)%nat -> Forall (fun p => 0 <= p) perm ->
  x_mask_loop dbg rank perm mask = mask_loop rank perm mask.
Proof.
  induction perm as [|p perm IH]; intros mask HR HP; [reflexivity|]. inversion HP as [|? ? H0 HP']; subst.
  cbn [x_mask_loop mask_loop]. destruct (Z.ltb_spec p (Z.of_nat rank)); [|reflexivity]. cbn [assert bind].
  rewrite u_shl_small by lia. cbn [bind]. rewrite as_usize_fit; [auto|].
  unfold is_usize, usize_max. rewrite Z.shiftl_mul_pow2 by lia. rewrite Z.mul_1_l.
  pose proof (Z.pow_pos_nonneg 2 p ltac:(lia) H0). pose proof (Z.pow_le_mono_r 2 p 63 ltac:(lia) ltac:(lia)). lia.
Qed.

Lemma x_permute_fit dbg l ty m perm : nonneg (m_dims m) -> roomy (m_dims m) -> (m_rank m < 64)%nat ->
  Forall (fun p => 0 <= p) perm -> x_permute dbg l ty m perm = m_permute l ty m perm.
Proof.
  intros HN HR HK HP. unfold x_permute, m_permute. destruct (length perm =? m_rank m)%nat; [|reflexivity]. cbn [assert bind].
  destruct l.
  - destruct (perm_is_identity 0 perm); [|reflexivity]. cbn [assert bind]. now apply x_remap_fit.
  - rewrite x_mask_fit by auto. destruct (mask_loop_cases (m_rank m) perm 0) as [[r E]|E]; rewrite E; [|reflexivity]. cbn [bind].
    rewrite u_shl_small by lia. cbn [bind]. destruct (Nat.ltb_spec (m_rank m) 64); [|lia]. cbn [assert bind].
    unfold full_mask, as_usize. destruct (r =? _); [|reflexivity]. cbn [assert bind].
    destruct (sh_new ty (m_rank m)) as [d0| | |]; try reflexivity. cbn [bind].
    destruct (dims_new_cases ty (m_rank m)) as [E2|E2]; rewrite E2; [|reflexivity]. cbn [bind]. now rewrite x_calls_fit.
Qed.

(** With overflow checks a permutation of rank 64 or more is always refused. *)
Lemma x_mask_calm dbg rank perm : forall mask, (exists r, x_mask_loop dbg rank perm mask = Ok r) \/ x_mask_loop dbg rank perm mask = Panic.
Proof.
  induction perm as [|p perm IH]; intros mask; [left; eexists; reflexivity|]. cbn [x_mask_loop].
  destruct (p <? Z.of_nat rank); [|right; reflexivity]. cbn [assert bind]. unfold u_shl.
  destruct (p <? 64); [apply IH|]. destruct dbg; [right; reflexivity|apply IH].
Qed.
Lemma x_permute_debug ty m perm : (64 <= m_rank m)%nat -> x_permute true Strided ty m perm = Panic.
Proof.
  intros HK. unfold x_permute. destruct (length perm =? m_rank m)%nat; [|reflexivity]. cbn [assert bind].
  destruct (x_mask_calm true (m_rank m) perm 0) as [[r E]|E]; rewrite E; [|reflexivity]. cbn [bind]. unfold u_shl.
  destruct (Z.ltb_spec (Z.of_nat (m_rank m)) 64); [lia|reflexivity].
Qed.

(** *** Ranks of 64 and more without overflow checks: the shift amounts are taken modulo 64. *)
Lemma x_mask_wide rank perm : forall mask, Forall (fun p => 0 <= p) perm ->
  x_mask_loop false rank perm mask =
    if forallb (fun p => p <? Z.of_nat rank) perm then mask_loop 64 (map (fun p => p mod 64) perm) mask else Panic.
Proof.
  induction perm as [|p perm IH]; intros mask HP; [reflexivity|]. inversion HP as [|? ? H0 HP']; subst.
  cbn [x_mask_loop mask_loop forallb map]. destruct (Z.ltb_spec p (Z.of_nat rank)); [|reflexivity]. cbn [assert bind andb].
  pose proof (Z.mod_pos_bound p 64 ltac:(lia)) as HM.
  assert (E : u_shl false 1 p = Ok (Z.shiftl 1 (p mod 64))).
  { assert (G : as_usize (Z.shiftl 1 (p mod 64)) = Z.shiftl 1 (p mod 64)).
    { apply as_usize_fit. unfold is_usize, usize_max. rewrite Z.shiftl_mul_pow2 by lia. rewrite Z.mul_1_l.
      pose proof (Z.pow_pos_nonneg 2 (p mod 64) ltac:(lia) ltac:(lia)). pose proof (Z.pow_le_mono_r 2 (p mod 64) 63 ltac:(lia) ltac:(lia)). lia. }
    unfold u_shl. destruct (Z.ltb_spec p 64); [|now rewrite G]. rewrite <- (Z.mod_small p 64) at 1 by lia. now rewrite G. }
  rewrite E. cbn [bind]. rewrite IH by auto. destruct (forallb _ perm); [|reflexivity].
  destruct (Z.ltb_spec (p mod 64) (Z.of_nat 64)); [reflexivity|lia].
Qed.

(** The lists that are accepted: the residues are exactly those below that of the rank. *)
Definition wide_ok (rank : nat) (perm : list Z) : Prop :=
  length perm = rank /\ Forall (fun p => p < Z.of_nat rank) perm /\
  forall b, 0 <= b < 64 -> (In b (map (fun p => p mod 64) perm) <-> b < Z.of_nat rank mod 64).

Lemma wide_full rank : (64 <= rank)%nat ->
  exists full, u_shl false usize_max (Z.of_nat rank) = Ok full /\ Z.lxor usize_max full = Z.ones (Z.of_nat rank mod 64).
Proof.
  intros HR. pose proof (Z.mod_pos_bound (Z.of_nat rank) 64 ltac:(lia)) as HM. set (k := Z.of_nat rank mod 64) in *.
  eexists. split.
  - unfold u_shl. destruct (Z.ltb_spec (Z.of_nat rank) 64); [lia|]. reflexivity.
  - fold k. rewrite <- (Z2Nat.id k) by lia. rewrite <- full_mask_spec by lia. reflexivity.
Qed.

Lemma x_permute_wide m perm :
  nonneg (m_dims m) -> roomy (m_dims m) -> (64 <= m_rank m)%nat -> Forall (fun p => 0 <= p) perm ->
  (wide_ok (m_rank m) perm /\ exists m', x_permute false Strided SDynRank m perm = Ok m') \/
  (~ wide_ok (m_rank m) perm /\ x_permute false Strided SDynRank m perm = Panic).
Proof.
  intros HN HR HK HP. unfold x_permute, wide_ok.
  destruct (Nat.eqb_spec (length perm) (m_rank m)) as [EL|NL]; [|right; split; [tauto|reflexivity]]. cbn [assert bind].
  rewrite x_mask_wide by auto. destruct (forallb _ perm) eqn:EF.
  2:{ right. split; [|reflexivity]. intros (_ & F & _). rewrite (proj2 (forallb_forall _ _)) in EF; [discriminate|].
      intros x Hx. rewrite Forall_forall in F. specialize (F x Hx). now apply Z.ltb_lt. }
  assert (F : Forall (fun p => p < Z.of_nat (m_rank m)) perm).
  { apply Forall_forall. intros x Hx. rewrite forallb_forall in EF. now apply Z.ltb_lt, EF. }
  assert (B64 : Forall (fun p => p < Z.of_nat 64) (map (fun p => p mod 64) perm)).
  { apply Forall_forall. intros x Hx. apply in_map_iff in Hx as (p & <- & _). pose proof (Z.mod_pos_bound p 64 ltac:(lia)). lia. }
  assert (B0 : Forall (fun p => 0 <= p) (map (fun p => p mod 64) perm)).
  { apply Forall_forall. intros x Hx. apply in_map_iff in Hx as (p & <- & _). pose proof (Z.mod_pos_bound p 64 ltac:(lia)). lia. }
  destruct (@mask_loop_ok 64 _ 0 B64) as [r ER]. rewrite ER. cbn [bind].
  destruct (mask_loop_spec _ _ B0 ER) as [_ T].
  destruct (wide_full HK) as (full & EU & EX). rewrite EU. cbn [bind]. rewrite EX.
  pose proof (Z.mod_pos_bound (Z.of_nat (m_rank m)) 64 ltac:(lia)) as HM. set (k := Z.of_nat (m_rank m) mod 64) in *.
  assert (IN : forall b, 0 <= b -> (Z.testbit r b = true <-> In b (map (fun p => p mod 64) perm))).
  { intros b Hb. rewrite T by lia. rewrite Z.testbit_0_l. cbn [orb]. rewrite existsb_exists. split.
    - intros (x & Hx & E). apply Z.eqb_eq in E. now subst.
    - intros H. exists b. split; [exact H|apply Z.eqb_refl]. }
  assert (IFF : r = Z.ones k <-> forall b, 0 <= b < 64 -> (In b (map (fun p => p mod 64) perm) <-> b < k)).
  { split.
    - intros -> b Hb. rewrite <- IN by lia. rewrite Z.ones_spec_iff by lia. lia.
    - intros H. apply Z.bits_inj'. intros b Hb. destruct (Z.lt_ge_cases b 64) as [L|G].
      + apply eq_true_iff_eq. rewrite IN, Z.ones_spec_iff, H by lia. lia.
      + rewrite Z.ones_spec_high by lia. apply not_true_iff_false. rewrite IN by lia. intros Hx. rewrite Forall_forall in B64.
        specialize (B64 b Hx). cbn in B64. lia. }
  destruct (Z.eqb_spec r (Z.ones k)) as [E|NE]; [left|right].
  - split; [split; [auto|]; split; [auto|]; now apply IFF|]. cbn [assert bind sh_new dims_new sh_store]. rewrite x_calls_fit by auto.
    cbn [bind]. eauto.
  - split; [|reflexivity]. intros (_ & _ & H). apply NE. now apply IFF.
Qed.

(** No permutation is among them. *)
Lemma wide_no_perm rank perm : (64 <= rank)%nat -> perm_of rank perm -> ~ wide_ok rank perm.
Proof.
  intros HR HP (_ & _ & H). pose proof (Z.mod_pos_bound (Z.of_nat rank) 64 ltac:(lia)) as HM.
  assert (X : In 63 (map (fun p => p mod 64) perm)).
  { apply in_map_iff. exists 63. split; [reflexivity|]. apply (perm_of_in 63 HP). lia. }
  apply H in X; lia.
Qed.

(** ** Offsets *)

(** Every element is at an [isize] distance from the first one. *)
Definition near (m : mapping) : Prop := forall idx, in_bounds (m_dims m) idx -> is_isize (dot (m_strides m) idx).

Lemma dims_isize dims i : nonneg dims -> roomy dims -> is_isize (nth i dims 0).
Proof.
  intros HN HR. apply small_isize. split; [|now apply roomy_nth].
  destruct (Nat.lt_ge_cases i (length dims)); [apply (Forall_nth (fun d => 0 <= d) dims); auto|]. rewrite nth_overflow; lia.
Qed.

Lemma in_bounds_zeros dims : positive dims -> in_bounds dims (repeat 0 (length dims)).
Proof. intros H. induction H as [|d dims Hd HP IH]; [constructor|]. cbn [length repeat]. apply in_bounds_cons. split; [lia|auto]. Qed.

Lemma near_part m a b idx : near m -> length (m_strides m) = length (m_dims m) -> in_bounds (m_dims m) idx ->
  is_isize (dot (skipn a (firstn b (m_strides m))) (skipn a (firstn b idx))).
Proof.
  intros HN HL HB. pose proof (in_bounds_positive HB) as HP. pose proof (in_bounds_length HB) as LI.
  set (k := skipn a (firstn b idx)).
  assert (ES : m_strides m = firstn a (firstn b (m_strides m)) ++ skipn a (firstn b (m_strides m)) ++ skipn b (m_strides m)).
  { rewrite app_assoc, firstn_skipn, firstn_skipn. reflexivity. }
  assert (ED : m_dims m = firstn a (firstn b (m_dims m)) ++ skipn a (firstn b (m_dims m)) ++ skipn b (m_dims m)).
  { rewrite app_assoc, firstn_skipn, firstn_skipn. reflexivity. }
  assert (EI : idx = firstn a (firstn b idx) ++ k ++ skipn b idx).
  { unfold k. rewrite app_assoc, firstn_skipn, firstn_skipn. reflexivity. }
  specialize (HN (repeat 0 (length (firstn a (firstn b (m_dims m)))) ++ k ++ repeat 0 (length (skipn b (m_dims m))))).
  assert (LA : length (firstn a (firstn b idx)) = length (firstn a (firstn b (m_dims m)))).
  { rewrite !firstn_length. lia. }
  assert (LK : length k = length (skipn a (firstn b (m_dims m)))).
  { unfold k. rewrite !skipn_length, !firstn_length. lia. }
  assert (B : in_bounds (m_dims m) (repeat 0 (length (firstn a (firstn b (m_dims m)))) ++ k ++ repeat 0 (length (skipn b (m_dims m))))).
  { rewrite ED at 1. rewrite ED in HB. rewrite EI in HB. apply in_bounds_app in HB; [|exact LA]. destruct HB as [B1 B2].
    apply in_bounds_app in B2; [|exact LK]. destruct B2 as [B2 B3].
    apply in_bounds_app; [now rewrite repeat_length|]. split.
    - apply in_bounds_zeros. now apply in_bounds_positive in B1.
    - apply in_bounds_app; [exact LK|]. split; [exact B2|]. apply in_bounds_zeros. now apply in_bounds_positive in B3. }
  specialize (HN B). rewrite ES in HN. rewrite dot_app in HN by (rewrite repeat_length, !firstn_length; lia).
  rewrite dot_app in HN by (rewrite LK, !skipn_length, !firstn_length; lia).
  rewrite !dot_zeros in HN. replace (0 + (dot (skipn a (firstn b (m_strides m))) k + 0)) with (dot (skipn a (firstn b (m_strides m))) k) in HN by ring.
  exact HN.
Qed.

Lemma one_part {A} (l : list A) i d : (i < length l)%nat -> skipn i (firstn (S i) l) = [nth i l d].
Proof.
  intros H. rewrite (@firstn_snoc A i l d) by lia. rewrite skipn_app. rewrite firstn_length.
  replace (i - Nat.min i (length l))%nat with 0%nat by lia. rewrite skipn_all2 by (rewrite firstn_length; lia). reflexivity.
Qed.

Lemma near_term m i idx : near m -> length (m_strides m) = length (m_dims m) -> in_bounds (m_dims m) idx ->
  (i < length (m_dims m))%nat -> is_isize (nth i (m_strides m) 0 * nth i idx 0).
Proof.
  intros HN HL HB HI. pose proof (@near_part m i (S i) idx HN HL HB) as H. pose proof (in_bounds_length HB) as LI.
  rewrite (@one_part Z (m_strides m) i 0) in H by lia. rewrite (@one_part Z idx i 0) in H by lia. cbn in H. now rewrite Z.add_0_r in H.
Qed.

Lemma idx_isize m i idx : roomy (m_dims m) -> in_bounds (m_dims m) idx -> (i < length (m_dims m))%nat ->
  is_isize (nth i idx 0) /\ (nth i idx 0 <? nth i (m_dims m) 0) = true /\ get_nth idx i = Ok (nth i idx 0).
Proof.
  intros HR HB HI. pose proof (in_bounds_nth HB HI) as H. pose proof (@roomy_nth (m_dims m) i HR). repeat split.
  - unfold isize_min. lia.
  - lia.
  - apply Z.ltb_lt. lia.
  - unfold get_nth. rewrite (nth_error_nth' idx 0); [reflexivity|]. rewrite (in_bounds_length HB). lia.
Qed.

Lemma dassert_true dbg b : b = true -> dassert dbg b = Ok tt.
Proof. intros ->. now destruct dbg. Qed.

Lemma firstn_prefix {A} (l : list A) b : skipn 0 (firstn b l) = firstn b l.
Proof. reflexivity. Qed.

Lemma x_offset_up dbg m idx : near m -> length (m_strides m) = length (m_dims m) -> roomy (m_dims m) -> in_bounds (m_dims m) idx ->
  forall k a, (a + k = length (m_dims m))%nat ->
  x_offset_loop dbg (m_dims m) idx (map (fun i => (i, nth i (m_strides m) 0)) (seq a k))
    (dot (firstn a (m_strides m)) (firstn a idx)) = Ok (dot (m_strides m) idx).
Proof.
  intros HN HL HR HB. pose proof (in_bounds_length HB) as LI. induction k as [|k IH]; intros a HA; cbn [seq map x_offset_loop].
  - rewrite !firstn_all2 by lia. reflexivity.
  - assert (I : (a < length (m_dims m))%nat) by lia. destruct (idx_isize HR HB I) as (I1 & I2 & I3).
    rewrite I3. cbn [bind]. rewrite dassert_true by exact I2. cbn [bind]. rewrite as_isize_fit by exact I1.
    rewrite i_res_fit by (now apply near_term). cbn [bind].
    assert (E : dot (firstn a (m_strides m)) (firstn a idx) + nth a (m_strides m) 0 * nth a idx 0
                = dot (firstn (S a) (m_strides m)) (firstn (S a) idx)).
    { rewrite (@firstn_snoc Z a (m_strides m) 0), (@firstn_snoc Z a idx 0) by lia.
      rewrite dot_app by (rewrite !firstn_length; lia). cbn. ring. }
    rewrite E. rewrite i_res_fit.
    + cbn [bind]. apply IH. lia.
    + pose proof (@near_part m 0 (S a) idx HN HL HB) as H. exact H.
Qed.

Lemma x_offset_down dbg m idx : near m -> length (m_strides m) = length (m_dims m) -> roomy (m_dims m) -> in_bounds (m_dims m) idx ->
  forall n, (n <= length (m_dims m))%nat ->
  x_offset_loop dbg (m_dims m) idx (rev (map (fun i => (i, nth i (m_strides m) 0)) (seq 0 n)))
    (dot (skipn n (m_strides m)) (skipn n idx)) = Ok (dot (m_strides m) idx).
Proof.
  intros HN HL HR HB. pose proof (in_bounds_length HB) as LI. induction n as [|n IH]; intros HA; [reflexivity|].
  rewrite seq_S, map_app, rev_app_distr. cbn [map rev app x_offset_loop Nat.add].
  assert (I : (n < length (m_dims m))%nat) by lia. destruct (idx_isize HR HB I) as (I1 & I2 & I3).
  rewrite I3. cbn [bind]. rewrite dassert_true by exact I2. cbn [bind]. rewrite as_isize_fit by exact I1.
  rewrite i_res_fit by (now apply near_term). cbn [bind].
  assert (E : dot (skipn (S n) (m_strides m)) (skipn (S n) idx) + nth n (m_strides m) 0 * nth n idx 0
              = dot (skipn n (m_strides m)) (skipn n idx)).
  { rewrite (@skipn_cons_nth Z n (m_strides m) 0), (@skipn_cons_nth Z n idx 0) by lia. cbn [dot]. ring. }
  rewrite E. rewrite i_res_fit.
  - cbn [bind]. apply IH. lia.
  - pose proof (@near_part m n (length (m_dims m)) idx HN HL HB) as H. rewrite !firstn_all2 in H by lia. exact H.
Qed.

Lemma x_offset_fit dbg m idx : wf_map m -> roomy (m_dims m) -> near m -> in_bounds (m_dims m) idx ->
  x_offset dbg m idx = Ok (m_offset m idx).
Proof.
  intros HW HR HN HB. pose proof (wf_strides HW) as HL. pose proof (in_bounds_length HB) as LI.
  rewrite m_offset_dot by auto. unfold x_offset. rewrite dassert_true by (apply Nat.eqb_eq; exact LI). cbn [bind].
  rewrite x_calls_fit by (auto; apply HW). cbn [bind].
  destruct m as [ty dims|ty dims st].
  - cbn [for_each_stride]. rewrite dense_calls_spec by lia.
    pose proof (@x_offset_down dbg (DenseM ty dims) idx HN HL HR HB (length dims) (le_n _)) as H. cbn [m_dims m_strides] in H, LI |- *.
    rewrite skipn_all2 in H by (rewrite row_major_length; lia). cbn [dot] in H. rewrite <- H. f_equal. f_equal.
    apply map_ext_in. intros i Hi. apply in_seq in Hi. rewrite nth_row_major by lia. rewrite firstn_all, Z.mul_1_l. reflexivity.
  - exact (@x_offset_up dbg (StridedM ty dims st) idx HN HL HR HB (length dims) 0%nat eq_refl).
Qed.

Lemma x_linear_down dbg m : near m -> wf_map m -> roomy (m_dims m) -> positive (m_dims m) ->
  forall n k t, (n <= length (m_dims m))%nat -> 0 <= k < prodZ (firstn n (m_dims m)) ->
  in_bounds (skipn n (m_dims m)) t ->
  x_linear_loop dbg n (m_dims m) (m_strides m) k (dot (skipn n (m_strides m)) t)
  = Ok (dot (m_strides m) (unflat (firstn n (m_dims m)) k ++ t)).
Proof.
  intros HN HW HR HP. pose proof (wf_strides HW) as HL. induction n as [|n IH]; intros k t HA HK HT; pose proof HL as HL1.
  { reflexivity. }
  cbn [x_linear_loop]. set (D := m_dims m) in *. set (St := m_strides m) in *. change (length St = length D) in HL1.
  assert (DP : 0 < nth n D 0) by (apply (@positive_nth D n HP); lia).
  rewrite (@firstn_snoc Z n D 0) in * by lia.
  assert (NN : nonneg (firstn n D ++ [nth n D 0])).
  { apply nonneg_app. split; [apply nonneg_firstn; apply HW|constructor; [lia|constructor]]. }
  rewrite unflat_snoc by auto. rewrite prodZ_app in HK. cbn [prodZ fold_right] in HK. rewrite Z.mul_1_r in HK.
  assert (K1 : 0 <= k / nth n D 0 < prodZ (firstn n D)).
  { split; [apply Z.div_pos; lia|]. apply Z.div_lt_upper_bound; [lia|]. rewrite Z.mul_comm. apply HK. }
  pose proof (Z.mod_pos_bound k (nth n D 0) DP) as KM.
  destruct (Z.eqb_spec (nth n D 0) 0); [lia|]. cbn [negb assert bind].
  pose proof (@roomy_nth D n HR) as RN. rewrite as_isize_fit by (apply small_isize; lia).
  set (t' := k mod nth n D 0 :: t).
  assert (T' : in_bounds (skipn n D) t').
  { rewrite (@skipn_cons_nth Z n D 0) by lia. apply in_bounds_cons. split; [exact KM|exact HT]. }
  assert (E : dot (skipn (S n) St) t + nth n St 0 * (k mod nth n D 0) = dot (skipn n St) t').
  { rewrite (@skipn_cons_nth Z n St 0) by lia. unfold t'. cbn [dot]. ring. }
  assert (F : in_bounds D (repeat 0 n ++ t')).
  { rewrite <- (firstn_skipn n D). apply in_bounds_app; [rewrite repeat_length, firstn_length; lia|]. split; [|exact T'].
    replace n with (length (firstn n D)) at 2 by (rewrite firstn_length; lia). apply in_bounds_zeros.
    unfold positive in *. rewrite <- (firstn_skipn n D) in HP. apply Forall_app in HP. apply HP. }
  rewrite i_res_fit.
  2:{ pose proof (@near_term m n _ HN HL F) as H. rewrite app_nth2 in H by (rewrite repeat_length; lia).
      rewrite repeat_length, Nat.sub_diag in H. apply H. change (n < length D)%nat. lia. }
  cbn [bind]. rewrite E. rewrite i_res_fit.
  2:{ pose proof (HN _ F) as H. fold St in H. rewrite <- (firstn_skipn n St) in H.
      rewrite dot_app in H by (rewrite repeat_length, firstn_length; lia). rewrite dot_zeros in H. exact H. }
  cbn [bind]. rewrite IH; [|lia|exact K1|exact T']. f_equal. f_equal. rewrite <- app_assoc. reflexivity.
Qed.

Lemma x_linear_offset_fit dbg m k : wf_map m -> roomy (m_dims m) -> near m -> 0 <= k < m_len m ->
  x_linear_offset dbg m k = Ok (m_linear_offset m k).
Proof.
  intros HW HR HN HK. unfold m_len in HK. rewrite sh_len_prod in HK.
  assert (HP : positive (m_dims m)) by (apply prodZ_pos_inv; [apply HW|lia]).
  unfold x_linear_offset. rewrite x_len_fit by (auto; apply HW). cbn [bind].
  assert (A : (if dbg then assert (k <? prodZ (m_dims m)) else Ok tt) = Ok tt).
  { destruct dbg; [|reflexivity]. apply assert_true. apply Z.ltb_lt. lia. }
  unfold assert in *. rewrite A. cbn [bind]. rewrite m_linear_offset_spec; [|exact HW|unfold m_len; rewrite sh_len_prod; exact HK].
  pose proof (wf_strides HW) as HL. rewrite m_offset_dot by (auto; apply unflat_length).
  destruct m as [ty dims|ty dims st].
  - cbn [m_dims m_strides] in *. rewrite dot_row_major; [|apply unflat_length]. rewrite flat_unflat; [|apply HW|exact HK].
    rewrite as_isize_fit; [reflexivity|]. apply small_isize. pose proof (mx_prod (wf_nonneg HW)) as M. cbn [m_dims] in M. unfold roomy in HR. lia.
  - pose proof (@x_linear_down dbg (StridedM ty dims st) HN HW HR HP (length dims) k []) as H. cbn [m_dims m_strides] in *.
    rewrite !skipn_all2, firstn_all, app_nil_r in H by lia. apply H; [lia|exact HK|constructor].
Qed.

(** ** Valid views *)

Lemma valid_near n v : valid_view n v -> n <= isize_max -> near (v_map v).
Proof.
  intros HV HN idx HB. destruct HV as [HW HR _]. change (m_dims (v_map v)) with (v_dims v) in HB.
  pose proof (in_bounds_length HB) as LI. pose proof (HR _ HB) as R1. rewrite v_addr_dot in R1 by auto.
  assert (Z0 : in_bounds (v_dims v) (repeat 0 (length (v_dims v)))) by (apply in_bounds_zeros; now apply in_bounds_positive in HB).
  pose proof (HR _ Z0) as R2. rewrite v_addr_dot, dot_zeros in R2 by (auto; now rewrite repeat_length). unfold is_isize, isize_min. unfold isize_max in HN. cbn in HN |- *. lia.
Qed.

Lemma valid_roomy n v : valid_view n v -> n <= isize_max -> 0 < prodZ (v_dims v) -> roomy (v_dims v).
Proof.
  intros HV HN HP. pose proof (wf_nonneg (vv_wf HV)) as NN. pose proof (prodZ_pos_inv NN HP) as PP.
  unfold roomy. rewrite mx_positive by exact PP.
  assert (0 <= n). { destruct HV as [_ HR _]. pose proof (HR _ (in_bounds_zeros PP)). lia. }
  pose proof (valid_len H HV). lia.
Qed.
