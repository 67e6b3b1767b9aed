(** Machine arithmetic without overflow checks: reshaping, single operations and whole runs. *)
From Verif Require Import Base Spec SpecFacts Shape Mapping Index View Wf MappingFacts MapOps ReshapeFacts IndexFacts ViewFacts ViewMore
  Machine MachineSpec MachineFacts MachineViews MachineReshape MachineRun MachineWrap.
Unset Strict Implicit.

(** ** The loops of [reshape] *)

(** The machine state [s'] follows the exact state [s]. *)
Record srel (s' s : reshape_state) : Prop := {
  sr_ol : rs_old_len s' = rs_old_len s;
  sr_nl : rs_new_len s' = rs_new_len s;
  sr_os : rs_old_stride s' = as_isize (rs_old_stride s);
  sr_ns : rs_new_stride s' = as_isize (rs_new_stride s);
  sr_j : rs_j s' = rs_j s;
  sr_st : rs_strides s' = map as_isize (rs_strides s)
}.

Lemma x_step_mono dims strides nd i s r : x_reshape_step false dims strides nd i s = Ok r -> rs_valid r = true -> rs_valid s = true.
Proof.
  unfold x_reshape_step. intros H V. apply bind_ok in H as (a & _ & H). apply bind_ok in H as (b & _ & H).
  apply bind_ok in H as ([[[j nl] nst] ns] & _ & H). injection H as <-. cbn [rs_valid] in V.
  destruct (_ =? _); [exact V|]. now apply andb_true_iff in V.
Qed.
Lemma x_loop_mono n dims strides nd : forall s r, x_reshape_loop false n dims strides nd s = Ok r -> rs_valid r = true -> rs_valid s = true.
Proof.
  induction n as [|n IH]; intros s r H V; cbn [x_reshape_loop] in H; [injection H as <-; exact V|].
  apply bind_ok in H as (s' & E & H). apply (x_step_mono E). now apply (IH _ _ H).
Qed.

(** The products of the last dimensions fit. *)
Definition fits_suffix (dims : list Z) : Prop := forall j, is_usize (prodZ (skipn j dims)).
Lemma positive_suffix dims : positive dims -> prodZ dims <= usize_max -> fits_suffix dims.
Proof. intros HP HB j. pose proof (suffix_le j HP). unfold is_usize. lia. Qed.
Lemma two_suffix a b : 0 <= b <= usize_max -> 0 <= a * b <= usize_max -> fits_suffix [a; b].
Proof.
  intros H1 H2 j. unfold is_usize, usize_max in *. destruct j as [|[|j]]; cbn [skipn].
  - rewrite !prodZ_cons. change (prodZ []) with 1. lia.
  - rewrite prodZ_cons. change (prodZ []) with 1. lia.
  - rewrite skipn_nil. change (prodZ []) with 1. lia.
Qed.

Section Loops.
Variables dims nd : list Z.
Hypothesis dims_u : fits_suffix dims.
Hypothesis nd_u : fits_suffix nd.

Lemma inner_wrap j : forall ol nl nst ns j' nl' nst' ns', (j <= length nd)%nat -> nl = prodZ (skipn j nd) ->
  reshape_inner j nd ol nl nst ns = (j', nl', nst', ns') ->
  x_reshape_inner false j nd ol nl (as_isize nst) (map as_isize ns) = Ok (j', nl', as_isize nst', map as_isize ns') /\
  (j' <= length nd)%nat /\ nl' = prodZ (skipn j' nd).
Proof.
  induction j as [|j IH]; intros ol nl nst ns j' nl' nst' ns' HJ HN H; cbn [reshape_inner x_reshape_inner] in *.
  - injection H as <- <- <- <-. split; [reflexivity|]. split; [lia|exact HN].
  - assert (E : nl * nth j nd 0 = prodZ (skipn j nd)) by (rewrite HN, (suffix_step HJ); ring).
    rewrite u_res_fit by (rewrite E; apply nd_u). cbn [bind]. destruct (nl * nth j nd 0 >? ol).
    + injection H as <- <- <- <-. split; [reflexivity|]. split; [lia|exact HN].
    + rewrite i_res_false, wrap_mul. cbn [bind]. rewrite <- map_upd. apply IH; [lia|exact E|exact H].
Qed.

Lemma step_wrap strides' strides i s' s : srel s' s -> linv dims nd (S i) s -> (S i <= length dims)%nat ->
  nth i strides' 0 = as_isize (nth i strides 0) ->
  exists r', x_reshape_step false dims strides' nd i s' = Ok r' /\ srel r' (reshape_step dims strides nd i s) /\
    linv dims nd i (reshape_step dims strides nd i s) /\
    rs_valid r' = (if rs_old_len s =? rs_new_len s then rs_valid s' else rs_valid s' && (as_isize (rs_old_stride s) =? as_isize (nth i strides 0))) /\
    rs_valid (reshape_step dims strides nd i s) = (if rs_old_len s =? rs_new_len s then rs_valid s else rs_valid s && (rs_old_stride s =? nth i strides 0)).
Proof.
  intros [R1 R2 R3 R4 R5 R6] [L1 L2 L3] HI HS. unfold x_reshape_step, reshape_step. rewrite R1, R2, R3, R4, R5, R6, HS.
  assert (E : rs_old_len s * nth i dims 0 = prodZ (skipn i dims)) by (rewrite L3, (suffix_step HI); ring).
  rewrite u_res_fit by (rewrite E; apply dims_u). cbn [bind]. rewrite i_res_false. cbn [bind].
  set (same := rs_old_len s =? rs_new_len s).
  destruct (reshape_inner (rs_j s) nd (rs_old_len s * nth i dims 0) (rs_new_len s) (if same then nth i strides 0 else rs_new_stride s) (rs_strides s))
    as [[[j' nl'] nst'] ns'] eqn:EI.
  destruct (inner_wrap L1 L2 EI) as (X & J & N).
  replace (if same then as_isize (nth i strides 0) else as_isize (rs_new_stride s)) with (as_isize (if same then nth i strides 0 else rs_new_stride s)) by (destruct same; reflexivity).
  rewrite X. cbn [bind]. eexists. split; [reflexivity|]. split; [|split; [|split; reflexivity]].
  - constructor; cbn [rs_old_len rs_new_len rs_old_stride rs_new_stride rs_j rs_strides]; try reflexivity.
    destruct same; apply wrap_mul.
  - constructor; cbn [rs_old_len rs_new_len rs_j]; auto.
Qed.

Lemma loop_wrap strides n : forall s' s, srel s' s -> linv dims nd n s -> (n <= length dims)%nat -> (rs_valid s = true -> rs_valid s' = true) ->
  exists r', x_reshape_loop false n dims (map as_isize strides) nd s' = Ok r' /\ srel r' (reshape_loop n dims strides nd s) /\
    linv dims nd 0 (reshape_loop n dims strides nd s) /\ (rs_valid (reshape_loop n dims strides nd s) = true -> rs_valid r' = true).
Proof.
  induction n as [|n IH]; intros s' s R L HL V; cbn [x_reshape_loop reshape_loop]; [eauto|].
  destruct (@step_wrap (map as_isize strides) strides n s' s R L HL (nth_wrap strides n)) as (r' & E & R' & L' & V1 & V2).
  rewrite E. cbn [bind]. apply IH; auto; [lia|]. rewrite V1, V2. destruct (rs_old_len s =? rs_new_len s); [exact V|].
  intros H. apply andb_true_iff in H as [H1 H2]. rewrite (V H1). apply Z.eqb_eq in H2. rewrite H2. cbn [andb]. apply Z.eqb_refl.
Qed.

Lemma rest_wrap j : forall nl nst ns nl' ns', (j <= length nd)%nat -> nl = prodZ (skipn j nd) ->
  reshape_rest j nd nl nst ns = (nl', ns') ->
  x_reshape_rest false j nd nl (as_isize nst) (map as_isize ns) = Ok (nl', map as_isize ns').
Proof.
  induction j as [|j IH]; intros nl nst ns nl' ns' HJ HN H; cbn [reshape_rest x_reshape_rest] in *.
  - injection H as <- <-. reflexivity.
  - assert (E : nl * nth j nd 0 = prodZ (skipn j nd)) by (rewrite HN, (suffix_step HJ); ring).
    rewrite u_res_fit by (rewrite E; apply nd_u). cbn [bind]. rewrite i_res_false, wrap_mul. cbn [bind]. rewrite <- map_upd. apply IH; [lia|exact E|exact H].
Qed.

(** Where the machine accepts a stride, there are exact strides, equal modulo [2 ^ 64], that are accepted. *)
Lemma loop_lift strides' n : Forall is_isize strides' -> length strides' = length dims ->
  forall s' s r', srel s' s -> linv dims nd n s -> (n <= length dims)%nat -> rs_valid s = true ->
  x_reshape_loop false n dims strides' nd s' = Ok r' -> rs_valid r' = true ->
  exists p, length p = n /\ (forall i, (i < n)%nat -> as_isize (nth i p 0) = nth i strides' 0) /\
    forall full, (forall i, (i < n)%nat -> nth i full 0 = nth i p 0) ->
      srel r' (reshape_loop n dims full nd s) /\ linv dims nd 0 (reshape_loop n dims full nd s) /\ rs_valid (reshape_loop n dims full nd s) = true.
Proof.
  intros HS HLS. induction n as [|n IH]; intros s' s r' R L HL V H V'.
  { injection H as <-. exists []. split; [reflexivity|]. split; [intros; lia|]. intros full _. cbn [reshape_loop]. auto. }
  cbn [x_reshape_loop] in H. apply bind_ok in H as (r1' & E1 & H).
  assert (IS : is_isize (nth n strides' 0)) by (apply (Forall_nth is_isize); [exact HS|lia]).
  set (x := if rs_old_len s =? rs_new_len s then nth n strides' 0 else rs_old_stride s).
  assert (AX : nth n strides' 0 = as_isize x).
  { unfold x. destruct (rs_old_len s =? rs_new_len s) eqn:ES; [now rewrite as_isize_fit|].
    pose proof (x_loop_mono H V') as V1. unfold x_reshape_step in E1. apply bind_ok in E1 as (a & _ & E1). apply bind_ok in E1 as (b & _ & E1).
    apply bind_ok in E1 as ([[[j nl] nst] ns] & _ & E1). injection E1 as <-. cbn [rs_valid] in V1.
    rewrite (sr_ol R), (sr_nl R), ES in V1. apply andb_true_iff in V1 as [_ V1]. apply Z.eqb_eq in V1. now rewrite <- V1, (sr_os R). }
  set (F0 := upd (repeat 0 (S n)) n x).
  assert (NF : nth n F0 0 = x) by (unfold F0; rewrite upd_nth_same by (rewrite repeat_length; lia); reflexivity).
  destruct (@step_wrap strides' F0 n s' s R L HL) as (r2' & E2 & R2 & L2 & W1 & W2); [now rewrite NF|].
  rewrite E1 in E2. injection E2 as <-.
  assert (V2 : rs_valid (reshape_step dims F0 nd n s) = true).
  { rewrite W2, NF, V. unfold x. destruct (rs_old_len s =? rs_new_len s); [reflexivity|]. now rewrite Z.eqb_refl. }
  destruct (IH r1' (reshape_step dims F0 nd n s) r' R2 L2 ltac:(lia) V2 H V') as (p & LP & HPp & HF).
  exists (p ++ [x]). split; [rewrite app_length, LP; simpl; lia|]. split.
  - intros i Hi. destruct (Nat.lt_ge_cases i n) as [Q|Q].
    + rewrite app_nth1 by lia. now apply HPp.
    + assert (i = n) by lia. subst i. rewrite app_nth2 by lia. rewrite LP, Nat.sub_diag. cbn [nth]. now symmetry.
  - intros full Hfull. cbn [reshape_loop].
    assert (EF : reshape_step dims full nd n s = reshape_step dims F0 nd n s).
    { unfold reshape_step. rewrite NF. replace (nth n full 0) with x; [reflexivity|]. rewrite Hfull by lia.
      rewrite app_nth2 by lia. rewrite LP, Nat.sub_diag. reflexivity. }
    rewrite EF. apply HF. intros i Hi. rewrite Hfull by lia. now rewrite app_nth1 by lia.
Qed.
End Loops.

Lemma x_sh_reshape_wrap old ty req : 0 <= prodZ old <= usize_max -> x_sh_reshape false old ty req = sh_reshape old ty req.
Proof.
  intros H. unfold x_sh_reshape, sh_reshape. destruct (infer_loop 0 None req) as [[inf d]| | |]; try reflexivity. cbn [bind].
  destruct (sh_store ty d); try reflexivity. cbn [bind]. rewrite x_len_wrap. cbn [bind]. rewrite as_usize_fit, sh_len_prod by exact H. reflexivity.
Qed.

Lemma init_rel (nd ns : list Z) : ns = repeat 0 (length nd) -> forall v v',
  srel {| rs_old_len := 1; rs_new_len := 1; rs_old_stride := 1; rs_new_stride := 1; rs_valid := v'; rs_j := length nd; rs_strides := ns |}
       {| rs_old_len := 1; rs_new_len := 1; rs_old_stride := 1; rs_new_stride := 1; rs_valid := v; rs_j := length nd; rs_strides := ns |}.
Proof. intros -> v v'. constructor; try reflexivity. cbn [rs_strides]. now rewrite wrap_zeros. Qed.
Lemma init_linv (dims nd ns : list Z) v :
  linv dims nd (length dims) {| rs_old_len := 1; rs_new_len := 1; rs_old_stride := 1; rs_new_stride := 1; rs_valid := v; rs_j := length nd; rs_strides := ns |}.
Proof. constructor; cbn [rs_j rs_new_len rs_old_len]; rewrite ?skipn_all; auto. Qed.

Section Reshape.
Context {m : mapping} {ty : shty} {req : list Z}.
Hypotheses (HW : wf_map m) (HN : nonneg req) (HR : match sh_rank ty with Some k => length req = k | None => True end)
           (HB : prodZ (m_dims m) <= usize_max).
Let H0 : 0 <= prodZ (m_dims m) := prodZ_nonneg (wf_nonneg HW).

Lemma x_reshape_follow m' : m_reshape m ty req = Ok m' -> fits_suffix (m_dims m) -> fits_suffix (m_dims m') ->
  x_reshape false (wrapm m) ty req = Ok (wrapm m').
Proof.
  intros H FD FN. destruct m as [t d|t d st]; cbn [wrapm x_reshape m_reshape m_dims] in *.
  - rewrite x_sh_reshape_wrap by lia. apply bind_ok in H as (nd & -> & H). injection H as <-. reflexivity.
  - rewrite x_sh_reshape_wrap by lia. apply bind_ok in H as (nd & E & H). rewrite E. cbn [bind].
    apply bind_ok in H as (ns & ED & H). rewrite ED. cbn [bind]. apply dims_new_ok_inv in ED.
    assert (FN' : fits_suffix nd).
    { destruct (reshape_rest _ _ _ _ _) in H. apply bind_ok in H as (u & _ & H). injection H as <-. exact FN. }
    destruct (@loop_wrap d nd FD FN' st (length d) _ _ (init_rel ED true true) (init_linv d nd ns true) (Nat.le_refl _) (fun h => h)) as (r' & X & R & LI & V).
    rewrite X. cbn [bind]. set (s := reshape_loop (length d) d st nd _) in *.
    rewrite (sr_j R), (sr_nl R), (sr_ns R), (sr_st R).
    destruct (reshape_rest (rs_j s) nd (rs_new_len s) (rs_new_stride s) (rs_strides s)) as [nl ns'] eqn:RR.
    rewrite (@rest_wrap nd FN' _ _ _ _ _ _ (li_j LI) (li_new LI) RR). cbn [bind].
    apply bind_ok in H as (u & A & H). apply assert_ok in A. injection H as <-.
    rewrite assert_true; [reflexivity|]. apply orb_true_iff in A as [A|A]; [now rewrite A|]. rewrite (V A). apply orb_true_r.
Qed.

Lemma x_reshape_wrap m' : 0 < prodZ (m_dims m) -> m_reshape m ty req = Ok m' -> x_reshape false (wrapm m) ty req = Ok (wrapm m').
Proof.
  intros HP H. assert (E : exists nd, sh_reshape (m_dims m) ty req = Ok nd /\ m_dims m' = nd).
  { destruct m as [t d|t d st]; cbn [m_reshape m_dims] in *; apply bind_ok in H as (nd & E & H); exists nd; (split; [exact E|]).
    - now injection H as <-.
    - apply bind_ok in H as (ns & ED & H). destruct (reshape_rest _ _ _ _ _). apply bind_ok in H as (u & _ & H). now injection H as <-. }
  destruct E as (nd & E & ED). destruct (@sh_reshape_sound _ _ _ _ (wf_nonneg HW) HN HR E) as (L & N & T & P).
  apply x_reshape_follow; [exact H| |].
  - apply positive_suffix; [apply prodZ_pos_inv; [apply HW|lia]|exact HB].
  - rewrite ED. apply positive_suffix; [apply prodZ_pos_inv; [exact N|lia]|lia].
Qed.

(** An accepted reshape is the exact reshape of strides that are the same modulo [2 ^ 64]. *)
Lemma x_reshape_lift m' : 0 < prodZ (m_dims m) -> wrapm m = m -> x_reshape false m ty req = Ok m' ->
  exists m2 m2', wf_map m2 /\ wrapm m2 = m /\ m_reshape m2 ty req = Ok m2' /\ m' = wrapm m2'.
Proof.
  intros HP HI H. destruct m as [t d|t d st] eqn:EM; cbn [wrapm x_reshape m_dims] in *.
  - rewrite x_sh_reshape_wrap in H by lia. exists (DenseM t d). apply bind_ok in H as (nd & E & H). injection H as <-.
    exists (DenseM ty nd). split; [exact HW|]. split; [reflexivity|]. cbn [m_reshape]. rewrite E. auto.
  - rewrite x_sh_reshape_wrap in H by lia. apply bind_ok in H as (nd & E & H).
    destruct (@sh_reshape_sound _ _ _ _ (wf_nonneg HW) HN HR E) as (L & N & T & P). cbn [m_dims] in P.
    apply bind_ok in H as (ns & ED & H). pose proof (@dims_new_ok_inv _ _ _ ED) as EN.
    assert (PD : fits_suffix d) by (apply positive_suffix; [apply prodZ_pos_inv; [apply HW|lia]|exact HB]).
    assert (PN : fits_suffix nd) by (apply positive_suffix; [apply prodZ_pos_inv; [exact N|lia]|lia]).
    apply bind_ok in H as (r' & X & H). apply bind_ok in H as ([nl ns'] & Y & H). apply bind_ok in H as (u & A & H). apply assert_ok in A.
    injection H as <-.
    pose proof (wf_strides HW) as HLs. cbn [m_strides m_dims] in HLs.
    assert (IS : Forall is_isize st).
    { injection HI as HI. rewrite <- HI. apply Forall_forall. intros x Hx. apply in_map_iff in Hx as (y & <- & _). apply as_isize_range. }
    assert (VR : rs_valid r' = true).
    { apply orb_true_iff in A as [A|A]; [|exact A]. apply Z.eqb_eq in A.
      destruct (@loop_wrap d nd PD PN st (length d) _ _ (init_rel EN true true) (init_linv d nd ns true) (Nat.le_refl _) (fun h => h)) as (q' & X' & R & LI & _).
      injection HI as HI. rewrite HI, X in X'. injection X' as <-. exfalso.
      set (s := reshape_loop (length d) d st nd _) in *. rewrite (sr_j R), (sr_nl R), (sr_ns R), (sr_st R) in Y.
      destruct (reshape_rest (rs_j s) nd (rs_new_len s) (rs_new_stride s) (rs_strides s)) as [nl2 ns2] eqn:RR.
      rewrite (@rest_wrap nd PN _ _ _ _ _ _ (li_j LI) (li_new LI) RR) in Y. injection Y as -> <-.
      pose proof (@reshape_rest_len _ _ _ _ _ _ _ (li_j LI) RR) as [_ RP]. specialize (RP (li_new LI)). lia. }
    destruct (@loop_lift d nd PD PN st (length d) IS HLs _ _ _ (init_rel EN true true) (init_linv d nd ns true) (Nat.le_refl _) eq_refl X VR)
      as (p & LP & AP & HF). destruct (HF p (fun i _ => eq_refl)) as (R & LI & V2).
    set (s := reshape_loop (length d) d p nd _) in *.
    rewrite (sr_j R), (sr_nl R), (sr_ns R), (sr_st R) in Y.
    destruct (reshape_rest (rs_j s) nd (rs_new_len s) (rs_new_stride s) (rs_strides s)) as [nl2 ns2] eqn:RR.
    rewrite (@rest_wrap nd PN _ _ _ _ _ _ (li_j LI) (li_new LI) RR) in Y. injection Y as -> <-.
    exists (StridedM t d p), (StridedM ty nd ns2). split; [|split; [|split]].
    + destruct HW as [W1 W2 W3 W4]. constructor; cbn in *; auto.
    + cbn [wrapm]. f_equal. apply list_ext0; [rewrite map_length; lia|]. intros i Hi. rewrite map_length in Hi. rewrite nth_wrap. apply AP. lia.
    + cbn [m_reshape]. rewrite E. cbn [bind]. rewrite ED. cbn [bind]. fold s. rewrite RR, V2, orb_true_r. reflexivity.
    + reflexivity.
Qed.
End Reshape.

(** ** Reshaping without elements *)

(** The loops never fail, store machine numbers and end with the wrapped number of elements. *)
Record rinv (nd : list Z) (j : nat) (nl nst : Z) (ns : list Z) : Prop := {
  ri_nl : as_usize nl = nl;
  ri_len : as_usize (nl * prodZ (firstn j nd)) = as_usize (prodZ nd);
  ri_j : (j <= length nd)%nat;
  ri_nst : is_isize nst;
  ri_ns : Forall is_isize ns;
  ri_lns : length ns = length nd
}.
Lemma Forall_upd (P : Z -> Prop) l i x : Forall P l -> P x -> Forall P (upd l i x).
Proof. intros H. revert i. induction H as [|y l Hy H IH]; intros [|i] Hx; cbn [upd]; constructor; auto. Qed.
Lemma firstn_more j : forall nd : list Z, (j < length nd)%nat -> firstn (S j) nd = firstn j nd ++ [nth j nd 0].
Proof.
  induction j as [|j IH]; intros [|d nd] H; cbn [length] in H; try lia; [reflexivity|].
  change (firstn (S (S j)) (d :: nd)) with (d :: firstn (S j) nd). rewrite IH by lia. reflexivity.
Qed.
Lemma rinv_step nd j nl nst ns : rinv nd (S j) nl nst ns ->
  rinv nd j (as_usize (nl * nth j nd 0)) (as_isize (nst * as_isize (nth j nd 0))) (upd ns j nst).
Proof.
  intros [R1 R2 R3 R4 R5 R6]. constructor; [apply as_usize_idem| |lia|apply as_isize_range|now apply Forall_upd|now rewrite upd_length].
  rewrite wrap_usize_mul, <- R2. f_equal. rewrite (@firstn_more j nd) by lia. rewrite prodZ_app, prodZ_cons. change (prodZ []) with 1. ring.
Qed.
Lemma inner_total nd j : forall ol nl nst ns, rinv nd j nl nst ns ->
  exists j' nl' nst' ns', x_reshape_inner false j nd ol nl nst ns = Ok (j', nl', nst', ns') /\ rinv nd j' nl' nst' ns'.
Proof.
  induction j as [|j IH]; intros ol nl nst ns R; cbn [x_reshape_inner]; [eauto 10|].
  rewrite u_res_false. cbn [bind]. destruct (_ >? _); [eauto 10|]. rewrite i_res_false. cbn [bind]. apply IH. now apply rinv_step.
Qed.
Lemma loop_total dims strides nd n : Forall is_isize strides -> (n <= length strides)%nat ->
  forall s, rinv nd (rs_j s) (rs_new_len s) (rs_new_stride s) (rs_strides s) ->
  exists r, x_reshape_loop false n dims strides nd s = Ok r /\ rinv nd (rs_j r) (rs_new_len r) (rs_new_stride r) (rs_strides r).
Proof.
  intros HS. induction n as [|n IH]; intros HL s R; cbn [x_reshape_loop]; [eauto|].
  unfold x_reshape_step. rewrite u_res_false. cbn [bind]. rewrite i_res_false. cbn [bind].
  destruct (@inner_total nd (rs_j s) (as_usize (rs_old_len s * nth n dims 0)) (rs_new_len s)
    (if rs_old_len s =? rs_new_len s then nth n strides 0 else rs_new_stride s) (rs_strides s)) as (j' & nl' & nst' & ns' & E & R').
  { destruct R. constructor; auto. destruct (_ =? _); [|assumption]. apply (Forall_nth is_isize); [exact HS|lia]. }
  rewrite E. cbn [bind]. apply IH; [lia|]. exact R'.
Qed.
Lemma rest_total nd j : forall nl nst ns, rinv nd j nl nst ns ->
  exists ns', x_reshape_rest false j nd nl nst ns = Ok (as_usize (prodZ nd), ns') /\ Forall is_isize ns' /\ length ns' = length nd.
Proof.
  induction j as [|j IH]; intros nl nst ns R; cbn [x_reshape_rest].
  - destruct R as [R1 R2 R3 R4 R5 R6]. exists ns. cbn [firstn] in R2. change (prodZ []) with 1 in R2. rewrite Z.mul_1_r in R2.
    split; [congruence|auto].
  - rewrite u_res_false. cbn [bind]. rewrite i_res_false. cbn [bind]. apply IH. now apply rinv_step.
Qed.
Lemma x_reshape_empty t d st ty req nd : Forall is_isize st -> length st = length d -> prodZ d = 0 -> prodZ nd = 0 -> sh_reshape d ty req = Ok nd ->
  dims_new ty (length nd) = Ok (repeat 0 (length nd)) ->
  exists ns, x_reshape false (StridedM t d st) ty req = Ok (StridedM ty nd ns) /\ Forall is_isize ns /\ length ns = length nd.
Proof.
  intros HS HL HP HN E ED. cbn [x_reshape]. rewrite x_sh_reshape_wrap, E by (rewrite HP; unfold usize_max; lia). cbn [bind]. rewrite ED. cbn [bind].
  destruct (@loop_total d st nd (length d) HS ltac:(lia)
    {| rs_old_len := 1; rs_new_len := 1; rs_old_stride := 1; rs_new_stride := 1; rs_valid := true; rs_j := length nd; rs_strides := repeat 0 (length nd) |})
    as (r & X & R).
  { constructor; cbn [rs_j rs_new_len rs_new_stride rs_strides]; [reflexivity| |lia|apply small_isize; unfold isize_max; lia| |apply repeat_length].
    - rewrite firstn_all, Z.mul_1_l. reflexivity.
    - apply Forall_forall. intros x Hx. apply repeat_spec in Hx. subst x. apply small_isize. unfold isize_max. lia. }
  rewrite X. cbn [bind]. destruct (rest_total R) as (ns & Y & N1 & N2). rewrite Y. cbn [bind]. exists ns.
  rewrite assert_true; [auto|]. rewrite HN. reflexivity.
Qed.

(** ** Addresses that agree modulo [2 ^ 64] agree *)

Lemma dot_cong s : forall idx, as_isize (dot (map as_isize s) idx) = as_isize (dot s idx).
Proof.
  induction s as [|x s IH]; intros [|i idx]; try reflexivity. cbn [map dot].
  rewrite <- wrap_add, IH, wrap_mul_l, wrap_add. reflexivity.
Qed.
Lemma addr_cong v idx : wf_map (v_map v) -> length idx = length (v_dims v) -> as_isize (v_addr (wrapv v) idx) = as_isize (v_addr v idx).
Proof.
  intros HW HL. destruct (m_layout (v_map v)) eqn:EL.
  - destruct v as [p [t d|t d st]]; [reflexivity|discriminate].
  - rewrite !v_addr_dot; [|exact HW|exact HL|apply wrapm_wf; exact HW|now rewrite wrapv_dims].
    unfold wrapv. cbn [v_ptr v_map]. rewrite wrap_strides by exact EL. rewrite <- wrap_add, dot_cong, wrap_add. reflexivity.
Qed.

Lemma step_down idx : Forall (fun i => 0 <= i) idx -> 0 < fold_right Z.add 0 idx ->
  exists i, (i < length idx)%nat /\ 0 < nth i idx 0 /\ fold_right Z.add 0 (upd idx i (nth i idx 0 - 1)) = fold_right Z.add 0 idx - 1.
Proof.
  induction 1 as [|x idx Hx H IH]; intros HS; cbn [fold_right] in HS; [lia|]. destruct (Z.eq_dec x 0) as [->|NE].
  - destruct (IH ltac:(lia)) as (i & I1 & I2 & I3). exists (S i). cbn [length nth upd fold_right]. split; [lia|]. split; [exact I2|]. rewrite I3. lia.
  - exists 0%nat. cbn [length nth upd fold_right]. split; [lia|]. split; [lia|]. lia.
Qed.
Lemma sum_nonneg idx : Forall (fun i => 0 <= i) idx -> 0 <= fold_right Z.add 0 idx.
Proof. induction 1; cbn [fold_right]; lia. Qed.
Lemma sum_zero idx : Forall (fun i => 0 <= i) idx -> fold_right Z.add 0 idx = 0 -> idx = repeat 0 (length idx).
Proof.
  induction 1 as [|x idx Hx H IH]; [reflexivity|]. cbn [fold_right length repeat]. intros E. pose proof (sum_nonneg H). f_equal; [lia|]. apply IH. lia.
Qed.
Lemma bounds_nonneg dims idx : in_bounds dims idx -> Forall (fun i => 0 <= i) idx.
Proof. induction 1; constructor; auto. lia. Qed.

Lemma cong_exact n w A : n <= isize_max -> wf_map (v_map w) -> Forall is_isize (m_strides (v_map w)) -> 0 <= v_ptr w < n ->
  (forall idx, in_bounds (v_dims w) idx -> 0 <= A idx < n /\ as_isize (v_addr w idx) = as_isize (A idx)) ->
  forall idx, in_bounds (v_dims w) idx -> v_addr w idx = A idx.
Proof.
  intros HN HW HS HP HA.
  pose proof (wf_strides HW) as HL. fold (v_dims w) in HL.
  assert (SB : forall i, positive (v_dims w) -> (i < length (v_dims w))%nat -> 1 < nth i (v_dims w) 0 -> Z.abs (nth i (m_strides (v_map w)) 0) < n).
  { intros i PP HI HD. set (s := nth i (m_strides (v_map w)) 0).
    assert (IS : is_isize s) by (apply (Forall_nth is_isize); [exact HS|lia]).
    assert (B : in_bounds (v_dims w) (upd (repeat 0 (length (v_dims w))) i 1)).
    { apply in_bounds_intro; [rewrite upd_length, repeat_length; reflexivity|]. intros j Hj.
      destruct (Nat.eq_dec i j) as [<-|NE].
      - rewrite upd_nth_same by (rewrite repeat_length; lia). lia.
      - rewrite upd_nth_other by exact NE. rewrite nth_repeat0. pose proof (positive_nth PP Hj). lia. }
    destruct (HA _ B) as [R1 C]. rewrite v_addr_dot in C by (auto; rewrite upd_length, repeat_length; reflexivity).
    rewrite dot_upd in C by (rewrite ?repeat_length; lia). rewrite dot_zeros, nth_repeat0 in C. fold s in C.
    apply wrap_close in C; unfold is_isize, isize_min, isize_max in *; lia. }
  intros idx HB. pose proof (bounds_nonneg HB) as NN. pose proof (in_bounds_dims HB) as PP.
  remember (Z.to_nat (fold_right Z.add 0 idx)) as k eqn:EK. revert idx HB NN EK.
  induction k as [|k IH]; intros idx HB NN EK; pose proof (sum_nonneg NN) as S0; destruct (HA _ HB) as [R C].
  - rewrite (sum_zero NN) in * by lia. rewrite v_addr_dot, dot_zeros in * by (auto; rewrite repeat_length; now apply in_bounds_length).
    apply wrap_close in C; unfold isize_max in *; lia.
  - destruct (step_down NN ltac:(lia)) as (i & I1 & I2 & I3). pose proof (in_bounds_length HB) as LI.
    set (idx' := upd idx i (nth i idx 0 - 1)) in *.
    assert (HB' : in_bounds (v_dims w) idx').
    { apply in_bounds_intro; [unfold idx'; now rewrite upd_length|]. intros j Hj. pose proof (SpecFacts.in_bounds_nth HB Hj) as Q. unfold idx'.
      destruct (Nat.eq_dec i j) as [<-|NE]; [rewrite upd_nth_same by lia|rewrite upd_nth_other by exact NE]; lia. }
    pose proof (SpecFacts.in_bounds_nth HB (i := i) ltac:(lia)) as Q.
    assert (E : v_addr w idx = v_addr w idx' + nth i (m_strides (v_map w)) 0).
    { rewrite !v_addr_dot by (auto; unfold idx'; now rewrite ?upd_length). unfold idx'. rewrite dot_upd by lia. lia. }
    rewrite (IH idx' HB' (bounds_nonneg HB')) in E by lia. destruct (HA _ HB') as [R' _].
    pose proof (SB i PP ltac:(lia) ltac:(lia)). apply wrap_close in C; [exact C|]. rewrite E. unfold isize_max in *. lia.
Qed.
