(** Machine arithmetic of [reshape] for strided views. *)
From Verif Require Import Base Spec SpecFacts Shape Mapping Index View Wf MappingFacts MapOps ReshapeFacts IndexFacts ViewFacts Machine MachineSpec MachineFacts MachineViews.
Unset Strict Implicit.

Lemma suffix_le j dims : positive dims -> 0 < prodZ (skipn j dims) <= prodZ dims.
Proof.
  intros HP. rewrite <- (firstn_skipn j dims) in HP. apply positive_app in HP. destruct HP as [P1 P2].
  pose proof (prodZ_pos P1). pose proof (prodZ_pos P2). rewrite <- (firstn_skipn j dims) at 3. rewrite prodZ_app. nia.
Qed.
Lemma suffix_step j dims : (S j <= length dims)%nat -> prodZ (skipn j dims) = prodZ (skipn (S j) dims) * nth j dims 0.
Proof. intros H. rewrite (@skipn_cons_nth Z j dims 0) by lia. rewrite prodZ_cons. ring. Qed.

(** The stride of the new dimensions in proportion to the stride of the old ones. *)
Definition prop_ok (ol nl os ns : Z) : Prop :=
  0 < nl /\ nl <= ol /\ os * nl = ns * ol /\ Z.abs os <= isize_max.

Lemma prop_new ol nl os ns : prop_ok ol nl os ns -> Z.abs ns <= isize_max.
Proof.
  intros (H1 & H2 & H3 & H4). assert (A : Z.abs os * nl = Z.abs ns * ol) by (rewrite <- (Z.abs_eq nl), <- (Z.abs_eq ol), <- !Z.abs_mul by lia; now rewrite H3).
  enough (Z.abs ns <= Z.abs os) by lia. nia.
Qed.
Lemma prop_grow ol nl os ns d : prop_ok ol nl os ns -> 0 < d -> nl * d <= ol -> prop_ok ol (nl * d) os (ns * d).
Proof. intros (H1 & H2 & H3 & H4) HD HL. repeat split; auto; nia. Qed.

(** Strides stored so far. *)
Definition stored (nd ns : list Z) (j : nat) : Prop :=
  length ns = length nd /\ forall t, (j <= t < length nd)%nat -> Z.abs (nth t ns 0) * Z.max 1 (nth t nd 0) <= isize_max.

Lemma stored_upd nd ns j s : stored nd ns (S j) -> (j < length nd)%nat -> 0 < nth j nd 0 -> Z.abs (s * nth j nd 0) <= isize_max -> stored nd (upd ns j s) j.
Proof.
  intros [HL HS] HJ HD HB. split; [now rewrite upd_length|]. intros t Ht. destruct (Nat.eq_dec j t) as [<-|NE].
  - rewrite upd_nth_same by lia. rewrite Z.abs_mul in HB. rewrite Z.max_r by lia. rewrite (Z.abs_eq (nth j nd 0)) in HB by lia. exact HB.
  - rewrite upd_nth_other by exact NE. apply HS. lia.
Qed.

Section Reshape.
Variable dbg : bool.
Variables dims strides nd : list Z.
Hypothesis HP : positive dims.
Hypothesis HPn : positive nd.
Hypothesis HL : length strides = length dims.
Hypothesis HE : prodZ nd = prodZ dims.
Hypothesis HB : prodZ dims <= isize_max.
Hypothesis HG : forall i, (i < length dims)%nat -> Z.abs (nth i strides 0) * Z.max 1 (nth i dims 0) <= isize_max.

Lemma nd_suffix_usize j : is_usize (prodZ (skipn j nd)).
Proof. pose proof (suffix_le j HPn). apply small_usize. lia. Qed.
Lemma nd_isize j : (j < length nd)%nat -> 0 < nth j nd 0 /\ is_isize (nth j nd 0).
Proof.
  intros HJ. pose proof (positive_nth HPn HJ) as H. split; [exact H|]. apply small_isize.
  pose proof (@mx_nth j nd) as M. rewrite mx_positive in M by exact HPn. lia.
Qed.
Lemma dim_isize j : (j < length dims)%nat -> 0 < nth j dims 0 /\ is_isize (nth j dims 0).
Proof.
  intros HJ. pose proof (positive_nth HP HJ) as H. split; [exact H|]. apply small_isize.
  pose proof (@mx_nth j dims) as M. rewrite mx_positive in M by exact HP. lia.
Qed.

Lemma x_inner_fit j : forall ol nl os nst ns j' nl' nst' ns', (j <= length nd)%nat -> nl = prodZ (skipn j nd) ->
  prop_ok ol nl os nst -> stored nd ns j ->
  reshape_inner j nd ol nl nst ns = (j', nl', nst', ns') ->
  x_reshape_inner dbg j nd ol nl nst ns = Ok (j', nl', nst', ns') /\
  (j' <= length nd)%nat /\ nl' = prodZ (skipn j' nd) /\ prop_ok ol nl' os nst' /\ stored nd ns' j'.
Proof.
  induction j as [|j IH]; intros ol nl os nst ns j' nl' nst' ns' HJ EN PO ST ER; cbn [reshape_inner x_reshape_inner] in *.
  { injection ER as <- <- <- <-. auto. }
  pose proof (suffix_step HJ) as SS. rewrite <- EN in SS. destruct (nd_isize HJ) as [NP NI].
  rewrite u_res_fit by (rewrite <- SS; apply nd_suffix_usize). cbn [bind].
  destruct (Z.gtb_spec (nl * nth j nd 0) ol) as [G|G].
  { injection ER as <- <- <- <-. repeat split; auto; apply PO || apply ST. }
  pose proof (prop_grow PO NP G) as PO'. rewrite as_isize_fit by exact NI.
  rewrite i_res_fit by (apply isize_abs; now apply prop_new in PO'). cbn [bind].
  apply (IH ol _ os _ _ j' nl' nst' ns'); auto; [lia|]. apply stored_upd; auto. now apply prop_new in PO'.
Qed.

Lemma x_inner_len j : forall ol nl nst ns, (j <= length nd)%nat -> nl = prodZ (skipn j nd) ->
  x_reshape_inner dbg j nd ol nl nst ns = Panic \/
  exists j' nst' ns', x_reshape_inner dbg j nd ol nl nst ns = Ok (j', prodZ (skipn j' nd), nst', ns') /\ (j' <= length nd)%nat.
Proof.
  induction j as [|j IH]; intros ol nl nst ns HJ EN; cbn [x_reshape_inner].
  { right. exists 0%nat, nst, ns. split; [now rewrite EN|lia]. }
  pose proof (suffix_step HJ) as SS. rewrite <- EN in SS.
  rewrite u_res_fit by (rewrite <- SS; apply nd_suffix_usize). cbn [bind].
  destruct (nl * nth j nd 0 >? ol).
  { right. exists (S j), nst, ns. split; [now rewrite EN|lia]. }
  destruct (tame_i dbg (nst * as_isize (nth j nd 0))) as [E|[a E]]; rewrite E; [now left|]. cbn [bind]. apply IH; [lia|]. now rewrite SS.
Qed.

Record linv (n : nat) (s : reshape_state) : Prop := {
  li_j : (rs_j s <= length nd)%nat;
  li_new : rs_new_len s = prodZ (skipn (rs_j s) nd);
  li_old : rs_old_len s = prodZ (skipn n dims)
}.
Record vinv (n : nat) (s : reshape_state) : Prop := {
  vi_len : linv n s;
  vi_prop : prop_ok (rs_old_len s) (rs_new_len s) (rs_old_stride s) (rs_new_stride s);
  vi_stored : stored nd (rs_strides s) (rs_j s)
}.

Lemma x_step_bad n s : (S n <= length dims)%nat -> linv (S n) s ->
  x_reshape_step dbg dims strides nd n s = Panic \/
  exists s', x_reshape_step dbg dims strides nd n s = Ok s' /\ linv n s' /\ rs_valid s' = rs_valid (reshape_step dims strides nd n s).
Proof.
  intros HN [H1 H2 H3]. unfold x_reshape_step. pose proof (suffix_step HN) as SS. rewrite <- H3 in SS.
  rewrite u_res_fit by (rewrite <- SS; pose proof (suffix_le n HP); apply small_usize; lia). cbn [bind].
  match goal with |- context [i_res dbg ?x] => destruct (tame_i dbg x) as [E|[a E]]; rewrite E end; [now left|]. cbn [bind].
  match goal with |- context [x_reshape_inner dbg ?j nd ?ol ?nl ?nst ?ns] => destruct (@x_inner_len j ol nl nst ns H1 H2) as [E2|(j' & nst' & ns' & E2 & E3)]; rewrite E2 end; [now left|].
  cbn [bind]. right. eexists. split; [reflexivity|]. split; [constructor; cbn; auto|].
  unfold reshape_step. match goal with |- context [reshape_inner ?j nd ?ol ?nl ?nst ?ns] => destruct (reshape_inner j nd ol nl nst ns) as [[[j2 nl2] nst2] ns2] end. reflexivity.
Qed.

Lemma x_step_good n s : (S n <= length dims)%nat -> vinv (S n) s -> rs_valid (reshape_step dims strides nd n s) = true ->
  x_reshape_step dbg dims strides nd n s = Ok (reshape_step dims strides nd n s) /\ vinv n (reshape_step dims strides nd n s).
Proof.
  intros HN [[H1 H2 H3] HO HT] HV. unfold x_reshape_step, reshape_step in *.
  pose proof (suffix_step HN) as SS. rewrite <- H3 in SS. destruct (dim_isize HN) as [NP NI].
  rewrite u_res_fit by (rewrite <- SS; pose proof (suffix_le n HP); apply small_usize; lia). cbn [bind].
  rewrite as_isize_fit by exact NI. destruct HO as (O1 & O2 & O3 & O4). specialize (HG HN) as G. set (st := nth n strides 0) in *. set (d := nth n dims 0) in *.
  rewrite Z.max_r in G by lia.
  destruct (Z.eqb_spec (rs_old_len s) (rs_new_len s)) as [SE|SE].
  - rewrite i_res_fit by (apply isize_abs; rewrite Z.abs_mul, (Z.abs_eq d) by lia; exact G). cbn [bind].
    destruct (reshape_inner (rs_j s) nd (rs_old_len s * d) (rs_new_len s) st (rs_strides s)) as [[[j2 nl2] nst2] ns2] eqn:ER.
    assert (PO : prop_ok (rs_old_len s * d) (rs_new_len s) (st * d) st).
    { repeat split; auto; [nia|rewrite <- SE; ring|]. rewrite Z.abs_mul, (Z.abs_eq d) by lia. exact G. }
    destruct (x_inner_fit H1 H2 PO HT ER) as (E & F1 & F2 & F3 & F4).
    rewrite E. cbn [bind]. split; [reflexivity|]. constructor; cbn; auto. constructor; cbn; auto.
  - destruct (reshape_inner (rs_j s) nd (rs_old_len s * d) (rs_new_len s) (rs_new_stride s) (rs_strides s)) as [[[j2 nl2] nst2] ns2] eqn:ER.
    cbn [rs_valid] in HV. apply andb_true_iff in HV. destruct HV as [V1 V2]. apply Z.eqb_eq in V2.
    rewrite i_res_fit by (apply isize_abs; rewrite V2, Z.abs_mul, (Z.abs_eq d) by lia; exact G). cbn [bind].
    assert (PO : prop_ok (rs_old_len s * d) (rs_new_len s) (rs_old_stride s * d) (rs_new_stride s)).
    { repeat split; auto; [nia| |].
      - replace (rs_old_stride s * d * rs_new_len s) with (rs_old_stride s * rs_new_len s * d) by ring. rewrite O3. ring.
      - rewrite V2, Z.abs_mul, (Z.abs_eq d) by lia. exact G. }
    destruct (x_inner_fit H1 H2 PO HT ER) as (E & F1 & F2 & F3 & F4).
    rewrite E. cbn [bind]. split; [reflexivity|]. constructor; cbn; auto. constructor; cbn; auto.
Qed.

Lemma x_loop_bad n : forall s, (n <= length dims)%nat -> linv n s -> rs_valid s = false ->
  x_reshape_loop dbg n dims strides nd s = Panic \/
  exists s', x_reshape_loop dbg n dims strides nd s = Ok s' /\ linv 0 s' /\ rs_valid s' = false.
Proof.
  induction n as [|n IH]; intros s HN HI HV; cbn [x_reshape_loop]; [right; eauto|].
  destruct (@x_step_bad n s HN HI) as [E|(s' & E & I' & V')]; rewrite E; [now left|]. cbn [bind]. apply IH; auto; [lia|].
  rewrite V'. destruct (rs_valid (reshape_step dims strides nd n s)) eqn:EV; [|reflexivity].
  apply reshape_step_valid in EV. congruence.
Qed.

Lemma x_loop_fit n : forall s, (n <= length dims)%nat -> vinv n s ->
  (rs_valid (reshape_loop n dims strides nd s) = rs_valid s /\
   x_reshape_loop dbg n dims strides nd s = Ok (reshape_loop n dims strides nd s) /\ vinv 0 (reshape_loop n dims strides nd s)) \/
  (rs_valid (reshape_loop n dims strides nd s) = false /\
   (x_reshape_loop dbg n dims strides nd s = Panic \/
    exists s', x_reshape_loop dbg n dims strides nd s = Ok s' /\ linv 0 s' /\ rs_valid s' = false)).
Proof.
  induction n as [|n IH]; intros s HN HI; cbn [x_reshape_loop reshape_loop]; [left; auto|].
  destruct (rs_valid (reshape_step dims strides nd n s)) eqn:EV.
  - destruct (@x_step_good n s HN HI EV) as [E I']. rewrite E. cbn [bind]. assert (V0 : rs_valid s = true) by (revert EV; apply reshape_step_valid).
    destruct (IH (reshape_step dims strides nd n s) ltac:(lia) I') as [(A1 & A2 & A3)|A]; [left|right; exact A]. rewrite A1, EV, V0. auto.
  - right. split.
    { destruct (rs_valid (reshape_loop n dims strides nd (reshape_step dims strides nd n s))) eqn:EL; [|reflexivity].
      apply reshape_loop_valid in EL. congruence. }
    destruct (@x_step_bad n s HN (vi_len HI)) as [E|(s' & E & I' & V')]; rewrite E; [now left|]. cbn [bind].
    apply x_loop_bad; auto; [lia|]. now rewrite V'.
Qed.

Lemma x_rest_fit j : forall nl os nst ns nl' ns', (j <= length nd)%nat -> nl = prodZ (skipn j nd) ->
  prop_ok (prodZ nd) nl os nst -> stored nd ns j ->
  reshape_rest j nd nl nst ns = (nl', ns') ->
  x_reshape_rest dbg j nd nl nst ns = Ok (nl', ns') /\ stored nd ns' 0.
Proof.
  induction j as [|j IH]; intros nl os nst ns nl' ns' HJ EN PO ST ER; cbn [reshape_rest x_reshape_rest] in *.
  { injection ER as <- <-. auto. }
  pose proof (suffix_step HJ) as SS. rewrite <- EN in SS. destruct (nd_isize HJ) as [NP NI].
  rewrite u_res_fit by (rewrite <- SS; apply nd_suffix_usize). cbn [bind].
  assert (G : nl * nth j nd 0 <= prodZ nd) by (rewrite <- SS; apply suffix_le; exact HPn).
  pose proof (prop_grow PO NP G) as PO'. rewrite as_isize_fit by exact NI.
  rewrite i_res_fit by (apply isize_abs; now apply prop_new in PO'). cbn [bind].
  apply (IH _ os _ _ nl' ns'); auto; [lia|]. apply stored_upd; auto. now apply prop_new in PO'.
Qed.

Lemma x_rest_len j : forall nl nst ns, (j <= length nd)%nat -> nl = prodZ (skipn j nd) ->
  x_reshape_rest dbg j nd nl nst ns = Panic \/ exists ns', x_reshape_rest dbg j nd nl nst ns = Ok (prodZ nd, ns').
Proof.
  induction j as [|j IH]; intros nl nst ns HJ EN; cbn [x_reshape_rest].
  { right. exists ns. now rewrite EN. }
  pose proof (suffix_step HJ) as SS. rewrite <- EN in SS.
  rewrite u_res_fit by (rewrite <- SS; apply nd_suffix_usize). cbn [bind].
  destruct (tame_i dbg (nst * as_isize (nth j nd 0))) as [E|[a E]]; rewrite E; [now left|]. cbn [bind]. apply IH; [lia|]. now rewrite SS.
Qed.
End Reshape.

(** [reshape] of a non-empty mapping: exact and machine arithmetic agree, and the new mapping is gentle again. *)
Lemma x_reshape_fit dbg m ty req : wf_map m -> gentle m -> 0 < prodZ (m_dims m) -> nonneg req ->
  match sh_rank ty with Some k => length req = k | None => True end ->
  x_reshape dbg m ty req = m_reshape m ty req.
Proof.
  intros HW HG HP HN HK. pose proof (proj1 HG) as HR. destruct m as [ty0 dims|ty0 dims st]; cbn [m_dims] in *; cbn [x_reshape m_reshape].
  { rewrite x_sh_reshape_fit; [reflexivity|apply HW|]. now apply roomy_usize. }
  rewrite x_sh_reshape_fit; [|apply HW|now apply roomy_usize].
  destruct (sh_reshape dims ty req) as [nd| | |] eqn:ER; try reflexivity. cbn [bind].
  destruct (@sh_reshape_sound dims ty req nd (wf_nonneg HW) HN HK ER) as (L1 & N1 & T1 & E1). cbn [m_dims] in E1.
  destruct (dims_new_cases ty (length nd)) as [ED|ED]; rewrite ED; [|reflexivity]. cbn [bind].
  assert (PD : positive dims) by (apply prodZ_pos_inv; [apply HW|exact HP]).
  assert (PN : positive nd) by (apply prodZ_pos_inv; [exact N1|lia]).
  assert (B : prodZ dims <= isize_max). { unfold roomy in HR. rewrite mx_positive in HR by exact PD. exact HR. }
  pose proof (wf_strides HW) as HL. cbn [m_dims m_strides] in HL.
  set (s0 := {| rs_old_len := 1; rs_new_len := 1; rs_old_stride := 1; rs_new_stride := 1; rs_valid := true; rs_j := length nd; rs_strides := repeat 0 (length nd) |}).
  assert (I0 : vinv dims nd (length dims) s0).
  { constructor; [constructor; cbn; auto|..].
    - now rewrite skipn_all.
    - now rewrite skipn_all.
    - cbn. unfold prop_ok. unfold isize_max. repeat split; lia.
    - cbn. split; [apply repeat_length|]. intros t Ht. lia. }
  destruct (@x_loop_fit dbg dims st nd PD PN HL E1 B (proj2 HG) (length dims) s0 (le_n _) I0) as [(V & E & I)|(V & [E|(s' & E & I & V')])]; rewrite E; cbn [bind].
  - destruct I as [[J1 J2 J3] PO ST]. cbn [skipn] in J3. rewrite J3, <- E1 in PO.
    destruct (reshape_rest _ nd _ _ _) as [nl ns] eqn:RR.
    destruct (@x_rest_fit dbg dims st nd PN HL E1 B (proj2 HG) _ _ _ _ _ _ _ J1 J2 PO ST RR) as [E2 _]. rewrite E2. reflexivity.
  - destruct (reshape_rest _ nd _ _ _) as [nl ns] eqn:RR. rewrite V.
    assert (S0 : sinv nd (reshape_loop (length dims) dims st nd s0)).
    { apply reshape_loop_sinv. unfold s0, sinv. cbn. rewrite repeat_length, skipn_all. auto. }
    destruct S0 as (Q1 & Q2 & Q3). destruct (@reshape_rest_len _ nd _ _ _ _ _ Q1 RR) as [_ Q4]. rewrite (Q4 Q3).
    destruct (Z.eqb_spec (prodZ nd) 0); [lia|]. reflexivity.
  - assert (EM : forall (q : Z * list Z), (let '(new_len, ns) := q in let* _ := assert ((new_len =? 0) || rs_valid (reshape_loop (length dims) dims st nd s0)) in Ok (StridedM ty nd ns)) =
               (let '(new_len, ns) := q in let* _ := assert ((new_len =? 0) || false) in Ok (StridedM ty nd ns))) by (intros [? ?]; now rewrite V).
    rewrite EM. destruct (reshape_rest _ nd _ _ _) as [nl ns] eqn:RR.
    assert (S0 : sinv nd (reshape_loop (length dims) dims st nd s0)).
    { apply reshape_loop_sinv. unfold s0, sinv. cbn. rewrite repeat_length, skipn_all. auto. }
    destruct S0 as (Q1 & Q2 & Q3). destruct (@reshape_rest_len _ nd _ _ _ _ _ Q1 RR) as [_ Q4]. rewrite (Q4 Q3).
    destruct I as [J1 J2 J3].
    destruct (@x_rest_len dbg dims st nd PN HL E1 B (proj2 HG) (rs_j s') (rs_new_len s') (rs_new_stride s') (rs_strides s') J1 J2) as [E2|[ns' E2]]; rewrite E2; cbn [bind].
    + destruct (Z.eqb_spec (prodZ nd) 0); [lia|]. reflexivity.
    + rewrite V'. destruct (Z.eqb_spec (prodZ nd) 0); [lia|]. reflexivity.
Qed.

Lemma m_reshape_gentle m ty req m' : wf_map m -> gentle m -> 0 < prodZ (m_dims m) -> nonneg req ->
  match sh_rank ty with Some k => length req = k | None => True end ->
  m_reshape m ty req = Ok m' -> gentle m'.
Proof.
  intros HW HG HP HN HK ER'. pose proof (proj1 HG) as HR. destruct m as [ty0 dims|ty0 dims st]; cbn [m_dims] in *; cbn [m_reshape] in ER'.
  { destruct (sh_reshape dims ty req) as [nd| | |] eqn:ER; try discriminate. cbn [bind] in ER'. injection ER' as <-.
    destruct (@sh_reshape_sound dims ty req nd (wf_nonneg HW) HN HK ER) as (L1 & N1 & T1 & E1). cbn [m_dims] in E1.
    assert (PN : positive nd) by (apply prodZ_pos_inv; [exact N1|lia]). apply gentle_dense; auto.
    unfold roomy in *. rewrite mx_positive by exact PN.
    assert (PD : positive dims) by (apply prodZ_pos_inv; [apply HW|exact HP]). rewrite mx_positive in HR by exact PD. lia. }
  destruct (sh_reshape dims ty req) as [nd| | |] eqn:ER; try discriminate. cbn [bind] in ER'.
  destruct (@sh_reshape_sound dims ty req nd (wf_nonneg HW) HN HK ER) as (L1 & N1 & T1 & E1). cbn [m_dims] in E1.
  destruct (dims_new_cases ty (length nd)) as [ED|ED]; rewrite ED in ER'; [|discriminate]. cbn [bind] in ER'.
  assert (PD : positive dims) by (apply prodZ_pos_inv; [apply HW|exact HP]).
  assert (PN : positive nd) by (apply prodZ_pos_inv; [exact N1|lia]).
  assert (B : prodZ dims <= isize_max). { unfold roomy in HR. rewrite mx_positive in HR by exact PD. exact HR. }
  pose proof (wf_strides HW) as HL. cbn [m_dims m_strides] in HL.
  set (s0 := {| rs_old_len := 1; rs_new_len := 1; rs_old_stride := 1; rs_new_stride := 1; rs_valid := true; rs_j := length nd; rs_strides := repeat 0 (length nd) |}) in *.
  assert (I0 : vinv dims nd (length dims) s0).
  { constructor; [constructor; cbn; auto|..].
    - now rewrite skipn_all.
    - now rewrite skipn_all.
    - cbn. unfold prop_ok. unfold isize_max. repeat split; lia.
    - cbn. split; [apply repeat_length|]. intros t Ht. lia. }
  destruct (@x_loop_fit true dims st nd PD PN HL E1 B (proj2 HG) (length dims) s0 (le_n _) I0) as [(V & E & I)|(V & _)].
  - destruct I as [[J1 J2 J3] PO ST]. cbn [skipn] in J3. rewrite J3, <- E1 in PO.
    destruct (reshape_rest _ nd _ _ _) as [nl ns] eqn:RR.
    destruct (@x_rest_fit true dims st nd PN HL E1 B (proj2 HG) _ _ _ _ _ _ _ J1 J2 PO ST RR) as [E2 [SL SB]].
    destruct ((nl =? 0) || _); [|discriminate]. cbn [assert bind] in ER'. injection ER' as <-. split.
    + cbn [m_dims]. unfold roomy. rewrite mx_positive by exact PN. lia.
    + cbn [m_dims m_strides]. intros i Hi. apply SB. lia.
  - exfalso. destruct (reshape_rest _ nd _ _ _) as [nl ns] eqn:RR. rewrite V in ER'.
    assert (S0 : sinv nd (reshape_loop (length dims) dims st nd s0)).
    { apply reshape_loop_sinv. unfold s0, sinv. cbn. rewrite repeat_length, skipn_all. auto. }
    destruct S0 as (Q1 & Q2 & Q3). destruct (@reshape_rest_len _ nd _ _ _ _ _ Q1 RR) as [_ Q4]. rewrite (Q4 Q3) in ER'.
    destruct (Z.eqb_spec (prodZ nd) 0); [lia|]. discriminate.
Qed.
