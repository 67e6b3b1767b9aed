(** Allocators that may refuse, and arrays of zero-sized elements: facts about ReferRoom.v. *)
From Verif Require Import Base Spec SpecFacts Shape Mapping Index View Wf MappingFacts MapOps
  ReshapeFacts IndexFacts ViewFacts ViewMore PropsView.
From Verif Require Import Expr ExprSpec ExprFacts IterFacts SourceFacts ExprTree ExprMore PropsExpr.
From Verif Require Import Tensor TraceFacts TensorSpec TensorFacts ResizeFacts TensorOps DrainFacts OwnFacts
  ZipFacts OwnMore OpsFacts History HistoryFacts OwnProps PropsTensor PropsMore Program ProgramFacts PropsProgram.
From Verif Require Import Select SelectFacts PropsSelect Refer ReferFacts ReferRoom.
Unset Strict Implicit.

(** ** Calls whose requests are granted *)
Section Granted.
  Context {T C : Type} (al : allocator).

  Lemma reserve_granted n (p : parts T C) : al_ok al (zlen (p_items p) + n) = true ->
    vec_reserve al n p = vec_reserve (roomy al) n p.
  Proof. intros H. unfold vec_reserve, roomy. cbn [al_ok al_grow]. now rewrite H. Qed.

  Lemma wmp_ext {A} (m m' : shty -> M (parts T C) A) (t : tensor T) w : tensor_ok t ->
    m (tn_ty t) (mkParts (tn_mem t) (tn_cap t) (tn_dims t) w) = m' (tn_ty t) (mkParts (tn_mem t) (tn_cap t) (tn_dims t) w) ->
    with_mut_parts m (t, w) = with_mut_parts m' (t, w).
  Proof. intros Ht E. unfold with_mut_parts. rewrite (to_vec_ok Ht). now rewrite E. Qed.

  Lemma expand_granted {Y} (e : expression Y) (cl : Y -> C -> call T C) (t : tensor T) w : tensor_ok t ->
    al_ok al (zlen (tn_mem t) + sh_len (e_dims e)) = true ->
    tn_expand al e cl (t, w) = tn_expand (roomy al) e cl (t, w).
  Proof.
    intros Ht H. unfold tn_expand, seqM at 1 4. rewrite !check_outer_spec. destruct (outer_ok t); auto.
    destruct (0 <? _); auto. apply wmp_ext; auto. unfold seqM. now rewrite reserve_granted.
  Qed.

  Lemma extend_granted (ys : list (C -> call T C)) : forall p : parts T C,
    (forall n, n <= zlen (p_items p) + zlen ys -> al_ok al n = true) ->
    vec_extend al ys p = vec_extend (roomy al) ys p.
  Proof.
    induction ys as [|f ys IH]; intros p H; [reflexivity|]. cbn [vec_extend]. unfold seqM.
    unfold zlen in H. cbn [length] in H.
    destruct (vec_call f p) as [x q|q| |] eqn:E; auto.
    assert (EI : p_items q = p_items p) by (unfold vec_call in E; destruct (f _); inversion E; reflexivity).
    rewrite reserve_granted by (apply H; rewrite EI; unfold zlen; lia).
    destruct (vec_reserve (roomy al) 1 q) as [[] q'|q'| |] eqn:E'; auto.
    assert (EI' : p_items q' = p_items q) by (unfold vec_reserve in E'; destruct (_ <=? _); [|cbn in E']; inversion E'; reflexivity).
    destruct (vec_write x q') as [[] q''|q''| |] eqn:E''; auto. apply IH.
    unfold vec_write in E''. destruct (_ <? _); inversion E''; subst q''. cbn [p_items]. intros n Hn. apply H.
    rewrite EI', EI in Hn. unfold zlen in Hn. rewrite app_length in Hn. cbn [length] in Hn. lia.
  Qed.

  Lemma resize_granted new (f : C -> call T C) (t : tensor T) w : tensor_ok t -> nonneg new ->
    (fits new -> al_ok al (prodZ new) = true) ->
    tn_resize_with al new f (t, w) = tn_resize_with (roomy al) new f (t, w).
  Proof.
    intros Ht HN H. unfold tn_resize_with, seqM at 1 3. destruct (check _ _) as [? s| | |] eqn:EC; auto.
    assert (s = (t, w)) as -> by (unfold check in EC; destruct (_ =? _)%nat; inversion EC; auto).
    destruct new as [|d ds]; auto. destruct (checked_len_cases (d :: ds)) as [F|E].
    2:{ now rewrite E. }
    rewrite checked_len_fits by auto. apply wmp_ext; auto. unfold seqM.
    destruct (prodZ (d :: ds) =? 0); auto. destruct (slice_eqb _ _).
    - unfold vec_resize_with. cbn [p_items]. destruct (_ <? _); auto. unfold seqM.
      rewrite reserve_granted; auto. cbn [p_items]. rewrite Zplus_minus. auto.
    - unfold resize_copy. cbn [roomy al_ok al_grow]. now rewrite H.
  Qed.

  Lemma assign_len cl src : forall i (p q : parts T C), assign_loop cl i src p = Done tt q ->
    length (p_items q) = length (p_items p).
  Proof.
    induction src as [|x src IH]; intros i p q E; cbn [assign_loop] in E.
    - unfold ret in E. now inversion E.
    - unfold seqM in E. destruct (vec_call _ p) as [y p'|p'| |] eqn:EV; try discriminate.
      assert (EI : p_items p' = p_items p) by (unfold vec_call in EV; destruct (cl _ _); inversion EV; reflexivity).
      destruct (nth_error _ i) as [old|]; [|discriminate]. apply IH in E. rewrite E. cbn [p_items]. now rewrite upd_length, EI.
  Qed.

  Lemma clone_from_granted cl (src : list T) dims (t : tensor T) (w : world T C) : tensor_ok t ->
    (forall n, n <= zlen src -> al_ok al n = true) ->
    tn_clone_from al cl src dims (t, w) = tn_clone_from (roomy al) cl src dims (t, w).
  Proof.
    intros Ht H. unfold tn_clone_from. apply wmp_ext; auto. unfold vec_clone_from, vec_truncate, seqM. cbn [p_items p_cap p_dims p_w].
    set (its := firstn (Z.to_nat (zlen src)) (tn_mem t)). set (n := length its).
    destruct (assign_loop _ _ _ _) as [[] q|q| |] eqn:E; auto.
    rewrite reserve_granted; auto. apply H. apply assign_len in E. cbn [p_items] in E. fold n in E.
    unfold zlen. rewrite E, skipn_length. assert (n <= length src)%nat; [|lia].
    unfold n, its. rewrite firstn_length. unfold zlen. lia.
  Qed.
End Granted.

Lemma append_granted {T C} al (t u : tensor T) (w : world T C) : tensor_ok t -> tensor_ok u ->
  al_ok al (zlen (tn_mem t) + zlen (tn_mem u)) = true ->
  tn_append al (t, u, w) = tn_append (roomy al) (t, u, w).
Proof.
  intros Ht Hu H. destruct (outer_ok u) eqn:HO; [|now rewrite !append_other].
  destruct (drain_all Hu HO) as (_ & _ & ED & _).
  unfold tn_append. rewrite append_drain by auto. rewrite expand_granted; auto.
  rewrite ED. cbn [e_drain e_dims d_view]. rewrite sh_len_prod, <- (to_len Hu). exact H.
Qed.


(** ** Programs whose requests are granted *)
Section Roomy.
  Context {T C : Type} (al : allocator) (most : Z) (Hal : grants al most).

  Lemma on_var_ext i (m m' : M (tensor T * world T C) unit) (st : state T C) :
    (forall t, var st i = Some t -> m (t, st_w st) = m' (t, st_w st)) -> on_var i m st = on_var i m' st.
  Proof. intros H. unfold on_var. destruct (var st i) as [t|]; auto. now rewrite (H t eq_refl). Qed.

  Lemma code_granted (k : act T C) (st : state T C) l : consistent st l -> act_ok k (seen st) -> asks k (seen st) <= most ->
    exec al (code k st) st = exec (roomy al) (code k st) st.
  Proof.
    intros HC HO HA.
    assert (OK : forall i t, var st i = Some t -> tensor_ok t) by (intros i t; apply (var_ok HC)).
    destruct k; try reflexivity; cbn [code exec step].
    - cbn [asks] in HA. unfold create, tn_with_capacity, seqM. cbn [roomy al_ok al_grow]. now rewrite (Hal HA).
    - apply on_var_ext. intros t E. unfold asks, on in HA. rewrite rvar_seen, E in HA. cbn [option_map one_asks as_arr a_els] in HA.
      apply wmp_ext; [eauto|]. now apply reserve_granted, Hal.
    - apply on_var_ext. intros t E. unfold asks, act_ok, on in HA, HO. rewrite rvar_seen, E in HA, HO. cbn [option_map] in HA, HO.
      destruct HO as [HL HW]. destruct (lends_ok HC HL) as (u & v & LO). cbn [one_asks] in HA. rewrite rvar_seen, (le_var LO) in HA.
      cbn [option_map as_arr a_els a_dims] in HA. apply expand_granted; [eauto|]. apply Hal.
      assert (WW : walked (as_arr u) ops) by (apply HW; now rewrite rvar_seen, (le_var LO)).
      assert (VR : visits_right v) by (eapply walked_visits; [apply LO|apply LO|exact WW]).
      destruct (lent_collect LO VR) as (_ & ED & _). cbv zeta in ED. rewrite sh_len_prod, ED, (le_dims LO). exact HA.
    - apply on_var_ext. intros t E. unfold asks, on in HA. rewrite rvar_seen, E in HA. cbn [option_map one_asks as_arr a_els] in HA.
      apply wmp_ext; [eauto|]. unfold seqM. rewrite (@extend_granted T C al ys); auto. cbn [p_items]. intros n Hn. apply Hal. lia.
    - apply on_var_ext. intros t E. unfold asks, act_ok, on in HA, HO. rewrite rvar_seen, E in HA, HO. cbn [option_map one_asks one_ok] in HA, HO.
      apply resize_granted; [eauto|apply HO|]. intros F. apply fitsb_spec in F. rewrite F in HA. auto.
    - apply on_var_ext. intros t E. unfold asks, act_ok, on in HA, HO. rewrite rvar_seen, E in HA, HO. cbn [option_map one_asks one_ok] in HA, HO.
      unfold tn_resize. rewrite resize_granted; [auto|eauto|apply HO|]. intros F. apply fitsb_spec in F. rewrite F in HA. auto.
    - unfold asks, on in HA. destruct (var st j) as [u|] eqn:EJ; auto. apply on_var_ext. intros t E.
      rewrite rvar_seen, E in HA. cbn [option_map one_asks] in HA. rewrite rvar_seen, EJ in HA. cbn [option_map as_arr a_els] in HA.
      apply clone_from_granted; [eauto|]. intros n Hn. apply Hal. lia.
    - unfold asks, on in HA. destruct (var st i) as [t|] eqn:E; auto. destruct (var st j) as [u|] eqn:EJ; auto.
      rewrite rvar_seen, E in HA. cbn [option_map one_asks] in HA. rewrite rvar_seen, EJ in HA. cbn [option_map as_arr a_els] in HA.
      rewrite append_granted; eauto.
  Qed.

  Lemma roomy_never n : al_ok (roomy al) n = true.
  Proof. reflexivity. Qed.

  Theorem granted_step (k : act T C) (st : state T C) l : consistent st l -> act_ok k (seen st) -> asks k (seen st) <= most ->
    exists st' more, exec al (code k st) st = Done tt st' /\ consistent st' (l ++ more) /\ seen st' = r_do k (seen st).
  Proof. intros HC HO HA. rewrite (code_granted HC HO HA). apply do_step; auto. Qed.

  Theorem granted_run (p : list (act T C)) : forall (st : state T C) l, consistent st l -> acts_ok p (seen st) -> asks_most most p (seen st) ->
    exists st' more, run_prog al (map code p) st = Done tt st' /\ consistent st' (l ++ more) /\ seen st' = r_run p (seen st).
  Proof.
    induction p as [|k p IH]; intros st l HC HO HA; cbn [map run_prog r_run acts_ok asks_most] in *.
    - exists st, []. rewrite app_nil_r. auto.
    - destruct HO as [H1 H2]. destruct HA as [A1 A2]. destruct (granted_step HC H1 A1) as (st1 & m1 & E1 & C1 & S1). rewrite <- S1 in H2, A2 |- *.
      destruct (IH st1 _ C1 H2 A2) as (st2 & m2 & E2 & C2 & S2). exists st2, (m1 ++ m2). unfold seqM. rewrite E1.
      split; [exact E2|]. split; [now rewrite app_assoc|exact S2].
  Qed.
End Roomy.

(** ** Refused requests *)

Lemma expand_over {T Y C} al (e : expression Y) (cl : Y -> C -> call T C) (t : tensor T) (w : world T C) : tensor_ok t ->
  0 < sh_len (e_dims e) -> tn_cap t < zlen (tn_mem t) + sh_len (e_dims e) -> al_ok al (zlen (tn_mem t) + sh_len (e_dims e)) = false ->
  tn_expand al e cl (t, w) = Unwound (t, w).
Proof.
  intros Ht H0 HC HA. unfold tn_expand, seqM at 1. rewrite check_outer_spec. destruct (outer_ok t); auto.
  destruct (Z.ltb_spec 0 (sh_len (e_dims e))); [|lia].
  destruct (start_pok w Ht) as [_ I]. eapply wmp_unwound_eq; [exact Ht| |exact I|destruct t; reflexivity].
  unfold seqM, vec_reserve. cbn [p_items p_cap]. destruct (Z.leb_spec (zlen (tn_mem t) + sh_len (e_dims e)) (tn_cap t)); [lia|]. now rewrite HA.
Qed.

Lemma append_over {T C} al (t u : tensor T) (w : world T C) m dt : tensor_ok t -> tensor_ok u -> has_rows u m dt ->
  0 < zlen (tn_mem u) -> tn_cap t < zlen (tn_mem t) + zlen (tn_mem u) -> al_ok al (zlen (tn_mem t) + zlen (tn_mem u)) = false ->
  tn_append al (t, u, w) = Unwound (t, mkTensor (tn_ty u) (0 :: dt) [] (tn_cap u), w_drop (tn_mem u) w).
Proof.
  intros Ht Hu HU H0 HC HA. pose proof (has_rows_ok HU) as HO.
  destruct (drain_all Hu HO) as (_ & _ & ED & _).
  assert (EV : sh_len (e_dims (e_drain (drained u 0 (nth 0 (tn_dims u) 0)))) = zlen (tn_mem u))
    by (rewrite ED; cbn [e_drain e_dims d_view]; rewrite sh_len_prod; symmetry; apply (to_len Hu)).
  unfold tn_append. rewrite append_drain by auto. rewrite expand_over by (rewrite ?EV; auto). cbn [w_clo w_dropped].
  pose proof (@OwnFacts.append_finish T C u w Hu HO 0%nat (w_dropped w) ltac:(lia)) as F. change (Z.of_nat 0) with 0 in F. rewrite F.
  unfold OwnFacts.emptied, w_drop. rewrite (proj1 HU). reflexivity.
Qed.

(** ** Counting *)
Section Count.
  Context {T C : Type}.
  Definition few (v : option (arr T)) : Prop := match v with Some a => zlen (a_els a) <= usize_max | None => True end.

  Lemma count_set i v (s : rstate T C) : countable s -> few v -> countable (r_set i v s).
  Proof. intros H1 H2. unfold countable, r_set. cbn [r_vars]. apply Forall_upd'; auto. Qed.
  Lemma count_new a (s : rstate T C) : countable s -> few (Some a) -> countable (r_new a s).
  Proof. intros H1 H2. unfold countable, r_new. cbn [r_vars]. apply Forall_app; auto. Qed.
  Lemma count_code c (s : rstate T C) : countable s -> countable (r_code c s).
  Proof. auto. Qed.
  Lemma count_hand xs (s : rstate T C) : countable s -> countable (r_hand xs s).
  Proof. auto. Qed.
  Lemma count_var (s : rstate T C) i a : countable s -> rvar s i = Some a -> zlen (a_els a) <= usize_max.
  Proof.
    intros H E. unfold rvar in E. destruct (nth_error (r_vars s) i) as [[b|]|] eqn:EN; inversion E; subst b.
    apply nth_error_In in EN. unfold countable in H. rewrite Forall_forall in H. exact (H _ EN).
  Qed.

  Lemma few_nil ty d : few (Some (mkArr ty d [])).
  Proof. cbn. discriminate. Qed.
  Lemma few_len (a : arr T) ty d xs : zlen (a_els a) <= usize_max -> (length xs <= length (a_els a))%nat -> few (Some (mkArr ty d xs)).
  Proof. intros H1 H2. cbn [few a_els]. unfold zlen in *. lia. Qed.

  Lemma written_len (a : arr T) ops news : (length (written a ops news) <= length (a_els a))%nat.
  Proof. unfold written. rewrite map_length, combine_length. lia. Qed.
  Lemma some_rows_len (els : list T) n lo hi : (length (some_rows els n lo hi) <= length els)%nat.
  Proof. unfold some_rows. rewrite firstn_length, skipn_length. lia. Qed.
  Lemma at_indices_len dims (els : list T) l : (length (at_indices dims els l) <= length l)%nat.
  Proof. unfold at_indices. induction l as [|x l IH]; cbn [flat_map length]; [lia|]. rewrite app_length. destruct (nth_error _ _); cbn [length]; lia. Qed.
  Lemma fill_le {I} (known : I -> option T) l vals : (length (fill_missing known l vals) <= length l)%nat.
  Proof.
    revert vals. induction l as [|i l IH]; intros vals; cbn [fill_missing length]; [lia|].
    destruct (known i); [pose proof (IH vals); cbn [length]; lia|]. destruct vals as [|v vals]; cbn [length]; [lia|]. pose proof (IH vals). lia.
  Qed.
  Lemma edit_count i (a : arr T) ops l (s : rstate T C) : countable s -> zlen (a_els a) <= usize_max -> countable (r_edit i a ops l s).
  Proof.
    intros H1 H2. unfold r_edit. destruct (edited _ _) as [[news c] b]. apply count_set; auto. apply (few_len (a := a)); auto. apply written_len.
  Qed.
  Lemma set_at_count i (a : arr T) ops idx h (s : rstate T C) : countable s -> zlen (a_els a) <= usize_max -> countable (r_set_at i a ops idx h s).
  Proof.
    intros H1 H2. unfold r_set_at. destruct (nth_error _ _); auto. destruct (h _ _) as [new c b]. apply count_set; auto.
    destruct new; [apply (few_len (a := a)); auto; now rewrite upd_length|exact H2].
  Qed.
  Lemma rows_dims (a : arr T) n ds : rows a = Some (n, ds) -> a_dims a = n :: ds.
  Proof. unfold rows. destruct (a_dims a); [discriminate|]. destruct (sh_head _); intros E; inversion E; reflexivity. Qed.
  Lemma resize_count i (a : arr T) new f (s : rstate T C) : nonneg new -> countable s -> zlen (a_els a) <= usize_max ->
    countable (r_resize i a new f s).
  Proof.
    intros HN H1 H2. unfold r_resize. destruct (_ && _) eqn:E; auto. apply andb_prop in E as [_ E]. apply fitsb_spec in E.
    destruct (gives _ _) as [[ys c] ok]. apply count_set; auto. destruct ok.
    - cbn [few a_els]. pose proof (fill_le (elem_at (a_dims a) (a_els a)) (indices new) ys) as L. rewrite indices_length in L by auto.
      pose proof (E (length new)) as F. rewrite firstn_all in F. pose proof (prodZ_nonneg HN). unfold zlen. lia.
    - destruct (if sizes_eq _ _ then _ else _); [exact H2|apply few_nil].
  Qed.
End Count.

Lemma gives_le {T C} (l : list (C -> call T C)) c ys c' b : gives l c = (ys, c', b) -> (length ys <= length l)%nat.
Proof. intros G. now apply gives_length in G. Qed.

(** ** Programs on zero-sized elements *)
Section ZstFacts.
  Context {T C : Type}.

  Lemma seen_full (st : state T C) : seen (full st) = seen st.
  Proof.
    unfold seen, full. cbn [st_vars st_w]. f_equal. rewrite map_map. apply map_ext. intros [t|]; reflexivity.
  Qed.
  Lemma full_consistent (st : state T C) l : consistent st l -> countable (seen st) -> consistent (full st) l.
  Proof.
    intros [H1 H2] HN. split.
    - unfold full. cbn [st_vars]. unfold countable, seen in HN. cbn [r_vars] in HN. rewrite Forall_map in *.
      rewrite Forall_forall in *. intros [t|] I; [|exact Logic.I]. specialize (H1 _ I). specialize (HN _ I). cbn in *.
      destruct H1. constructor; auto.
    - unfold full. cbn [st_vars st_w]. replace (held (map _ (st_vars st))) with (held (st_vars st)); [exact H2|].
      clear. unfold held. induction (st_vars st) as [|[t|] vs IH]; cbn [map flat_map option_map full_cap tn_mem]; [reflexivity| |]; now rewrite IH.
  Qed.

  Lemma count_do (k : act T C) (st : state T C) l : consistent st l -> countable (seen st) -> z_act_ok k (seen st) ->
    asks k (seen st) <= usize_max -> countable (r_do k (seen st)).
  Proof.
    intros HC HN [HO HZ] HA. set (s := seen st) in *.
    assert (ON : on k <> None -> countable (match on k with Some i => match rvar s i with Some a => r_one k a s | None => s end | None => s end)).
    { intros HI. destruct (on k) as [i1|] eqn:EI; [|congruence]. destruct (rvar s i1) as [a|] eqn:EA; auto.
      assert (HO' : one_ok k a s) by (destruct k; cbn [act_ok on] in *; try discriminate EI; injection EI as <-; now rewrite EA in HO).
      assert (HA' : one_asks k a s <= usize_max) by (unfold asks in HA; destruct k; cbn [on] in *; try discriminate EI; injection EI as <-; rewrite EA in HA; exact HA).
      clear HI HO HA. pose proof (count_var HN EA) as LA.
      destruct k; cbn [on] in EI; try discriminate EI; injection EI as <-; cbn [r_one]; auto.
      - destruct (gives _ _) as [[ys c] b] eqn:G. apply gives_le in G. rewrite map_length in G.
        destruct b; auto. apply count_new; auto. now apply (few_len (a := a)).
      - destruct (_ =? _); auto. apply count_set; auto; apply few_nil.
      - destruct (rows a) as [[n ds]|]; auto. apply count_set; auto. apply (few_len (a := a)); auto. apply some_rows_len.
      - destruct HO' as [HL HW]. destruct (lends_ok HC HL) as (u & v & LO). cbn [one_asks] in HA'.
        unfold s in HA' |- *. rewrite rvar_seen, (le_var LO) in HA' |- *. fold s. cbn [option_map as_arr a_dims a_els] in HA'. cbn [option_map].
        destruct (rows a) as [[n ds]|]; auto. destruct (gives _ _) as [[ys c] ok] eqn:G. apply gives_le in G. rewrite map_length in G.
        assert (LY : zlen ys <= prodZ (chain_dims (tn_dims u) ops)).
        { assert (L : (length (view_els (as_arr u) ops) <= length (indices (chain_dims (tn_dims u) ops)))%nat)
            by (unfold view_els; eapply Nat.le_trans; [apply at_indices_len|]; rewrite map_length; apply Nat.le_refl).
          rewrite <- (le_dims LO) in L |- *. assert (NN : nonneg (v_dims v)) by exact (wf_nonneg (vv_wf (le_valid LO))). rewrite indices_length in L by exact NN.
          pose proof (prodZ_nonneg NN). unfold zlen. lia. }
        pose proof (Nat2Z.is_nonneg (length (a_els a))) as LN. fold (zlen (a_els a)) in LN.
        cbn [as_arr a_dims].
        repeat match goal with |- context [if ?b then _ else _] => destruct b end; try destruct (chain_dims _ _) as [|m bt]; auto;
          repeat match goal with |- context [if ?b then _ else _] => destruct b end; auto; apply count_set; auto; try apply few_nil;
          cbn [few a_els]; unfold zlen in *; rewrite ?app_length; lia.
      - cbn [one_asks] in HA'. destruct (gives _ _) as [[xs c] ok] eqn:G. apply gives_le in G. apply count_set; auto.
        destruct ok; [cbn [few a_els]; unfold zlen in *; rewrite app_length; lia|]. destruct (nothing xs); [exact LA|apply few_nil].
      - apply resize_count; auto. apply HO'.
      - apply resize_count; auto. apply HO'.
      - destruct (rows a) as [[n ds]|] eqn:ER; auto. destruct (in_range _ _ _) eqn:EI; auto. apply count_hand, count_set; auto.
        unfold s in EA. rewrite rvar_seen in EA. destruct (var st i) as [t|] eqn:EV; [|discriminate]. injection EA as <-.
        pose proof (var_ok HC EV) as Ht. pose proof (rows_dims ER) as ED. cbn [as_arr a_dims a_els] in *. destruct HO' as (B1 & B2 & _).
        unfold in_range in EI. apply andb_prop in EI as [R1 R2]. apply Z.leb_le in R1, R2.
        assert (R0 : 0 <= range_lo lo) by (destruct lo; unfold bound_arg, usize, range_lo in *; lia).
        pose proof (to_nonneg Ht) as NN. pose proof (to_len Ht) as TL. rewrite ED in NN, TL. rewrite prodZ_cons in TL.
        apply Forall_cons_iff in NN as [N1 N2]. apply prodZ_nonneg in N2. cbn [few a_els]. unfold zlen in *. rewrite app_length.
        unfold some_rows. rewrite !firstn_length. set (p := range_lo lo) in *. set (q := range_hi n hi) in *. nia.
      - destruct (rvar s j) as [b|] eqn:EB; auto. pose proof (count_var HN EB) as LB.
        destruct (gives _ _) as [[ys c] ok] eqn:G. apply gives_le in G. rewrite map_length in G. apply count_set; auto.
        destruct ok; [now apply (few_len (a := b))|]. destruct (_ && _) eqn:EK; [|apply few_nil].
        apply andb_prop in EK as [K1 K2]. apply Nat.leb_le in K1. apply (few_len (a := a)); auto. rewrite app_length, skipn_length. lia.
      - cbn [one_asks] in HA'. destruct (rvar s j) as [b|] eqn:EB; auto. pose proof (count_var HN EB) as LB.
        destruct (rows a) as [[n ds]|]; auto. destruct (rows b) as [[m dt]|]; auto.
        repeat match goal with |- context [if ?x then _ else _] => destruct x end; apply count_set; try apply few_nil; auto; apply count_set; auto; cbn [few a_els]; auto.
        unfold zlen in *. rewrite app_length. lia.
      - apply count_set; auto. destruct (meets _ _); [exact LA|exact Logic.I].
      - apply count_set; auto. destruct (has_ty _ _); [exact LA|exact Logic.I].
      - apply count_set; auto.
      - destruct (rvar s j) as [b|]; auto. destruct (goes_with _ _); [|now apply count_set].
        destruct (gives _ _) as [[ys c] ok] eqn:G. apply gives_le in G. rewrite map_length, combine_length in G.
        destruct ok; apply count_hand, count_set; auto; apply (few_len (a := a)); auto; lia.
      - destruct (gives _ _) as [[ys c] ok] eqn:G. apply gives_le in G. rewrite map_length in G.
        destruct ok; apply count_hand, count_set; auto; apply (few_len (a := a)); auto.
      - apply count_hand, count_set; auto; exact Logic.I.
      - apply count_hand, count_set; auto; exact Logic.I.
      - apply count_set; auto; exact Logic.I.
      - destruct (chain_works _ _); auto. now apply edit_count.
      - destruct (rvar s j); auto. destruct (_ && _); auto. now apply edit_count.
      - destruct (chain_works _ _); auto. now apply edit_count.
      - destruct (chain_works _ _); auto. now apply edit_count.
      - destruct (_ && _); auto. now apply set_at_count.
      - destruct (_ && _); auto. now apply set_at_count.
      - destruct (_ && _); auto. now apply edit_count. }
    destruct k; try (apply ON; discriminate).
    - cbn [r_do]. destruct (_ && _); auto. apply count_new; auto; apply few_nil.
    - cbn [r_do]. apply count_new; auto.
  Qed.

  Lemma zst_grants : grants zst_alloc usize_max.
  Proof. intros n H. cbn. now apply Z.leb_le. Qed.

  Lemma full_var (st : state T C) i t : var (full st) i = Some t -> tn_cap t = usize_max.
  Proof.
    unfold var, full. cbn [st_vars]. rewrite nth_error_map. destruct (nth_error _ _) as [[u|]|]; cbn; intros E; inversion E. reflexivity.
  Qed.

  (** A refused request. *)
  Lemma over_step (k : act T C) (st : state T C) l : consistent st l -> countable (seen st) -> z_act_ok k (seen st) ->
    (forall i t, var st i = Some t -> tn_cap t = usize_max) -> usize_max < asks k (seen st) ->
    done_as (exec zst_alloc (code k st) st) (z_do k (seen st)).
  Proof.
    intros HC HN [HO HZ] HF HA. unfold z_do. destruct (Z.leb_spec (asks k (seen st)) usize_max); [lia|].
    assert (NO : forall n, usize_max < n -> al_ok zst_alloc n = false) by (intros n Hn; cbn; apply Z.leb_gt; exact Hn).
    destruct k; try (unfold asks, on in HA; destruct (rvar _ _) in HA; cbn [one_asks] in HA; discriminate HA); try discriminate HA.
    - cbn [asks] in HA. destruct HO as (H1 & H2 & H3). cbn [code exec step].
      destruct (@c61_with_capacity T C zst_alloc ty cap (st_w st) H1 H2 H3) as [((_ & _ & [E0|E0]) & _)|[_ E]].
      + rewrite E0 in HA. discriminate HA.
      + rewrite NO in E0 by exact HA. discriminate E0.
      + unfold create. rewrite E. eexists. split; [reflexivity|]. now destruct st.
    - cbn [code exec step]. unfold asks, on in HA. rewrite rvar_seen in HA. destruct (var st i) as [t|] eqn:EV; [|discriminate HA].
      cbn [option_map one_asks as_arr a_els] in HA. pose proof (var_ok HC EV) as Ht. pose proof (to_len Ht) as TL. unfold zlen in HA. rewrite TL in HA.
      destruct (@c61_reserve T C zst_alloc n t (st_w st) Ht) as [_ HR]. destruct HR as [E _].
      { split; [now apply NO|]. rewrite (HF i t EV). now apply Z.leb_gt. }
      eapply set_unwound; [eauto|exact E|]. apply (seen_same EV); reflexivity.
    - cbn [code exec step]. unfold asks, act_ok, on in HA, HO. rewrite rvar_seen in HA, HO. destruct (var st i) as [t|] eqn:EV; [|discriminate HA].
      cbn [option_map one_asks one_ok] in HA, HO. destruct HO as [HL HW]. destruct (lends_ok HC HL) as (u & v & LO).
      rewrite rvar_seen, (le_var LO) in HA. cbn [option_map as_arr a_els a_dims] in HA.
      assert (WW : walked (as_arr u) ops) by (apply HW; now rewrite rvar_seen, (le_var LO)).
      assert (VR : visits_right v) by (eapply walked_visits; [apply LO|apply LO|exact WW]).
      destruct (lent_collect LO VR) as (_ & ED & _). cbv zeta in ED.
      assert (LA : zlen (tn_mem t) <= usize_max) by (apply (count_var (i := i) (a := as_arr t) HN); now rewrite rvar_seen, EV).
      rewrite <- (le_dims LO), <- ED, <- sh_len_prod in HA.
      eapply set_unwound; [eauto|apply expand_over; [exact (var_ok HC EV)|lia|rewrite (HF i t EV); lia|now apply NO]|].
      apply (seen_same EV); reflexivity.
    - lia.
    - exfalso. unfold asks, on in HA. rewrite rvar_seen in HA. destruct (var st i) as [t|] eqn:EV; [|discriminate HA].
      cbn [option_map one_asks] in HA. destruct (fitsb dims) eqn:EF; [|discriminate HA]. apply fitsb_spec in EF.
      pose proof (EF (length dims)) as F. rewrite firstn_all in F. lia.
    - exfalso. unfold asks, on in HA. rewrite rvar_seen in HA. destruct (var st i) as [t|] eqn:EV; [|discriminate HA].
      cbn [option_map one_asks] in HA. destruct (fitsb dims) eqn:EF; [|discriminate HA]. apply fitsb_spec in EF.
      pose proof (EF (length dims)) as F. rewrite firstn_all in F. lia.
    - exfalso. unfold asks, on in HA. destruct (rvar _ i) in HA; [|discriminate HA].
      cbn [one_asks] in HA. destruct (rvar _ j) as [b|] eqn:EB in HA; [|discriminate HA]. pose proof (count_var HN EB). lia.
    - cbn [code exec step]. unfold asks, act_ok, on in HA, HO. rewrite rvar_seen in HA, HO. destruct (var st i) as [t|] eqn:EV; [|discriminate HA].
      cbn [option_map one_asks one_ok] in HA, HO. rewrite rvar_seen in HA |- *. destruct (var st j) as [u|] eqn:EJ; [|discriminate HA].
      cbn [option_map as_arr a_els] in HA. cbn [option_map]. destruct HO as (NE & _ & HJ).
      assert (LA : zlen (tn_mem t) <= usize_max) by (apply (count_var (i := i) (a := as_arr t) HN); now rewrite rvar_seen, EV).
      pose proof (HJ (as_arr u)) as RB. rewrite rvar_seen, EJ in RB. specialize (RB eq_refl). pose proof (rows_seen u) as RS.
      destruct (rows (as_arr u)) as [[m dt]|]; [|congruence].
      rewrite (@append_over T C zst_alloc t u (st_w st) m dt (var_ok HC EV) (var_ok HC EJ) RS) by (rewrite ?(HF i t EV); try (apply NO); lia).
      eexists. split; [reflexivity|]. rewrite !seen_set. cbn [option_map r_vars w_drop w_clo w_used]. unfold r_set.
      rewrite (upd_self (vars := r_vars (seen st)) (i := i)) by (now apply seen_nth). reflexivity.
  Qed.

  Lemma over_code_ok (k : act T C) (st : state T C) l : consistent st l -> act_ok k (seen st) -> 0 < asks k (seen st) ->
    cmd_ok (code k st) st.
  Proof.
    intros HC HO HA. destruct (on k) as [i|] eqn:EI.
    - destruct (var st i) as [t|] eqn:EV.
      + apply (one_code_ok HC EI EV). destruct k; cbn [act_ok on] in *; try discriminate EI; injection EI as <-; rewrite rvar_seen, EV in HO; exact HO.
      + exfalso. unfold asks in HA. destruct k; cbn [on] in *; try discriminate EI; injection EI as <-; rewrite rvar_seen, EV in HA; discriminate HA.
    - destruct k; try discriminate EI; [exact HO|discriminate HA].
  Qed.

  Theorem zst_step (k : act T C) (st : state T C) l : consistent st l -> countable (seen st) -> z_act_ok k (seen st) ->
    exists st' more, exec zst_alloc (code k (full st)) (full st) = Done tt st' /\ consistent st' (l ++ more) /\
      seen st' = z_do k (seen st) /\ countable (seen st').
  Proof.
    intros HC HN HO. pose proof (full_consistent HC HN) as HC'. rewrite <- seen_full in HN, HO |- *. set (fs := full st) in *.
    destruct (Z.le_gt_cases (asks k (seen fs)) usize_max) as [HA|HA].
    - destruct (granted_step zst_grants HC' (proj1 HO) HA) as (st' & more & E & C1 & S1). exists st', more. split; [exact E|]. split; [exact C1|].
      unfold z_do. rewrite (proj2 (Z.leb_le _ _) HA). split; [exact S1|]. rewrite S1. exact (count_do HC' HN HO HA).
    - destruct (over_step HC' HN HO (fun i t => @full_var st i t) HA) as (st' & E & S1).
      pose proof (@exec_ok T C zst_alloc _ fs l HC' (over_code_ok HC' (proj1 HO) ltac:(unfold usize_max in HA; lia))) as P. rewrite E in P.
      destruct P as (more & P & _). exists st', more. split; [exact E|]. split; [exact P|]. split; [exact S1|]. rewrite S1. unfold z_do.
      destruct (asks k (seen fs) <=? usize_max) eqn:EA; [apply Z.leb_le in EA; lia|]. destruct k; auto.
      destruct (rvar (seen fs) j) as [b|]; auto. destruct (rows b) as [[m dt]|]; auto. apply count_set; auto; apply few_nil.
  Qed.

  Theorem zst_refers (p : list (act T C)) : forall (st : state T C) l, consistent st l -> countable (seen st) -> z_acts_ok p (seen st) ->
    exists st' more, zst_prog (map code p) st = Done tt st' /\ consistent st' (l ++ more) /\ seen st' = z_run p (seen st) /\ countable (seen st').
  Proof.
    induction p as [|k p IH]; intros st l HC HN HO; cbn [map zst_prog z_run z_acts_ok] in *.
    - exists st, []. rewrite app_nil_r. auto.
    - destruct HO as [H1 H2]. destruct (zst_step HC HN H1) as (st1 & m1 & E1 & C1 & S1 & N1). rewrite <- S1 in H2 |- *.
      destruct (IH st1 _ C1 N1 H2) as (st2 & m2 & E2 & C2 & S2 & N2). exists st2, (m1 ++ m2). unfold seqM. rewrite E1.
      split; [exact E2|]. split; [now rewrite app_assoc|]. split; [exact S2|exact N2].
  Qed.

End ZstFacts.
