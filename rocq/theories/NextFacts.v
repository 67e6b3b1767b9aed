(** [next] on views: all calls, also those after the end.  In the strided case the pointer always
    is the base pointer moved by the outer index, so that after [None] the iterator is where it was
    after the first row. *)
From Verif Require Import Base Spec SpecFacts Shape Mapping Index View Wf MappingFacts MapOps ReshapeFacts.
From Verif Require Import IndexFacts ViewFacts ViewMore Expr ExprSpec ExprFacts IterFacts SourceFacts ExprTree ExprMore.
Unset Strict Implicit.

Lemma size_loop_eq n limit index len :
  length index = length limit -> (n <= length limit)%nat ->
  size_loop n limit index len = len * prodZ (firstn n limit) - flat (firstn n limit) (firstn n index).
Proof.
  revert n index len. induction limit as [|l limit IH]; intros [|n] [|i index] len H H2; simpl in *; try lia.
  rewrite IH by lia. fold (prodZ (firstn n limit)). nia.
Qed.

Section Strided.
  Variables (n : Z) (rep : bool) (v : view).
  Let e := e_view n rep v.
  Let D := v_dims v.
  Let r := length D.
  Let str := m_strides (v_map v).
  Let P := last D 0.
  Hypothesis Hs : v_layout v = Strided.
  Hypothesis Hr : (2 <= r)%nat.
  Hypothesis Hw : wf_map (v_map v).

  Lemma str_length : length str = r.
  Proof. unfold str, r, D, v_dims. apply (wf_strides Hw). Qed.

  Lemma ev_reset d c p : (d < r)%nat -> e_reset e d c p = Ok (p + - nth d str 0 * c).
  Proof. intros H. unfold e. cbn [e_view e_reset]. rewrite m_stride_ok; [reflexivity|apply (wf_strides Hw)|exact H]. Qed.

  Lemma ev_step d p : (d < r)%nat -> e_step e d p = Ok (p + nth d str 0).
  Proof. intros H. unfold e. cbn [e_view e_step]. rewrite m_stride_ok; [reflexivity|apply (wf_strides Hw)|exact H]. Qed.

  Lemma ev_outer : outer_rank e = (r - 1)%nat.
  Proof. unfold e. rewrite view_outer, Hs. reflexivity. Qed.

  Lemma ev_skip : skipn (r - 1) D = [P].
  Proof.
    unfold P, r. destruct (@exists_last _ D) as (l & x & E).
    { intros E. unfold r in Hr. rewrite E in Hr. cbn in Hr. lia. }
    rewrite E, app_length, last_last. cbn [length]. replace (length l + 1 - 1)%nat with (length l) by lia.
    rewrite skipn_app, skipn_all, Nat.sub_diag. reflexivity.
  Qed.

  Lemma ev_first : firstn (r - 1) D = removelast D.
  Proof.
    unfold r. destruct (@exists_last _ D) as (l & x & E).
    { intros E. unfold r in Hr. rewrite E in Hr. cbn in Hr. lia. }
    rewrite E, app_length, removelast_last. cbn [length]. replace (length l + 1 - 1)%nat with (length l) by lia.
    rewrite firstn_app, firstn_all, Nat.sub_diag. cbn. apply app_nil_r.
  Qed.

  Definition it_at (k : Z) (o : list Z) : iter e := @mkIter Z e (v_ptr v + dot str o) k P o D.

  Lemma it_new_at : it_new e = it_at 0 (repeat 0 r).
  Proof.
    unfold it_new, it_at. rewrite ev_outer. destruct (Nat.ltb_spec 0 (r - 1)); [|lia].
    change (e_dims e) with D. change (e_rank e) with r. change (e_init e) with (v_ptr v).
    rewrite ev_skip, dot_zeros, Z.add_0_r. cbn [fold_left]. now rewrite Z.mul_1_l.
  Qed.

  (** What [step_outer] does to the pointer. *)
  Lemma step_loop_ptr k p o :
    (k <= r)%nat -> length o = r ->
    exists b o', step_loop e D k p o = Ok (b, p + dot str o' - dot str o, o') /\ length o' = r /\
      (forall j, (k <= j)%nat -> nth j o' 0 = nth j o 0) /\
      (b = false -> forall j, (j < k)%nat -> nth j o' 0 = 0) /\
      (b = false -> forall j, (j < k)%nat -> nth j D 0 <= nth j o 0 + 1) /\
      (b = true -> exists j, (j < k)%nat /\ nth j o 0 + 1 < nth j D 0).
  Proof.
    revert p o. induction k as [|k IH]; intros p o Hk Lo; cbn [step_loop].
    - exists false, o. split; [repeat f_equal; unfold e; cbn; lia|]. repeat split; auto; [intros _ j Hj; lia|intros _ j Hj; lia|discriminate].
    - destruct (Z.ltb_spec (nth k o 0 + 1) (nth k D 0)).
      + rewrite ev_step by lia. cbn [bind]. eexists true, _. split.
        * f_equal. f_equal. f_equal. rewrite dot_upd by (rewrite ?str_length; lia). unfold e; cbn. lia.
        * rewrite upd_length. repeat split; auto; try discriminate; [intros j Hj; apply upd_nth_other; lia|]. exists k. split; [lia|auto].
      + rewrite ev_reset by lia. cbn [bind].
        destruct (IH (p + - nth k str 0 * nth k o 0) (upd o k 0)) as (b & o' & E & L & A & B & F1 & F2);
          [lia|rewrite upd_length; lia|].
        exists b, o'. split; [|split; [exact L|split; [|split; [|split]]]].
        * rewrite E. f_equal. f_equal. f_equal. rewrite dot_upd by (rewrite ?str_length; lia). unfold e; cbn. lia.
        * intros j Hj. rewrite A by lia. apply upd_nth_other. lia.
        * intros Hb j Hj. destruct (Nat.eq_dec j k) as [->|N].
          -- rewrite A by lia. apply upd_nth_same. lia.
          -- apply B; auto. lia.
        * intros Hb j Hj. destruct (Nat.eq_dec j k) as [->|N]; [lia|]. specialize (F1 Hb j ltac:(lia)).
          now rewrite upd_nth_other in F1 by lia.
        * intros Hb. destruct (F2 Hb) as (j & Hj & H2). exists j. split; [lia|]. now rewrite upd_nth_other in H2 by lia.
  Qed.

  Lemma zeros_ext o : length o = r -> (forall j, (j < r)%nat -> nth j o 0 = 0) -> o = repeat 0 r.
  Proof.
    intros L H. apply (nth_ext _ _ 0 0); [now rewrite repeat_length|]. intros j Hj. rewrite L in Hj.
    rewrite H by exact Hj. now rewrite nth_repeat.
  Qed.

  Lemma step_outer_at k o :
    length o = r -> nth (r - 1) o 0 = 0 ->
    exists b o', step_outer (it_at k o) = Ok (b, it_at k o') /\ length o' = r /\ nth (r - 1) o' 0 = 0 /\
      (b = false -> o' = repeat 0 r) /\
      (b = false -> forall j, (j < r - 1)%nat -> nth j D 0 <= nth j o 0 + 1) /\
      (b = true -> exists j, (j < r - 1)%nat /\ nth j o 0 + 1 < nth j D 0).
  Proof.
    intros Lo Zo. unfold step_outer. rewrite ev_outer. change (e_rank e) with r.
    destruct (Nat.ltb_spec (r - 1) r); [|lia]. cbn [it_st it_at it_olimit it_outer it_index it_limit].
    rewrite ev_reset by lia. cbn [bind]. rewrite Z.mul_0_r, Z.add_0_r.
    destruct (@step_loop_ptr (r - 1)%nat (v_ptr v + dot str o) o) as (b & o' & E & L & A & B & F1 & F2); [lia|exact Lo|].
    rewrite E. cbn [bind]. assert (Z1 : nth (r - 1) o' 0 = 0) by (rewrite A by lia; exact Zo).
    destruct b.
    - exists true, o'. split; [|repeat split; auto; discriminate]. unfold it_at. do 3 f_equal. unfold e; cbn. lia.
    - assert (EZ : o' = repeat 0 r).
      { apply zeros_ext; auto. intros j Hj. destruct (Nat.eq_dec j (r - 1)) as [->|N]; [exact Z1|].
        apply B; auto. lia. }
      exists false, (repeat 0 r). split; [|split; [apply repeat_length|split; [apply nth_repeat|repeat split; auto; discriminate]]].
      unfold it_at. do 2 f_equal. subst o'.
      replace (map (fun _ => 0) (repeat 0 r)) with (repeat 0 r).
      + f_equal. unfold e; cbn. lia.
      + clear. induction r; cbn; congruence.
  Qed.

  (** One call of [next]. *)
  Lemma next_at k o x it' :
    length o = r -> nth (r - 1) o 0 = 0 -> it_next (it_at k o) = Ok (x, it') ->
    match x with
    | None => k = P /\ it' = it_at P (repeat 0 r) /\ (forall j, (j < r - 1)%nat -> nth j D 0 <= nth j o 0 + 1)
    | Some _ => exists k' o', it' = it_at k' o' /\ length o' = r /\ nth (r - 1) o' 0 = 0 /\
        (k <> P -> k' = k + 1 /\ o' = o) /\
        (k = P -> k' = 1 /\ exists j, (j < r - 1)%nat /\ nth j o 0 + 1 < nth j D 0)
    end.
  Proof.
    intros Lo Zo. unfold it_next. cbn [it_index it_limit it_at].
    destruct (Z.eqb_spec k P) as [->|NE].
    - destruct (@step_outer_at P o Lo Zo) as (b & o' & E & L & Z1 & H0 & F1 & F2). rewrite E. cbn [bind].
      destruct b.
      + cbn [it_index it_limit it_at it_st it_outer it_olimit].
        destruct (e_get e _ _) as [[a st]| | |] eqn:EG; cbn [bind]; try discriminate. intros H. injection H as <- <-.
        assert (st = v_ptr v + dot str o').
        { unfold e in EG. cbn [e_view e_get] in EG. destruct (e_ref _ _); try discriminate. now injection EG. }
        subst st. exists 1, o'. repeat split; auto; try congruence.
      + intros H. injection H as <- <-. rewrite H0 by auto. auto.
    - cbn [it_index it_limit it_at it_st it_outer it_olimit].
      destruct (e_get e _ _) as [[a st]| | |] eqn:EG; cbn [bind]; try discriminate. intros H. injection H as <- <-.
      assert (st = v_ptr v + dot str o).
      { unfold e in EG. cbn [e_view e_get] in EG. destruct (e_ref _ _); try discriminate. now injection EG. }
      subst st. exists (k + 1), o. repeat split; auto; congruence.
  Qed.

  Lemma nexts_at m k o xs it' :
    length o = r -> nth (r - 1) o 0 = 0 -> it_nexts m (it_at k o) = Ok (xs, it') ->
    exists k' o', it' = it_at k' o' /\ length o' = r /\ nth (r - 1) o' 0 = 0.
  Proof.
    revert k o xs it'. induction m as [|m IH]; intros k o xs it' Lo Zo; cbn [it_nexts].
    - intros H. injection H as <- <-. eauto.
    - destruct (it_next (it_at k o)) as [[x it1]| | |] eqn:E; cbn [bind]; try discriminate.
      pose proof (next_at Lo Zo E) as HX.
      assert (H1 : exists k1 o1, it1 = it_at k1 o1 /\ length o1 = r /\ nth (r - 1) o1 0 = 0).
      { destruct x; [destruct HX as (k1 & o1 & H1 & H2 & H3 & _)|destruct HX as (_ & H1 & _)]; eauto.
        exists P, (repeat 0 r). split; [exact H1|]. split; [apply repeat_length|apply nth_repeat]. }
      destruct H1 as (k1 & o1 & -> & L1 & Z1).
      destruct (it_nexts m (it_at k1 o1)) as [[l it2]| | |] eqn:E2; cbn [bind]; try discriminate.
      intros H. injection H as <- <-. eapply IH; eauto.
  Qed.

  (** The first row. *)
  Lemma nexts_row m k xs it' :
    k + Z.of_nat m <= P -> it_nexts m (it_at k (repeat 0 r)) = Ok (xs, it') ->
    it' = it_at (k + Z.of_nat m) (repeat 0 r).
  Proof.
    revert k xs it'. induction m as [|m IH]; intros k xs it' Hk; cbn [it_nexts].
    - intros H. injection H as <- <-. now rewrite Z.add_0_r.
    - destruct (it_next (it_at k (repeat 0 r))) as [[x it1]| | |] eqn:E; cbn [bind]; try discriminate.
      pose proof (next_at (repeat_length 0 r) (nth_repeat 0 r (r - 1)) E) as HX. destruct x as [x|]; [|lia].
      destruct HX as (k1 & o1 & -> & _ & _ & HN & _). destruct HN as [-> ->]; [lia|].
      destruct (it_nexts m (it_at (k + 1) (repeat 0 r))) as [[l it2]| | |] eqn:E2; cbn [bind]; try discriminate.
      intros H. injection H as <- <-. apply IH in E2; [|lia]. rewrite E2. f_equal. lia.
  Qed.

  Lemma size_at k o : length o = r -> it_size (it_at k o) = (prodZ (firstn (r - 1) D) - flat (firstn (r - 1) D) (firstn (r - 1) o)) * P - k.
  Proof.
    intros Lo. unfold it_size. cbn [it_olimit it_outer it_limit it_index it_at]. rewrite ev_outer.
    rewrite size_loop_eq; [lia|exact Lo|]. change (r - 1 <= r)%nat. lia.
  Qed.

  Lemma size_zeros k : it_size (it_at k (repeat 0 r)) = prodZ D - k.
  Proof.
    rewrite size_at by apply repeat_length. rewrite firstn_repeat. replace (Nat.min (r - 1) r) with (length (firstn (r - 1) D)).
    - rewrite flat_zeros, Z.sub_0_r. f_equal. rewrite <- (firstn_skipn (r - 1) D) at 2. rewrite prodZ_app, ev_skip. cbn. lia.
    - rewrite firstn_length. fold r. lia.
  Qed.

  (** What is required of [next] on an empty or a first call. *)
  Lemma first_next : 
    match it_next (it_new e) with
    | Ok (None, it') => P = 0 /\ it' = it_at 0 (repeat 0 r) /\ (forall j, (j < r - 1)%nat -> nth j D 0 <= 1)
    | Ok (Some _, it') => exists o, it' = it_at 1 o /\ length o = r /\
        (P <> 0 -> o = repeat 0 r) /\ (P = 0 -> exists j, (j < r - 1)%nat /\ 1 < nth j D 0)
    | _ => P <> 0 \/ exists j, (j < r - 1)%nat /\ 1 < nth j D 0
    end.
  Proof.
    rewrite it_new_at. destruct (it_next (it_at 0 (repeat 0 r))) as [[[x|] it']| | |] eqn:E.
    - pose proof (next_at (repeat_length 0 r) (nth_repeat 0 r (r - 1)) E) as (k1 & o1 & -> & L1 & _ & H1 & H2).
      destruct (Z.eq_dec 0 P) as [EP|NP].
      + destruct (H2 EP) as [-> (j & Hj & HJ)]. exists o1. split; [reflexivity|]. split; [auto|]. split; [lia|]. intros _.
        exists j. split; auto. rewrite nth_repeat in HJ. lia.
      + destruct (H1 NP) as [-> ->]. exists (repeat 0 r). repeat split; auto. congruence.
    - pose proof (next_at (repeat_length 0 r) (nth_repeat 0 r (r - 1)) E) as (H1 & -> & H2).
      split; [auto|]. split; [now rewrite <- H1|]. intros j Hj. specialize (H2 j Hj). rewrite nth_repeat in H2. lia.
    - revert E. unfold it_next. cbn [it_index it_limit it_at]. destruct (Z.eqb_spec 0 P) as [EP|NP]; [|auto].
      destruct (@step_outer_at 0 (repeat 0 r)) as (b & o' & E & L & Z1 & H0 & F1 & F2); [apply repeat_length|apply nth_repeat|].
      fold (it_at 0 (repeat 0 r)). rewrite E. cbn [bind]. destruct b; [|discriminate]. intros _. right.
      destruct F2 as (j & Hj & HJ); auto. exists j. split; auto. rewrite nth_repeat in HJ. lia.
    - revert E. unfold it_next. cbn [it_index it_limit it_at]. destruct (Z.eqb_spec 0 P) as [EP|NP]; [|auto].
      destruct (@step_outer_at 0 (repeat 0 r)) as (b & o' & E & L & Z1 & H0 & F1 & F2); [apply repeat_length|apply nth_repeat|].
      fold (it_at 0 (repeat 0 r)). rewrite E. cbn [bind]. destruct b; [|discriminate]. intros _. right.
      destruct F2 as (j & Hj & HJ); auto. exists j. split; auto. rewrite nth_repeat in HJ. lia.
    - revert E. unfold it_next. cbn [it_index it_limit it_at]. destruct (Z.eqb_spec 0 P) as [EP|NP]; [|auto].
      destruct (@step_outer_at 0 (repeat 0 r)) as (b & o' & E & L & Z1 & H0 & F1 & F2); [apply repeat_length|apply nth_repeat|].
      fold (it_at 0 (repeat 0 r)). rewrite E. cbn [bind]. destruct b; [|discriminate]. intros _. right.
      destruct F2 as (j & Hj & HJ); auto. exists j. split; auto. rewrite nth_repeat in HJ. lia.
  Qed.

  (** An empty row and no second row: [None] for ever. *)
  Lemma nexts_none m : P = 0 -> (forall j, (j < r - 1)%nat -> nth j D 0 <= 1) ->
    it_nexts m (it_new e) = Ok (repeat None m, it_new e).
  Proof.
    intros EP HO. rewrite it_new_at. induction m as [|m IH]; [reflexivity|]. cbn [it_nexts repeat].
    assert (E : it_next (it_at 0 (repeat 0 r)) = Ok (None, it_at 0 (repeat 0 r))).
    { pose proof first_next as H. rewrite it_new_at in H.
      destruct (it_next (it_at 0 (repeat 0 r))) as [[[x|] it']| | |].
      - destruct H as (o & _ & _ & _ & H). destruct (H EP) as (j & Hj & HJ). specialize (HO j Hj). lia.
      - destruct H as (_ & -> & _). reflexivity.
      - destruct H as [H|(j & Hj & HJ)]; [contradiction|]. specialize (HO j Hj). lia.
      - destruct H as [H|(j & Hj & HJ)]; [contradiction|]. specialize (HO j Hj). lia.
      - destruct H as [H|(j & Hj & HJ)]; [contradiction|]. specialize (HO j Hj). lia. }
    rewrite E. cbn [bind]. rewrite IH. reflexivity.
  Qed.
End Strided.

Lemma nth_removelast {A} (l : list A) j d : (j < length l - 1)%nat -> nth j (removelast l) d = nth j l d.
Proof.
  intros H. destruct (@exists_last _ l) as (l' & x & ->); [intros ->; cbn in H; lia|].
  rewrite removelast_last, app_length in *. cbn [length] in H. now rewrite app_nth1 by lia.
Qed.

Lemma removelast_length {A} (l : list A) : length (removelast l) = (length l - 1)%nat.
Proof. destruct l as [|a l]; [reflexivity|]. rewrite removelast_firstn_len, firstn_length. lia. Qed.

Lemma forall_outer (Q : Z -> Prop) D : Forall Q (removelast D) <-> (forall j, (j < length D - 1)%nat -> Q (nth j D 0)).
Proof.
  split.
  - intros H j Hj. rewrite <- nth_removelast by exact Hj. rewrite Forall_forall in H. apply H, nth_In. now rewrite removelast_length.
  - intros H. apply Forall_forall. intros x Hx. destruct (In_nth _ _ 0 Hx) as (j & Hj & <-).
    rewrite removelast_length in Hj. rewrite nth_removelast by exact Hj. auto.
Qed.

Lemma prod_last D : D <> [] -> prodZ D = prodZ (removelast D) * last D 0.
Proof. intros H. rewrite (app_removelast_last 0 H) at 1. rewrite prodZ_app. cbn. lia. Qed.

Lemma it_nexts_length {A} (e : expression A) m (it it' : iter e) xs : it_nexts m it = Ok (xs, it') -> length xs = m.
Proof.
  revert it it' xs. induction m as [|m IH]; intros it it' xs; cbn [it_nexts].
  - intros H. now injection H as <- <-.
  - destruct (it_next it) as [[x it1]| | |]; cbn [bind]; try discriminate.
    destruct (it_nexts m it1) as [[l it2]| | |] eqn:E; cbn [bind]; try discriminate.
    intros H. injection H as <- <-. cbn. f_equal. eapply IH, E.
Qed.

(** The second and the later rows are visited again and again. *)
Lemma view_cycle n rep v :
  valid_view n v -> v_layout v = Strided -> (2 <= length (v_dims v))%nat -> positive (v_dims v) ->
  let len := Z.to_nat (prodZ (v_dims v)) in
  let row := Z.to_nat (last (v_dims v) 0) in
  let items := map (v_addr v) (indices (v_dims v)) in
  exists it, it_nexts (len + 1) (it_new (e_view n rep v)) = Ok (map Some items ++ [None], it) /\
    it_size it = prodZ (v_dims v) - last (v_dims v) 0 /\
    it_nexts (len - row + 1) it = Ok (map Some (skipn row items) ++ [None], it).
Proof.
  intros Hv Hs Hr HP len row items. set (D := v_dims v) in *. set (r := length D).
  assert (Dn : D <> []) by (intros E; unfold D in E; fold D in E; rewrite E in Hr; cbn in Hr; lia).
  assert (PL : 0 < last D 0).
  { rewrite (app_removelast_last 0 Dn) in HP. apply positive_app in HP. destruct HP as [_ HP]. now inversion HP. }
  assert (PO : 0 < prodZ (removelast D)).
  { apply prodZ_pos. rewrite (app_removelast_last 0 Dn) in HP. apply positive_app in HP. tauto. }
  pose proof (prod_last Dn) as EL.
  assert (LR : (row <= len)%nat) by (unfold row, len; nia).
  assert (NF : view_next_fine v) by (unfold view_next_fine; auto).
  pose proof (vv_wf Hv) as Hw.
  destruct (@view_nexts n rep v len Hv NF (le_n _)) as (it & E & _ & _ & HE).
  destruct (HE eq_refl) as (it' & EN & _). clear HE.
  rewrite firstn_all2 in E by (rewrite indices_length by apply (wf_nonneg Hw); unfold len, D; apply le_n). fold items in E.
  assert (LI : length items = len) by (unfold items; rewrite map_length, indices_length; [reflexivity|apply (wf_nonneg Hw)]).
  rewrite it_new_at in E |- * by auto. fold D in E |- *. fold r in E |- *.
  destruct (@nexts_at n rep v Hs Hr Hw len 0 (repeat 0 r) _ _ (repeat_length 0 r) (nth_repeat 0 r (r - 1)) E) as (k & o & -> & Lo & Zo).
  destruct (@next_at n rep v Hs Hr Hw k o _ _ Lo Zo EN) as (-> & -> & _).
  set (it0 := it_at n rep v (last D 0) (repeat 0 r)). exists it0.
  assert (E1 : it_nexts (len + 1) (it_at n rep v 0 (repeat 0 r)) = Ok (map Some items ++ [None], it0)).
  { rewrite it_nexts_app, E. cbn [bind it_nexts]. rewrite EN. reflexivity. }
  split; [exact E1|]. split; [apply size_zeros; auto|].
  replace (len + 1)%nat with (row + (len - row + 1))%nat in E1 by lia. rewrite it_nexts_app in E1.
  destruct (it_nexts row (it_at n rep v 0 (repeat 0 r))) as [[xs it1]| | |] eqn:E2; cbn [bind] in E1; try discriminate.
  assert (X : it1 = it0).
  { rewrite (@nexts_row n rep v Hs Hr Hw row 0 xs it1); [unfold it0, row; f_equal; lia|unfold row; fold D; lia|exact E2]. }
  rewrite X in E1. destruct (it_nexts (len - row + 1) it0) as [[ys it2]| | |]; cbn [bind] in E1; try discriminate.
  injection E1 as E1 ->. f_equal. f_equal.
  assert (LX : length xs = row) by (eapply it_nexts_length; exact E2).
  apply (f_equal (skipn row)) in E1. rewrite skipn_app, LX, Nat.sub_diag, <- LX, skipn_all in E1. cbn [skipn app] in E1.
  rewrite E1, LX, skipn_app, skipn_map. f_equal. rewrite map_length, LI. replace (row - len)%nat with 0%nat by lia. reflexivity.
Qed.

(** The iterator is well behaved for ever. *)
Definition one_row (v : view) : Prop :=
  v_layout v = Dense \/ (length (v_dims v) <= 1)%nat \/ Forall (eq 1) (removelast (v_dims v)) \/
  last (v_dims v) 1 = 0 /\ Forall (fun d => d <= 1) (removelast (v_dims v)).

(** Until the first [None]. *)
Definition next_ok (v : view) : Prop :=
  v_layout v = Dense \/ (length (v_dims v) <= 1)%nat \/ positive (v_dims v) \/
  last (v_dims v) 1 = 0 /\ Forall (fun d => d <= 1) (removelast (v_dims v)).

Lemma last_default (l : list Z) a b : l <> [] -> last l a = last l b.
Proof. intros H. destruct (exists_last H) as (l' & x & ->). now rewrite !last_last. Qed.

Lemma Ok_inj {A} (a b : A) : Ok a = Ok b -> a = b.
Proof. congruence. Qed.

Section Exact.
  Variables (n : Z) (rep : bool) (v : view).
  Hypothesis Hv : valid_view n v.
  Local Notation e := (e_view n rep v).
  Let D := v_dims v.
  Let len := Z.to_nat (prodZ D).
  Let items := map (v_addr v) (indices D).

  Let HN : nonneg D := wf_nonneg (vv_wf Hv).

  (** The cases: no outer dimension; one row; several rows, none empty; an empty row; an empty outer dimension. *)
  Lemma exact_cases :
    (v_layout v = Dense \/ (length D <= 1)%nat) \/
    (v_layout v = Strided /\ (2 <= length D)%nat /\
      ((positive D /\ prodZ (removelast D) = 1 /\ Forall (eq 1) (removelast D)) \/
       (positive D /\ 1 < prodZ (removelast D) /\ ~ Forall (fun d => d <= 1) (removelast D)) \/
       (last D 0 = 0 /\ Forall (fun d => d <= 1) (removelast D)) \/
       (last D 0 = 0 /\ ~ Forall (fun d => d <= 1) (removelast D)) \/
       (0 < last D 0 /\ ~ positive (removelast D)))).
  Proof.
    destruct (v_layout v) eqn:EL; [auto|]. destruct (le_lt_dec (length D) 1) as [L|L]; [auto|]. right. split; [auto|]. split; [lia|].
    assert (Dn : D <> []) by (intros E; rewrite E in L; cbn in L; lia).
    pose proof HN as HD. rewrite (app_removelast_last 0 Dn) in HD. apply nonneg_app in HD. destruct HD as [HO HL].
    assert (HL' : 0 <= last D 0) by now inversion HL.
    assert (X : Forall (fun d => d <= 1) (removelast D) \/ ~ Forall (fun d => d <= 1) (removelast D)).
    { destruct (Forall_dec (fun d => d <= 1) (fun d => Z_le_dec d 1) (removelast D)); auto. }
    destruct (Z.eq_dec (last D 0) 0) as [E0|N0]; [tauto|].
    destruct (Forall_dec (fun d => 0 < d) (fun d => Z_lt_dec 0 d) (removelast D)) as [P|NP].
    2:{ do 4 right. split; [lia|]. exact NP. }
    assert (PD : positive D).
    { rewrite (app_removelast_last 0 Dn). apply positive_app. split; [exact P|]. constructor; [lia|constructor]. }
    destruct X as [X|X].
    - left. split; [exact PD|]. assert (EQ : Forall (eq 1) (removelast D)).
      { apply Forall_forall. intros x Hx. rewrite Forall_forall in P, X. specialize (P x Hx). specialize (X x Hx). cbn in *. lia. }
      split; [|exact EQ]. clear -EQ. induction EQ as [|x l <- _ IH]; [reflexivity|]. now rewrite prodZ_cons, IH.
    - right. left. split; [exact PD|]. split; [|exact X]. pose proof (prodZ_pos P) as PP.
      destruct (Z.eq_dec (prodZ (removelast D)) 1) as [E1|N1]; [|lia]. exfalso. apply X. clear -P E1.
      induction P as [|d l Hd Hl IH]; [constructor|]. rewrite prodZ_cons in E1. pose proof (prodZ_pos Hl).
      constructor; [nia|]. apply IH. nia.
  Qed.

  Lemma items_length : length items = len.
  Proof. unfold items. rewrite map_length, indices_length; [reflexivity|exact HN]. Qed.

  (** A first call that does not return [None] although there is no element. *)
  Lemma bad_first : v_layout v = Strided -> (2 <= length D)%nat -> prodZ D = 0 ->
    (last D 0 = 0 /\ ~ Forall (fun d => d <= 1) (removelast D)) \/ (0 < last D 0 /\ ~ positive (removelast D)) ->
    match it_next (it_new e) with
    | Ok (None, _) => False
    | Ok (Some _, it) => it_size it = -1
    | _ => True
    end.
  Proof.
    intros Hs Hr EZ HB. pose proof (@first_next n rep v Hs Hr (vv_wf Hv)) as H. fold D in H.
    destruct (it_next (it_new e)) as [[[x|] it]| | |]; auto.
    - destruct H as (o & -> & Lo & H1 & H2). destruct HB as [[E0 HO]|[N0 _]].
      + etransitivity; [eapply size_at; eauto|]. fold D. rewrite E0. lia.
      + rewrite H1 by lia. etransitivity; [eapply size_zeros; eauto|]. fold D. lia.
    - destruct H as (E0 & _ & H). destruct HB as [[_ HO]|[N0 _]]; [|lia]. apply HO, forall_outer. exact H.
  Qed.

  Lemma bad_facts : (2 <= length D)%nat ->
    (last D 0 = 0 /\ ~ Forall (fun d => d <= 1) (removelast D)) \/ (0 < last D 0 /\ ~ positive (removelast D)) ->
    ~ positive D /\ (last D 0 = 0 -> ~ Forall (fun d => d <= 1) (removelast D)) /\ prodZ D = 0.
  Proof.
    intros Hr B. assert (Dn : D <> []) by (intros E; rewrite E in Hr; cbn in Hr; lia). pose proof (prod_last Dn) as EL.
    destruct B as [[E0 B]|[N0 B]].
    - split; [|split; [auto|rewrite EL, E0; lia]]. intros P. apply prodZ_pos in P. rewrite EL, E0 in P. lia.
    - split; [|split; [lia|]].
      + intros P. apply B. rewrite (app_removelast_last 0 Dn) in P. apply positive_app in P. tauto.
      + rewrite EL. replace (prodZ (removelast D)) with 0; [lia|].
        pose proof HN as HD. rewrite (app_removelast_last 0 Dn) in HD. apply nonneg_app in HD. destruct HD as [HO _].
        pose proof (prodZ_nonneg HO). destruct (Z.eq_dec (prodZ (removelast D)) 0) as [|NZ]; [lia|].
        exfalso. apply B, prodZ_pos_inv; [exact HO|lia].
  Qed.

  Theorem next_exact : (exists it, it_nexts (len + 1) (it_new e) = Ok (map Some items ++ [None], it)) <-> next_ok v.
  Proof.
    unfold next_ok. fold D.
    destruct exact_cases as [H|(Hs & Hr & H)].
    { split; [tauto|]. intros _. destruct (view_fused rep 1 Hv H) as (it & E & _). eauto. }
    assert (Dn : D <> []) by (intros E; rewrite E in Hr; cbn in Hr; lia).
    rewrite (last_default 1 0 Dn). pose proof (prod_last Dn) as EL.
    assert (Hr' : ~ (length D <= 1)%nat) by lia. assert (Hs' : v_layout v <> Dense) by congruence.
    destruct H as [(P & _)|[(P & _)|[(E0 & H)|B]]].
    - split; [tauto|]. intros _. destruct (@view_cycle n rep v Hv Hs Hr P) as (it & E & _). eauto.
    - split; [tauto|]. intros _. destruct (@view_cycle n rep v Hv Hs Hr P) as (it & E & _). eauto.
    - split; [tauto|]. intros _. assert (LZ : len = 0%nat) by (unfold len; rewrite EL, E0, Z.mul_0_r; reflexivity).
      pose proof items_length as LI. rewrite LZ in *. destruct items; [|discriminate].
      exists (it_new e). rewrite forall_outer in H. exact (@nexts_none n rep v Hs Hr (vv_wf Hv) 1 E0 H).
    - pose proof (bad_facts Hr B) as NP.
      destruct NP as (NP & NF & EZ). split; [|tauto]. intros (it & E). exfalso.
      pose proof (bad_first Hs Hr EZ B) as H. assert (LZ : len = 0%nat) by (unfold len; now rewrite EZ).
      pose proof items_length as LI. rewrite LZ in *. destruct items; [|discriminate].
      cbn [Nat.add it_nexts map app] in E. destruct (it_next (it_new e)) as [[[x|] it1]| | |]; cbn [bind] in E; try discriminate; contradiction.
  Qed.

  Lemma none_after m : one_row v -> exists it, it_nexts (len + m) (it_new e) = Ok (map Some items ++ repeat None m, it) /\ it_size it = 0.
  Proof.
    unfold one_row. fold D. intros HO.
    destruct exact_cases as [H|(Hs & Hr & H)]; [exact (view_fused rep m Hv H)|].
    assert (Dn : D <> []) by (intros E; rewrite E in Hr; cbn in Hr; lia).
    rewrite (last_default 1 0 Dn) in HO. pose proof (prod_last Dn) as EL.
    assert (Hr' : ~ (length D <= 1)%nat) by lia. assert (Hs' : v_layout v <> Dense) by congruence.
    assert (X : forall l, Forall (eq 1) l -> Forall (fun d => d <= 1) l /\ positive l).
    { intros l F. split; (eapply Forall_impl; [|exact F]); cbn; intros; lia. }
    destruct H as [(P & E1 & _)|[(P & _ & N)|[(E0 & H)|B]]].
    - destruct (@view_cycle n rep v Hv Hs Hr P) as (it & E & SZ & C). fold D len items in E, SZ, C.
      assert (LE : prodZ D = last D 0) by lia. rewrite <- LE in C. fold len in C. rewrite Nat.sub_diag in C.
      rewrite skipn_all2 in C by (rewrite items_length; apply le_n). cbn [Nat.add map app] in C.
      destruct m as [|m].
      + destruct (view_nexts rep Hv (or_intror (or_intror P)) (le_n _)) as (it0 & E0 & S0 & _). exists it0.
        rewrite firstn_all2 in E0 by (rewrite indices_length; [apply le_n|exact HN]).
        rewrite Nat.add_0_r. cbn [repeat]. rewrite app_nil_r. split; [exact E0|]. pose proof (prodZ_pos P). etransitivity; [exact S0|]. fold D. lia.
      + exists it. split; [|lia]. replace (len + S m)%nat with (len + 1 + m)%nat by lia. rewrite it_nexts_app, E. cbn [bind].
        assert (G : it_nexts m it = Ok (repeat None m, it)).
        { cbn [it_nexts] in C. destruct (it_next it) as [[x it1]| | |] eqn:EN; cbn [bind] in C; try discriminate.
          apply Ok_inj in C. assert (C1 : x = None) by congruence. assert (C2 : it1 = it) by congruence. subst x it1. clear -EN. induction m as [|m IH]; [reflexivity|]. cbn [it_nexts repeat]. rewrite EN. cbn [bind]. now rewrite IH. }
        rewrite G. cbn [bind repeat]. now rewrite <- app_assoc.
    - exfalso. destruct HO as [?|[?|[HO|[_ HO]]]]; auto. apply N, X, HO.
    - assert (LZ : len = 0%nat) by (unfold len; rewrite EL, E0, Z.mul_0_r; reflexivity).
      pose proof items_length as LI. rewrite LZ in *. destruct items; [|discriminate].
      exists (it_new e). rewrite forall_outer in H. split; [exact (@nexts_none n rep v Hs Hr (vv_wf Hv) m E0 H)|].
      rewrite it_new_at by auto. etransitivity; [eapply size_zeros; auto|]. fold D. rewrite EL, E0. lia.
    - exfalso. pose proof (bad_facts Hr B) as (NP & NF & _). destruct HO as [?|[?|[HO|[E0 HO]]]]; auto; [|exact (NF E0 HO)].
      destruct B as [[E0 B]|[N0 B]]; apply B, X, HO.
  Qed.

  Theorem fused_exact : (forall m, exists it, it_nexts (len + m) (it_new e) = Ok (map Some items ++ repeat None m, it)) <-> one_row v.
  Proof.
    split; [|intros H m; destruct (none_after m H) as (it & E & _); eauto].
    intros HF. pose proof (HF 1%nat) as H1. cbn [repeat] in H1. apply next_exact in H1. unfold next_ok, one_row in *. fold D in H1 |- *.
    destruct exact_cases as [H|(Hs & Hr & H)]; [tauto|]. destruct H as [(P & E1 & H)|[(P & N & _)|H]]; [tauto| |].
    2:{ destruct H1 as [?|[?|[P|H1]]]; auto. destruct H as [[E0 _]|B]; [|apply (bad_facts Hr) in B; tauto].
        apply prodZ_pos in P. rewrite prod_last, E0 in P by (intros E; rewrite E in Hr; cbn in Hr; lia). lia. }
    exfalso. destruct (@view_cycle n rep v Hv Hs Hr P) as (it & E & SZ & C). fold D len items in E, SZ, C.
    assert (Dn : D <> []) by (intros E'; rewrite E' in Hr; cbn in Hr; lia).
    pose proof (prod_last Dn) as EL. pose proof (prodZ_pos P) as PP. set (row := Z.to_nat (last D 0)) in *.
    assert (LR : (row < len)%nat) by (unfold row, len; nia).
    destruct (HF (1 + (len - row + 1))%nat) as (it' & E2). rewrite Nat.add_assoc, it_nexts_app, E in E2. cbn [bind] in E2.
    rewrite C in E2. cbn [bind] in E2. injection E2 as E2. rewrite repeat_app, <- app_assoc in E2. cbn [repeat app] in E2.
    apply app_inv_head in E2. injection E2 as E2. pose proof items_length as LI.
    destruct (skipn row items) as [|x l] eqn:ES.
    - apply (f_equal (@length _)) in ES. rewrite skipn_length, LI in ES. cbn in ES. lia.
    - destruct (len - row)%nat as [|k] eqn:EK; [lia|]. cbn [map app repeat Nat.add] in E2. discriminate E2.
  Qed.

  Theorem size_exact :
    (forall m, exists xs it, it_nexts m (it_new e) = Ok (xs, it) /\ it_size it = Z.max 0 (prodZ D - Z.of_nat m)) <-> one_row v.
  Proof.
    assert (PN : 0 <= prodZ D) by apply (prodZ_nonneg HN).
    split.
    - intros HF. unfold one_row. fold D.
      destruct exact_cases as [H|(Hs & Hr & H)]; [tauto|]. 
      assert (Dn : D <> []) by (intros E'; rewrite E' in Hr; cbn in Hr; lia). rewrite (last_default 1 0 Dn).
      destruct H as [(P & E1 & H)|[(P & N & _)|[H|B]]]; [tauto| |tauto|]; exfalso.
      + destruct (@view_cycle n rep v Hv Hs Hr P) as (it & E & SZ & C). fold D len items in E, SZ, C.
        destruct (HF (len + 1)%nat) as (xs & it' & E2 & S2). rewrite E in E2. injection E2 as _ <-. rewrite SZ in S2.
        pose proof (prod_last Dn) as EL. pose proof (prodZ_pos P) as PP. unfold len in S2. nia.
      + destruct (bad_facts Hr B) as (_ & _ & EZ). pose proof (bad_first Hs Hr EZ B) as H.
        destruct (HF 1%nat) as (xs & it & E & S2). cbn [it_nexts] in E.
        destruct (it_next (it_new e)) as [[[x|] it1]| | |]; cbn [bind] in E; try discriminate; try contradiction.
        injection E as _ <-. rewrite EZ in S2. lia.
    - intros HO m. destruct (le_lt_dec len m) as [L|L].
      + destruct (none_after (m - len) HO) as (it & E & SZ). replace (len + (m - len))%nat with m in E by lia.
        eexists _, it. split; [exact E|]. unfold len in L. lia.
      + assert (NZ : 0 < prodZ D) by (unfold len in L; lia). pose proof (prodZ_pos_inv HN NZ) as P.
        destruct (@view_nexts n rep v m Hv (or_intror (or_intror P))) as (it & E & SZ & _); [unfold len in L; fold D; lia|].
        eexists _, it. split; [exact E|]. etransitivity; [exact SZ|]. fold D. unfold len in L. lia.
  Qed.
End Exact.

(** [axis_expr] of a view whose remaining dimensions overflow panics at its first item. *)
Lemma axis_overflow rep v a i :
  wf_map (v_map v) -> is_axis a (length (m_dims (v_map v))) i -> 0 < nth i (m_dims (v_map v)) 0 -> ~ fits (remove_at i (m_dims (v_map v))) ->
  exists e, e_axis rep v a = Ok e /\ it_next (it_new e) = Panic /\
    forall T (f : T -> view -> outcome T) acc, e_fold e f acc = Panic.
Proof.
  intros Hw HA HP HF. unfold e_axis. unfold v_dims in *.
  destruct (ax_get_ok Hw HA) as (m & Em & Hd & _). rewrite Em. cbn [bind].
  eexists. split; [reflexivity|]. 
  destruct (ax_remove_map_ok Hw HA) as (m' & Em' & Hd' & _).
  assert (EC : sh_checked_len (m_dims m') = None).
  { rewrite Hd'. destruct (checked_len_cases (remove_at i (m_dims (v_map v)))); [contradiction|auto]. }
  split.
  - unfold it_next, it_new, outer_rank, e_rank. cbn [e_inner e_dims it_index it_limit]. rewrite Hd. cbn [length Nat.sub skipn fold_left].
    destruct (Z.eqb_spec 0 (1 * nth i (m_dims (v_map v)) 0)); [lia|]. cbn [it_index it_st e_get e_init]. rewrite Em'. cbn [bind]. rewrite EC; cbn [bind]; cbv beta iota; reflexivity.
  - intros T f acc. unfold e_fold, it_fold, it_fuel. cbn [fold_loop]. unfold it_new, outer_rank, e_rank. cbn [it_index it_limit it_st e_inner e_dims].
    rewrite Hd. cbn [length Nat.sub skipn fold_left]. destruct (Z.to_nat (1 * nth i (m_dims (v_map v)) 0 - 0)) eqn:EN; [lia|].
    cbn [inner_loop e_get e_init]. rewrite Em'. cbn [bind]. rewrite EC; cbn [bind]; cbv beta iota; reflexivity.
Qed.
