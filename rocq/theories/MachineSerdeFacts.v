(** Facts about deserialization with machine integers; the proofs follow [SerdeFacts.v]. *)
From Verif Require Import Base Spec SpecFacts Shape Mapping Index View Wf MappingFacts MapOps ReshapeFacts
  Expr Tensor TensorSpec TensorFacts TensorOps OwnFacts Ops OpsFacts Serde SerdeSpec SerdeFacts.
From Verif Require Import Machine MachineSpec MachineFacts MachineWrap MachineIter MachineIterFacts MachineTensor MachineTensorFacts MachineTensorMore MachineSerde.
Unset Strict Implicit.
Set Implicit Arguments.

Section Machine.
  Context (dbg : bool) {T C E : Type} (al : allocator) (de : sdata E -> C -> call (option T) C) (dec : sdata E -> option T).
  Hypothesis HA : al_machine al.

  (** What is known after deserializing [v] with a shape of dimensions [ds]. *)
  Definition xdpost (ds : list dimty) (v : sdata E) (w0 : world T C) (r : result (world T C) (option (tensor T))) : Prop :=
    match r with
    | Done (Some t) w =>
        tensor_ok t /\ small dbg t /\ tn_ty t = STuple ds /\ settle ds (tn_dims t) = tn_dims t /\
        Forall2 (fun d n => d = DConst n \/ n <= box (length ds) v) ds (tn_dims t) /\
        (forall k, prodZ (firstn k (tn_dims t)) <= box (length ds) v) /\
        (exists c, w = after c (tn_mem t) [] w0) /\
        (decides de dec -> rect dec (tn_dims t) v (tn_mem t))
    | Done None w =>
        from_here w0 [] w /\
        (decides de dec -> forall dims xs, typed (STuple ds) dims -> ~ rect dec dims v xs)
    | Unwound w => from_here w0 [] w /\ (adequate al (length ds) v -> throws de)
    | Aborted | Fault => False
    end.

  (** The local variables of [visit_seq]. *)
  Definition xholds (w0 : world T C) (p : parts T C) : Prop :=
    zlen (p_items p) <= p_cap p /\ p_cap p <= isize_max /\ exists c, p_w p = after c (p_items p) [] w0.
  Lemma xholds_from w0 p : xholds w0 p -> from_here w0 (p_items p) (p_w p).
  Proof. intros [_ [_ [c H]]]. exists c, (p_items p), []. now rewrite app_nil_r. Qed.

  Lemma x_reserve_cases n (p : parts T C) : p_cap p <= isize_max ->
    (exists cap, vec_reserve al n p = Done tt (mkParts (p_items p) cap (p_dims p) (p_w p)) /\
       p_cap p <= cap /\ zlen (p_items p) + n <= cap /\ cap <= isize_max) \/
    (vec_reserve al n p = Unwound p /\ al_ok al (zlen (p_items p) + n) = false /\ p_cap p < zlen (p_items p) + n).
  Proof.
    intros HI. unfold vec_reserve. destruct (Z.leb_spec (zlen (p_items p) + n) (p_cap p)).
    - left. exists (p_cap p). destruct p; cbn in *. split; [reflexivity|lia].
    - destruct (al_ok al _) eqn:E0; [left|right; auto]. eexists. split; [reflexivity|].
      destruct (HA E0) as [H1 H2]. specialize (H2 (p_cap p)). lia.
  Qed.

  Lemma x_request_cases (t : tensor T) h : tensor_ok t -> small dbg t -> 0 <= h ->
    (x_request dbg t h = Panic /\ usize_max < zlen (tn_mem t) * h) \/
    (exists n, x_request dbg t h = Ok n /\ 0 <= n <= zlen (tn_mem t) * h).
  Proof.
    intros OK SM H. unfold x_request. rewrite (counted_len (to_nonneg OK) (sm_count SM)). cbn [bind].
    assert (EL : zlen (tn_mem t) = prodZ (tn_dims t)) by apply (to_len OK). rewrite EL.
    pose proof (prodZ_nonneg (to_nonneg OK)). assert (0 <= prodZ (tn_dims t) * h) by nia. unfold u_res, u_fits.
    destruct (Z.leb_spec 0 (prodZ (tn_dims t) * h)); [|lia].
    destruct (Z.leb_spec (prodZ (tn_dims t) * h) usize_max); [right; eexists; split; [reflexivity|lia]|].
    destruct dbg; [left; split; [reflexivity|lia]|right; eexists; split; [reflexivity|]].
    unfold as_usize. split; [apply Z.mod_pos_bound; reflexivity|apply Z.mod_le; [lia|reflexivity]].
  Qed.

  (** [Tensor::from(vec).into_shape(shape)] *)
  Lemma x_close_ok ds dims (items : list T) cap (w : world T C) :
    typed (STuple ds) dims -> nonneg dims -> machine_dims dims -> zlen items <= cap -> cap <= isize_max ->
    let r := (t <- tn_from_vec items cap ;; t' <- tn_into_shape (STuple ds) dims t ;; ret (Some t')) w in
    r <> Fault ->
    (t <- xt_from_vec dbg items cap ;; t' <- xt_into_shape dbg (STuple ds) dims t ;; ret (Some t')) w = r /\
    match r with Done (Some t) _ => small dbg t | _ => True end.
  Proof.
    intros TY N HM CP CI r. subst r. assert (E1 : tn_from_vec items cap w <> Fault) by (rewrite from_vec_done; discriminate).
    destruct (@x_from_vec_ok dbg T C w items cap CP CI E1) as [E2 S2].
    rewrite from_vec_done in E2, S2. rewrite !(seq_done _ E2), !(seq_done _ (from_vec_done items cap w)). cbn [osmall] in S2. unfold flat_ty in *.
    assert (OK := from_vec_ok CP).
    assert (HL : match sh_rank (STuple ds) with Some k => length dims = k | None => True end) by (cbn; apply Forall2_len in TY; lia).
    pose proof (@x_into_shape_ok dbg T C _ w OK S2 (STuple ds) dims N HM HL) as H. unfold same_osmall in H.
    unfold seqM. unfold flat_ty in *. destruct (tn_into_shape (STuple ds) dims _ w) as [t' w'|w'| |]; intros HF; try congruence;
      (destruct H as [-> H]; [discriminate|]; auto).
  Qed.

  (** *** The loop for rank 1 *)

  Lemma x_elems_post w0 : forall l size p,
    xholds w0 p -> 0 <= size -> zlen (p_items p) = size -> size + zlen l <= usize_max ->
    spost w0
      (fun n p' => n = size + zlen l /\ xholds w0 p' /\ p_dims p' = p_dims p /\ zlen (p_items p') = n /\
                   (decides de dec -> exists xs, p_items p' = p_items p ++ xs /\ Forall2 (fun v x => dec v = Some x) l xs))
      (decides de dec -> forall xs, ~ Forall2 (fun v x => dec v = Some x) l xs)
      ((forall n, 0 <= n <= size + zlen l -> al_ok al n = true) -> throws de)
      (x_de_elems dbg al de l size p).
  Proof.
    induction l as [|v l IH]; intros size p HP HS HL HU; cbn [x_de_elems].
    - cbn. split; [unfold zlen; cbn; lia|]. repeat split; auto; try apply HP. intros _. exists []. rewrite app_nil_r. auto.
    - unfold seqM at 1. unfold inside_parts. pose proof (de_elem_post de dec v (p_w p)) as HE.
      destruct HP as [HC [HI [c HW]]]. pose proof (zlen_nonneg l) as ZL.
      assert (LL : size + 1 + zlen l = size + zlen (v :: l)) by (unfold zlen; cbn [length]; lia).
      destruct (de_elem de v (p_w p)) as [[x|] w'|w'| |]; try contradiction.
      + destruct HE as [[c' ->] HD]. unfold seqM at 1. unfold holding.
        destruct (@x_reserve_cases 1 (parts_w (after c' [x] [] (p_w p)) p) HI) as [(cap & -> & C1 & C2 & C3)|[-> [A0 _]]].
        * cbn [parts_w p_items p_cap p_dims p_w] in *. unfold seqM at 1. unfold vec_write.
          cbn [parts_w p_items p_cap p_dims p_w] in *. replace (zlen (p_items p) <? cap) with true by lia.
          unfold seqM at 1. rewrite u_res_fit by (unfold is_usize; lia). cbn [lift].
          assert (L1 : zlen (p_items p ++ [x]) = size + 1) by (unfold zlen in *; rewrite app_length; cbn; lia).
          specialize (IH (size + 1) (mkParts (p_items p ++ [x]) cap (p_dims p) (after c' [x] [] (p_w p)))).
          cbn [p_items p_cap p_dims p_w] in IH. rewrite LL in IH.
          eapply spost_mono; [| | |apply IH]; cbn beta; try lia.
          -- intros n p' (-> & H1 & H2 & H3 & H4). repeat split; auto; try apply H1.
             intros D. destruct (H4 D) as (xs & E1 & F1). exists (x :: xs). rewrite E1, <- app_assoc. split; auto.
          -- intros H D xs F. inversion F; subst. now apply (H D l').
          -- tauto.
          -- split; [cbn; lia|]. split; [exact C3|]. exists c'. cbn [p_items p_w]. rewrite HW, after_after. reflexivity.
        * cbn [parts_w p_items p_cap p_dims p_w spost] in *. split.
          -- exists c', (p_items p ++ [x]), [x]. rewrite HW, after_after, drop_after. auto.
          -- intros HX. rewrite HX in A0; [discriminate|]. lia.
      + destruct HE as [[c' ->] HD]. cbn [ret spost parts_w p_items p_w]. split.
        * exists c', (p_items p), []. rewrite HW, after_after, !app_nil_r. auto.
        * intros D xs F. inversion F; subst. rewrite HD in H1; [discriminate|auto].
      + destruct HE as [[c' ->] HD]. cbn [ret spost parts_w p_items p_w]. split; auto.
        exists c', (p_items p), []. rewrite HW, after_after, !app_nil_r. auto.
  Qed.

  (** *** The loop for higher ranks *)

  Lemma x_append_post (w0 : world T C) (t : tensor T) c p :
    tensor_ok t -> small dbg t -> zlen (p_items p) <= p_cap p -> p_cap p <= isize_max -> p_w p = after c (p_items p ++ tn_mem t) [] w0 ->
    (exists cap, x_de_append dbg al t p = Done tt (mkParts (p_items p ++ tn_mem t) cap (p_dims p) (p_w p)) /\
       zlen (p_items p ++ tn_mem t) <= cap /\ cap <= isize_max) \/
    (exists p', x_de_append dbg al t p = Unwound p' /\ from_here w0 (p_items p') (p_w p') /\
       al_ok al (zlen (p_items p) + zlen (tn_mem t)) = false).
  Proof.
    intros HT HS HC HI HW. unfold x_de_append, seqM, holding.
    assert (X : xt_into_vec dbg t p = Done (tn_mem t, tn_cap t) p) by now apply x_into_vec_ok.
    rewrite X. cbn [fst]. destruct (@x_reserve_cases (zlen (tn_mem t)) p HI) as [(cap & -> & C1 & C2 & C3)|[-> [A0 _]]].
    - left. exists cap. split; [reflexivity|]. unfold zlen in *. rewrite app_length. lia.
    - right. eexists. split; [reflexivity|]. cbn [parts_w p_items p_w]. split; [|exact A0].
      exists c, (p_items p ++ tn_mem t), (tn_mem t). rewrite HW, drop_after. auto.
  Qed.

  Section Rows.
    Variables (ds' : list dimty) (d : dimty).
    Let ds := d :: ds'.
    Variables (sub : sdata E -> M (world T C) (option (tensor T))) (hint : Z).
    Hypothesis Hsub : forall v w, sized (length ds') v -> xdpost ds' v w (sub v w).
    Hypothesis Hh : 0 <= hint.
    Hypothesis Hn : nonneg (map dim_default ds).

    (** The dimensions stored so far, given the number of rows. *)
    Definition xrow_dims (size : Z) (p : parts T C) : Prop :=
      exists rd, p_dims p = dim_default d :: rd /\ typed (STuple ds') rd /\ nonneg rd /\ machine_dims rd /\ settle ds' rd = rd /\
        zlen (p_items p) = size * prodZ rd /\ (size = 0 -> rd = map dim_default ds').

    Lemma x_rows_post w0 (B : Z) : forall l size p,
      xholds w0 p -> 0 <= size -> xrow_dims size p ->
      Forall (fun v => box (length ds') v <= B) l -> Forall (sized (length ds')) l -> size + zlen l <= usize_max ->
      Forall2 (fun d n => d = DConst n \/ n <= B) ds' (tl (p_dims p)) ->
      (0 < size -> forall k, prodZ (firstn k (tl (p_dims p))) <= B) ->
      spost w0
        (fun n p' => n = size + zlen l /\ xholds w0 p' /\ xrow_dims n p' /\
                     (0 < size -> p_dims p' = p_dims p) /\
                     Forall2 (fun d n => d = DConst n \/ n <= B) ds' (tl (p_dims p')) /\
                     (0 < n -> forall k, prodZ (firstn k (tl (p_dims p'))) <= B) /\
                     (decides de dec -> exists xss, p_items p' = p_items p ++ concat xss /\
                                          Forall2 (rect dec (tl (p_dims p'))) l xss))
        (decides de dec -> forall dims xss, typed (STuple ds') dims ->
           (0 < size -> settle ds' dims = tl (p_dims p)) -> ~ Forall2 (rect dec dims) l xss)
        ((Z.max (size + zlen l) hint * Z.max 1 B <= usize_max) ->
         (forall n, 0 <= n <= Z.max (size + zlen l) hint * Z.max 1 B -> al_ok al n = true) ->
         (forall v, In v l -> adequate al (length ds') v) -> throws de)
        (x_de_rows dbg al (STuple ds) sub hint l size p).
    Proof.
      induction l as [|v l IH]; intros size p HP HS HR HB HZ HU HD HK; cbn [x_de_rows].
      - unfold ret. cbn [spost]. assert (EZ : size + zlen (@nil (sdata E)) = size) by (unfold zlen; cbn; lia). rewrite EZ.
        split; [reflexivity|]. split; [exact HP|]. split; [exact HR|]. repeat split; auto.
        intros _. exists []. cbn. rewrite app_nil_r. auto.
      - unfold seqM at 1. unfold inside_parts. inversion HZ as [|? ? HZ1 HZ2]; subst. pose proof (Hsub (p_w p) HZ1) as HE. unfold xdpost in HE.
        pose proof HP as [HC [HI [c HW]]]. pose proof HR as (rd & ED & TR & NR & MR & SR & LR & RD0).
        inversion HB as [|? ? HB1 HB2]; subst.
        assert (LL : size + 1 + zlen l = size + zlen (v :: l)) by (unfold zlen; cbn [length]; lia).
        pose proof (zlen_nonneg l) as ZL.
        destruct (sub v (p_w p)) as [[t|] w'|w'| |]; try contradiction.
        + destruct HE as (OK & SM & TT & ST & FB & KB & [c' ->] & RC).
          assert (TD : typed (STuple ds') (tn_dims t)) by (rewrite <- TT; apply (to_typed OK)).
          assert (LT : zlen (tn_mem t) = prodZ (tn_dims t)) by apply (to_len OK).
          assert (LB : zlen (tn_mem t) <= B).
          { specialize (KB (length (tn_dims t))). rewrite firstn_all in KB. lia. }
          assert (HB0 : 1 <= box (length ds') v) by apply box_pos.
          assert (FB' : Forall2 (fun d n => d = DConst n \/ n <= B) ds' (tn_dims t)).
          { clear - FB HB1. induction FB; constructor; auto. destruct H; auto; right; lia. }
          assert (KB' : forall k, prodZ (firstn k (tn_dims t)) <= B) by (intros k; specialize (KB k); lia).
          destruct (Z.eqb_spec size 0) as [->|SZ].
          * (* first row *)
            assert (LI : p_items p = []) by (destruct (p_items p); [reflexivity|unfold zlen in LR; cbn [length] in LR; lia]).
            unfold seqM at 1. unfold holding at 1. unfold seqM at 1.
            pose proof (zlen_nonneg (tn_mem t)) as ZM.
            destruct (@x_request_cases t hint OK SM Hh) as [[-> HO]|(req & -> & HQ)]; cbn [lift]; swap 1 2.
            -- unfold seqM at 1.
               destruct (@x_reserve_cases req (parts_w (after c' (tn_mem t) [] (p_w p)) p) HI) as [(cap & -> & C1 & C2 & C3)|[-> [A0 C2]]];
                 cbn [parts_w p_items p_cap p_dims p_w] in *.
               ++ unfold p_store. unfold seqM at 1. rewrite ED. cbn [hd].
                  assert (TY : typed (STuple ds) (dim_default d :: tn_dims t)).
                  { constructor; auto. unfold dim_ok. destruct d; cbn; auto. }
                  rewrite (@sh_store_typed _ _ TY). cbn [lift p_items p_cap p_w].
                  unfold seqM at 1.
                  destruct (@x_append_post w0 t c' (mkParts (p_items p) cap (dim_default d :: tn_dims t) (after c' (tn_mem t) [] (p_w p)))) as [(cap' & -> & CC & CI)|(p' & -> & FH & A0)];
                    cbn [parts_w p_items p_cap p_dims p_w] in *; auto; try lia.
                  { now rewrite HW, LI, after_after. }
                  ** rewrite LI in *. cbn [app] in *.
                     unfold seqM at 1. rewrite u_res_fit by (unfold is_usize; lia). cbn [lift].
                     eapply spost_mono; [| | |apply IH]; cbn beta; cbn [p_items p_dims p_w tl] in *.
                     --- rewrite LL. intros n p' (-> & H1 & H2 & H3 & H4 & H5 & H6). split; [reflexivity|]. split; [exact H1|]. split; [exact H2|].
                         split; [lia|]. split; [exact H4|]. split; [exact H5|].
                         intros D. destruct (H6 D) as (xss & E1 & F1). exists (tn_mem t :: xss). rewrite E1. split; [reflexivity|].
                         constructor; auto. rewrite H3 by lia. cbn [tl]. auto.
                     --- intros H D dims xss TY' HS' F. inversion F as [|? xs ? xss' R F']; subst.
                         apply (H D dims xss'); auto. intros _. rewrite <- ST.
                         exact (rect_settle TY' TD R (RC D)).
                     --- rewrite LL. intros H H1 H2 H3. apply H; auto. intros u Hu. apply H3. now right.
                     --- split; [exact CC|]. split; [exact CI|]. exists c'. cbn [p_items p_w]. now rewrite HW, after_after.
                     --- lia.
                     --- exists (tn_dims t). cbn [p_dims p_items]. split; [reflexivity|]. split; [exact TD|]. split; [apply (to_nonneg OK)|]. split; [apply (sm_dims SM)|].
                         split; [exact ST|]. split; lia.
                     --- exact HB2.
                     --- exact HZ2.
                     --- lia.
                     --- exact FB'.
                     --- intros _. exact KB'.
                  ** split; [exact FH|]. intros H1 H2 H3. rewrite H2 in A0; [discriminate|]. rewrite LI. change (zlen (@nil T)) with 0.
                     pose proof (zlen_nonneg (tn_mem t)). apply need_bound; lia.
               ++ cbn [spost p_items p_w]. split.
                  ** exists c', (tn_mem t), (tn_mem t). rewrite HW, !LI, after_after, drop_after. cbn. rewrite ?LI. auto.
                  ** intros H1 H2 H3. rewrite LI in A0. rewrite H2 in A0; [discriminate|]. change (zlen (@nil T)) with 0.
                     rewrite LI in *. change (zlen (@nil T)) with 0 in *.
                     assert (X : 0 <= zlen (tn_mem t) * hint <= Z.max (0 + zlen (v :: l)) hint * Z.max 1 B) by (apply hint_bound; nia). lia.
            -- cbn [spost parts_w p_items p_w]. split.
               ++ exists c', (tn_mem t), (tn_mem t). rewrite HW, !LI, after_after, drop_after. cbn. rewrite ?LI. auto.
               ++ intros H1 H2 H3. exfalso. assert (0 <= zlen (tn_mem t) * hint) by nia.
                  assert (X : 0 <= zlen (tn_mem t) * hint <= Z.max (0 + zlen (v :: l)) hint * Z.max 1 B); [|lia].
                  assert (0 < usize_max) by reflexivity. apply hint_bound; lia.
          * (* further rows *)
            cbn [parts_w p_dims]. destruct (slice_eqb (tn_dims t) (tl (p_dims p))) eqn:EQ.
            -- apply slice_eqb_iff in EQ. rewrite ED in EQ. cbn [tl] in EQ. unfold seqM at 1.
               destruct (@x_append_post w0 t c' (parts_w (after c' (tn_mem t) [] (p_w p)) p)) as [(cap' & -> & CC & CI)|(p' & -> & FH & A0)];
                 cbn [parts_w p_items p_cap p_dims p_w] in *; auto; try lia.
               { now rewrite HW, after_after. }
               ++ unfold seqM at 1. rewrite u_res_fit by (unfold is_usize; lia). cbn [lift].
                  eapply spost_mono; [| | |apply IH]; cbn beta; cbn [p_items p_dims p_w tl] in *.
                  ** rewrite LL. intros n p' (-> & H1 & H2 & H3 & H4 & H5 & H6). split; [reflexivity|]. split; [exact H1|]. split; [exact H2|].
                     split; [intros _; apply H3; lia|]. split; [exact H4|]. split; [exact H5|].
                     intros D. destruct (H6 D) as (xss & E1 & F1). exists (tn_mem t :: xss). rewrite E1, <- app_assoc. split; [reflexivity|].
                     constructor; auto. rewrite H3, ED by lia. cbn [tl]. rewrite <- EQ. auto.
                  ** intros H D dims xss TY' HS' F. inversion F as [|? xs ? xss' R F']; subst.
                     apply (H D dims xss'); auto. intros _. apply HS'. lia.
                  ** rewrite LL. intros H H1 H2 H3. apply H; auto. intros u Hu. apply H3. now right.
                  ** split; [exact CC|]. split; [exact CI|]. exists c'. cbn [p_items p_w]. now rewrite HW, after_after.
                  ** lia.
                  ** exists rd. cbn [p_dims p_items]. split; [exact ED|]. split; [exact TR|]. split; [exact NR|]. split; [exact MR|].
                     split; [exact SR|]. unfold zlen in *. rewrite app_length, Nat2Z.inj_add, LR, LT, EQ. split; [ring|lia].
                  ** exact HB2.
                  ** exact HZ2.
                  ** lia.
                  ** exact HD.
                  ** intros _. apply HK. lia.
               ++ split; [exact FH|]. intros H1 H2 H3. rewrite H2 in A0; [discriminate|]. 
                  rewrite LR, LT, EQ. specialize (KB' (length (tn_dims t))). rewrite firstn_all, EQ in KB'.
                  pose proof (prodZ_nonneg NR). replace (size * prodZ rd + prodZ rd) with ((size + 1) * prodZ rd) by ring.
                  apply size_bound; lia.
            -- cbn [spost parts_w p_items p_w]. split.
               ++ exists c', (p_items p ++ tn_mem t), (tn_mem t). rewrite HW, after_after, drop_after. auto.
               ++ intros D dims xss TY' HS' F. inversion F as [|? xs ? xss' R F']; subst.
                  assert (X : settle ds' dims = settle ds' (tn_dims t)).
                  { exact (rect_settle TY' TD R (RC D)). }
                  rewrite HS', ST in X by lia. assert (Y : slice_eqb (tn_dims t) (tl (p_dims p)) = true) by (apply slice_eqb_iff; auto).
                  congruence.
        + destruct HE as [(c' & ms & dr & -> & PM) HN]. cbn [ret spost parts_w p_items p_w]. split.
          * exists c', (p_items p ++ ms), dr. rewrite HW, after_after. split; [reflexivity|]. now apply Permutation_app_head.
          * intros D dims xss TY' HS' F. inversion F as [|? xs ? xss' R F']; subst. now apply (HN D dims xs TY').
        + destruct HE as [(c' & ms & dr & -> & PM) HN]. cbn [ret spost parts_w p_items p_w]. split.
          * exists c', (p_items p ++ ms), dr. rewrite HW, after_after. split; [reflexivity|]. now apply Permutation_app_head.
          * intros _ _ H. apply HN, H. now left.
    Qed.
  End Rows.

  (** *** The end of [visit_seq] *)

  Definition xgathered d ds' h l (w0 : world T C) (n : Z) (p : parts T C) : Prop :=
    n = zlen l /\ xholds w0 p /\
    exists rd, p_dims p = dim_default d :: rd /\ typed (STuple ds') rd /\ nonneg rd /\ machine_dims rd /\ settle ds' rd = rd /\
      zlen (p_items p) = n * prodZ rd /\ (n = 0 -> rd = map dim_default ds') /\
      Forall2 (fun d n => d = DConst n \/ n <= box (S (length ds')) (SSeq h l)) ds' rd /\
      (forall k, n * prodZ (firstn k rd) <= box (S (length ds')) (SSeq h l)) /\
      (decides de dec -> rect dec (n :: rd) (SSeq h l) (p_items p)).

  Lemma x_finish_post d ds' h l w0 m :
    let ds := d :: ds' in
    nonneg (map dim_default ds) -> const_small (STuple ds) -> ty_wf (STuple ds) -> zlen l <= usize_max ->
    spost w0 (xgathered d ds' h l w0)
      (decides de dec -> forall dims xs, typed (STuple ds) dims -> ~ rect dec dims (SSeq h l) xs)
      (adequate al (S (length ds')) (SSeq h l) -> throws de) (m (mkParts [] 0 (map dim_default ds) w0)) ->
    xdpost ds (SSeq h l) w0 (x_de_finish dbg ds m w0).
  Proof.
    intros ds HN CS W HU H. unfold x_de_finish. unfold seqM at 1.
    destruct (m _) as [[n|] p|p| |]; cbn [spost] in H; try contradiction.
    - destruct H as (EN & [HC [HI [c HW]]] & rd & ED & TR & NR & MR & SR & LR & RD0 & FB & KB & RC). pose proof (zlen_nonneg l).
      assert (N1 : nonneg (n :: rd)) by (constructor; [lia|exact NR]).
      assert (PN : prodZ (n :: rd) = zlen (p_items p)) by (rewrite prodZ_cons; lia).
      assert (S1 : settle ds (n :: rd) = n :: rd).
      { unfold ds. cbn [settle]. f_equal. destruct (Z.eqb_spec n 0) as [E0|E0]; auto. now rewrite RD0. }
      assert (K1 : forall k, prodZ (firstn k (n :: rd)) <= box (S (length ds')) (SSeq h l)).
      { intros [|k]; cbn [firstn]; [exact (box_pos (S (length ds')) (SSeq h l))|]. rewrite prodZ_cons. apply KB. }
      assert (NB : n <= box (S (length ds')) (SSeq h l)) by (specialize (KB 0%nat); cbn [firstn prodZ fold_right] in KB; lia).
      assert (DONE : typed (STuple ds) (n :: rd) -> forall cap, zlen (p_items p) <= cap -> cap <= isize_max ->
        xdpost ds (SSeq h l) w0 ((t <- xt_from_vec dbg (p_items p) cap ;; t' <- xt_into_shape dbg (STuple ds) (n :: rd) t ;; ret (Some t')) (p_w p))).
      { intros TY cap CP CI. assert (M1 : machine_dims (n :: rd)) by (constructor; [lia|exact MR]).
        pose proof (@x_close_ok ds (n :: rd) (p_items p) cap (p_w p) TY N1 M1 CP CI) as XC. cbv zeta in XC. destruct (@close_ok T C ds (n :: rd) (p_items p) cap (p_w p) TY N1 CS W PN CP) as [EX|[EX HF]]; rewrite EX in XC; (destruct XC as [-> SM]; [discriminate|]).
        - cbn [xdpost tn_dims tn_mem]. split; [|split; [exact SM|split; [reflexivity|split; [exact S1|split; [|split; [exact K1|split; [|exact RC]]]]]]].
          + constructor; cbn [tn_dims tn_mem tn_ty tn_cap]; auto.
          + constructor; auto.
          + exists c. exact HW.
        - cbn [xdpost]. split.
          + exists c, (p_items p), (p_items p). rewrite HW, drop_after. auto.
          + change (length ds) with (S (length ds')). intros [A1 A2]. exfalso. apply HF. split; [intros k; specialize (K1 k); lia|].
            intros I. assert (F2 : Forall2 (fun d n => d = DConst n \/ n <= box (S (length ds')) (SSeq h l)) ds (n :: rd)) by (constructor; auto).
            clear - I F2 A1 CS. unfold const_small in CS. revert CS I. induction F2 as [|a b x y H F2 IH]; intros CS I; [easy|].
            inversion CS; subst. destruct I as [->|I]; [|now apply IH]. destruct H as [->|H]; [congruence|lia]. }
      cbn [sh_head]. destruct d as [k|]; cbn [sh_head ds].
      + rewrite ED. cbn [hd dim_default].
        destruct (Z.eqb_spec n k) as [->|NE].
        * cbv iota. cbn [dim_default]. apply DONE; auto. constructor; auto. reflexivity.
        * cbn [xdpost]. split.
          -- exists c, (p_items p), (p_items p). rewrite HW, drop_after. auto.
          -- intros D dims xs TY R. inversion TY as [|? b ? bs H1 H2]; subst. cbn in H1. subst b.
             destruct R as (h' & l' & xss & E0 & Z0 & _). injection E0 as <- <-. lia.
      + unfold p_store. unfold seqM at 1 2. rewrite ED. cbn [tl].
        assert (TY : typed (STuple ds) (n :: rd)) by (constructor; [exact I|auto]).
        unfold seqM. rewrite (@sh_store_typed _ _ TY). cbn [lift ret p_items p_cap p_dims p_w]. unfold ret. cbn [p_items p_cap p_dims p_w].
        apply DONE; auto.
    - unfold ret. cbn [xdpost]. destruct H as [(c & ms & dr & E0 & PM) HB]. rewrite E0. split; [|exact HB].
      exists c, ms, (dr ++ p_items p). rewrite drop_after. split; [reflexivity|]. cbn. rewrite PM. apply Permutation_app_comm.
    - unfold ret. cbn [xdpost]. destruct H as [(c & ms & dr & E0 & PM) HB]. rewrite E0. split; [|exact HB].
      exists c, ms, (dr ++ p_items p). rewrite drop_after. split; [reflexivity|]. cbn. rewrite PM. apply Permutation_app_comm.
  Qed.

  (** *** The loops *)

  Definition x_loop (d : dimty) (ds' : list dimty) (h : option Z) (l : list (sdata E)) : M (parts T C) (option Z) :=
    match ds' with
    | [] => vec_reserve al (hint_of h) ;;; x_de_elems dbg al de l 0
    | _ => x_de_rows dbg al (STuple (d :: ds')) (x_de_tensor dbg al de ds') (hint_of h) l 0
    end.

  Lemma x_loop_post d ds' h l w :
    nonneg (map dim_default (d :: ds')) -> nonneg (map dim_default ds') -> machine_dims (map dim_default ds') ->
    zlen l <= usize_max -> 0 <= hint_of h <= usize_max -> Forall (sized (length ds')) l ->
    (forall v w, sized (length ds') v -> xdpost ds' v w (x_de_tensor dbg al de ds' v w)) ->
    spost w (xgathered d ds' h l w)
      (decides de dec -> forall dims xs, typed (STuple (d :: ds')) dims -> ~ rect dec dims (SSeq h l) xs)
      (adequate al (S (length ds')) (SSeq h l) -> throws de) (x_loop d ds' h l (mkParts [] 0 (map dim_default (d :: ds')) w)).
  Proof.
    intros HN HN' HM' HZ1 HZ2 HZ3 IH. unfold x_loop.
    pose proof (zlen_nonneg l) as ZL. pose proof (box_len (length ds') h l) as BL. pose proof (box_hint (length ds') h l) as BH. pose proof (most_pos (length ds') l) as MP.
    assert (H0 : xholds w (mkParts [] 0 (map dim_default (d :: ds')) w)).
    { split; [cbn; lia|]. split; [cbn; unfold isize_max; lia|]. exists (w_clo w). cbn. unfold after. rewrite !app_nil_r. now destruct w. }
    destruct ds' as [|d' ds''].
    + (* rank 1 *)
      unfold seqM at 1. destruct (@x_reserve_cases (hint_of h) (mkParts [] 0 (map dim_default [d]) w) ltac:(cbn; unfold isize_max; lia)) as [(cap & -> & C1 & C2 & C3)|[-> [A0 C2]]];
        cbn [p_items p_cap p_dims p_w] in *.
      * eapply spost_mono; [| | |apply x_elems_post with (w0 := w)]; cbn beta; cbn [p_items p_dims p_w] in *.
        -- intros n p' (EN & H1 & H2 & H3 & H4). split; [lia|]. split; [exact H1|]. exists []. rewrite H2. cbn [map].
           split; [reflexivity|]. split; [constructor|]. split; [constructor|]. split; [constructor|]. split; [reflexivity|]. split; [cbn; lia|]. split; [reflexivity|].
           split; [constructor|]. split; [intros k; rewrite firstn_nil; cbn [prodZ fold_right]; nia|].
           intros D. destruct (H4 D) as (xs & E1 & F1). cbn [app] in E1. exists h, l, (map (fun x => [x]) xs).
           split; [reflexivity|]. split; [lia|]. split.
           ++ clear - F1. induction F1; cbn [map]; constructor; auto. exists y. auto.
           ++ rewrite E1. clear. induction xs; cbn; congruence.
        -- intros H D dims xs TY R. inversion TY as [|? b ? bs Hb Hbs]; subst. inversion Hbs; subst.
           destruct R as (h' & l' & xss & E0 & Z0 & F0 & ->). injection E0 as <- <-. apply (H D (concat xss)).
           clear - F0. induction F0 as [|a b la lb H F0 IHF]; cbn [concat]; [constructor|]. destruct H as (x & E1 & ->). constructor; auto.
        -- intros H [A1 A2]. apply H. intros n Hn. apply A2. nia.
        -- split; [cbn in *; lia|]. split; [exact C3|]. exists (w_clo w). cbn. unfold after. rewrite !app_nil_r. now destruct w.
        -- lia.
        -- reflexivity.
        -- lia.
      * cbn [spost p_items p_w]. split; [apply (xholds_from H0)|]. intros [A1 A2]. rewrite A2 in A0; [discriminate|].
        change (zlen (@nil T)) with 0 in *. nia.
    + eapply spost_mono; [| | |apply x_rows_post with (w0 := w) (ds' := d' :: ds'') (d := d) (B := most (length (d' :: ds'')) l)]; cbn beta; cbn [p_items p_dims p_w] in *.
      * intros n p' (EN & H1 & H2 & _ & H4 & H5 & H6). rewrite Z.add_0_l in EN. split; [exact EN|]. split; [exact H1|].
        destruct H2 as (rd & ED & TR & NR & MR & SR & LR & RD0). exists rd. rewrite ED in *. cbn [tl] in *.
        assert (LB : zlen l * most (length (d' :: ds'')) l <= box (S (length (d' :: ds''))) (SSeq h l)) by lia.
        split; [reflexivity|]. split; [exact TR|]. split; [exact NR|]. split; [exact MR|]. split; [exact SR|]. split; [exact LR|]. split; [exact RD0|].
        split.
        { assert (MB : n = 0 \/ most (length (d' :: ds'')) l <= box (S (length (d' :: ds''))) (SSeq h l)) by nia. destruct MB as [->|MB].
          - rewrite RD0 by reflexivity. pose proof (box_pos (S (length (d' :: ds''))) (SSeq h l)) as BP. revert BP. generalize (box (S (length (d' :: ds''))) (SSeq h l)). intros z BP. clear - BP. induction (d' :: ds'') as [|a b IHb]; cbn [map]; constructor; auto.
            destruct a; cbn; auto. right; lia.
          - revert H4 MB. generalize (box (S (length (d' :: ds''))) (SSeq h l)) (most (length (d' :: ds'')) l). intros z m H4 MB. clear - H4 MB. induction H4; constructor; auto. destruct H; auto. right; lia. }
        split.
        { intros k. destruct (Z.eq_dec n 0) as [->|NZ]; [pose proof (box_pos (S (length (d' :: ds''))) (SSeq h l)); lia|]. specialize (H5 ltac:(lia) k). nia. }
        intros D. destruct (H6 D) as (xss & E1 & F1). exists h, l, xss. cbn [app] in E1. auto.
      * intros H D dims xs TY R. inversion TY as [|? b ? bs Hb Hbs]; subst.
        destruct R as (h' & l' & xss & E0 & Z0 & F0 & ->). injection E0 as <- <-. apply (H D bs xss); auto. lia.
      * intros H A. pose proof A as [A1 A2]. assert (BB : Z.max (0 + zlen l) (hint_of h) * Z.max 1 (most (length (d' :: ds'')) l) <= box (S (length (d' :: ds''))) (SSeq h l)).
        { rewrite box_seq, Z.add_0_l. rewrite (Z.max_r 1 (most (length (d' :: ds'')) l)) by lia. lia. }
        apply H.
        -- lia.
        -- intros n Hn. apply A2. lia.
        -- intros v Hv. eapply adequate_in; eauto.
      * intros u wu Hu. now apply IH.
      * lia.
      * exact HN.
      * exact H0.
      * lia.
      * exists (map dim_default (d' :: ds'')). cbn [p_dims p_items]. split; [reflexivity|]. split; [apply (default_typed (STuple (d' :: ds'')))|].
        split; [exact HN'|]. split; [exact HM'|]. split; [apply settle_default|]. split; [cbn; lia|auto].
      * apply Forall_forall. intros v Hv. now apply most_in.
      * exact HZ3.
      * lia.
      * cbn [tl map]. revert MP. generalize (most (length (d' :: ds'')) l). intros z MP. clear - MP. change (dim_default d' :: map dim_default ds'') with (map dim_default (d' :: ds'')).
        induction (d' :: ds'') as [|a b IHb]; cbn [map]; constructor; auto. destruct a; cbn; auto. right; lia.
      * lia.
  Qed.

  (** ** The main theorem *)

  Theorem x_de_tensor_post ds : nonneg (map dim_default ds) -> machine_dims (map dim_default ds) -> const_small (STuple ds) -> ty_wf (STuple ds) ->
    forall v w, sized (length ds) v -> xdpost ds v w (x_de_tensor dbg al de ds v w).
  Proof.
    induction ds as [|d ds' IH]; intros HN HM CS W v w HZ.
    - cbn [x_de_tensor]. unfold seqM at 1. pose proof (de_elem_post de dec v w) as HE. pose proof (box_pos 0 v).
      destruct (de_elem de v w) as [[x|] w'|w'| |]; try contradiction.
      + destruct HE as [[c ->] HD]. assert (OK1 : tensor_ok (mkTensor (STuple [DDyn]) [1] [x] 1)) by (constructor; cbn; try lia; repeat constructor; lia).
        assert (SM1 : small dbg (mkTensor (STuple [DDyn]) [1] [x] 1)).
        { destruct (@flat_counted dbg 1) as (F1 & F2 & F3); [unfold usize_max; lia|]. constructor; auto. cbn. unfold isize_max; lia. }
        pose proof (@x_into_shape_ok dbg T C _ (after c [x] [] w) OK1 SM1 (STuple []) [] ltac:(constructor) ltac:(constructor) eq_refl) as XI.
        unfold same_osmall in XI. unfold seqM. rewrite into_shape_eq in XI.
        * assert (X : sh_reshape (tn_dims (mkTensor (STuple [DDyn]) [1] [x] 1)) (STuple []) [] = Ok []) by reflexivity.
          rewrite X in XI. cbn [tn_mem tn_cap osmall] in XI. destruct XI as [-> SM]; [discriminate|]. unfold ret. cbn [xdpost tn_dims tn_mem].
          split; [constructor; cbn; auto; try constructor; lia|]. split; [exact SM|]. split; [reflexivity|]. split; [reflexivity|]. split; [constructor|].
          split; [intros k; rewrite firstn_nil; cbn; lia|]. split; [exists c; reflexivity|]. intros D. exists x. split; auto.
        * exact OK1.
        * constructor.
        * reflexivity.
      + destruct HE as [[c ->] HD]. unfold ret. cbn [xdpost]. split; [exists c, [], []; auto|].
        intros D [|n dims] xs TY R; [|inversion TY]. destruct R as (x & E0 & _). rewrite HD in E0; [discriminate|auto].
      + destruct HE as [[c ->] HD]. cbn [xdpost]. split; [exists c, [], []; auto|]. auto.
    - assert (HN' : nonneg (map dim_default ds')) by (inversion HN; auto).
      assert (CS' : const_small (STuple ds')) by (inversion CS; auto).
      assert (W' : ty_wf (STuple ds')) by (cbn in *; lia).
      assert (HM' : machine_dims (map dim_default ds')) by (inversion HM; auto).
      specialize (IH HN' HM' CS' W'). cbn [x_de_tensor]. destruct v as [x|h l].
      { unfold ret. cbn [xdpost]. split.
        - exists (w_clo w), [], []. split; [unfold after; rewrite !app_nil_r; now destruct w|constructor].
        - intros D dims xs TY R. inversion TY; subst. destruct R as (h & l & xss & E0 & _). discriminate. }
      cbn [sized length] in HZ. destruct HZ as (HZ1 & HZ2 & HZ3). fold (hint_of h) in HZ2.
      apply x_finish_post; auto. fold (hint_of h). now apply x_loop_post.
  Qed.
End Machine.
(** ** When nothing overflows *)

Lemma seq_cong {S A B} (m1 m2 : M S A) (k1 k2 : A -> M S B) s :
  m1 s = m2 s -> (forall a s', m1 s = Done a s' -> k1 a s' = k2 a s') -> (x <- m1 ;; k1 x) s = (x <- m2 ;; k2 x) s.
Proof. intros E H. unfold seqM. rewrite <- E. destruct (m1 s); auto. Qed.

Section Exact.
  Context (dbg : bool) {T C E : Type} (al : allocator) (de : sdata E -> C -> call (option T) C).
  Hypothesis HA : al_machine al.

  Lemma x_elems_eq : forall l size (p : parts T C), 0 <= size -> size + zlen l <= usize_max ->
    x_de_elems dbg al de l size p = de_elems al de l size p.
  Proof.
    induction l as [|v l IH]; intros size p HS HU; cbn [x_de_elems de_elems]; [reflexivity|].
    assert (LL : size + 1 + zlen l = size + zlen (v :: l)) by (unfold zlen; cbn [length]; lia). pose proof (zlen_nonneg l).
    apply seq_cong; [reflexivity|]. intros [x|] p1 _; [|reflexivity].
    apply seq_cong; [reflexivity|]. intros _ p2 _. apply seq_cong; [reflexivity|]. intros _ p3 _.
    unfold seqM. rewrite u_res_fit by (unfold is_usize; lia). cbn [lift]. apply IH; lia.
  Qed.

  Lemma x_append_eq (t : tensor T) (p : parts T C) : tensor_ok t -> small dbg t -> x_de_append dbg al t p = de_append al t p.
  Proof.
    intros OK SM. unfold x_de_append, de_append. now rewrite (seq_done _ (x_into_vec_ok OK SM p)), (seq_done _ (into_vec_done p OK)).
  Qed.

  Lemma x_request_eq (t : tensor T) h : tensor_ok t -> small dbg t -> 0 <= h ->
    dbg = true \/ tn_len t * h <= usize_max ->
    x_request dbg t h = if tn_len t * h <=? usize_max then Ok (tn_len t * h) else Panic.
  Proof.
    intros OK SM H K. unfold x_request. rewrite (counted_len (to_nonneg OK) (sm_count SM)). cbn [bind].
    unfold tn_len in *. rewrite sh_len_prod in *. pose proof (prodZ_nonneg (to_nonneg OK)). assert (0 <= prodZ (tn_dims t) * h) by nia.
    unfold u_res, u_fits. destruct (Z.leb_spec 0 (prodZ (tn_dims t) * h)); [|lia]. cbn [andb].
    destruct (Z.leb_spec (prodZ (tn_dims t) * h) usize_max); [reflexivity|]. destruct K as [->|K]; [reflexivity|lia].
  Qed.

  Lemma x_rows_eq ty (sub1 sub2 : sdata E -> M (world T C) (option (tensor T))) h (K : sdata E -> Prop) :
    0 <= h ->
    (forall v w, K v -> sub1 v w = sub2 v w) ->
    (forall v w t w', K v -> sub1 v w = Done (Some t) w' -> tensor_ok t /\ small dbg t /\ (dbg = true \/ tn_len t * h <= usize_max)) ->
    forall l size (p : parts T C), 0 <= size -> size + zlen l <= usize_max -> Forall K l ->
    x_de_rows dbg al ty sub1 h l size p = de_rows al ty sub2 h l size p.
  Proof.
    intros Hh H1 H2. induction l as [|v l IH]; intros size p HS HU HK; cbn [x_de_rows de_rows]; [reflexivity|].
    inversion HK as [|? ? K1 K2]; subst.
    assert (LL : size + 1 + zlen l = size + zlen (v :: l)) by (unfold zlen; cbn [length]; lia). pose proof (zlen_nonneg l).
    apply seq_cong; [unfold inside_parts; now rewrite (H1 _ (p_w p) K1)|].
    intros [t|] p1 E1; [|reflexivity]. assert (X : exists w', sub1 v (p_w p) = Done (Some t) w').
    { unfold inside_parts in E1. destruct (sub1 v (p_w p)) as [a w'|w'| |]; try discriminate. injection E1 as -> _. eauto. }
    destruct X as [w' X]. destruct (H2 _ _ _ _ K1 X) as (OK & SM & LQ).
    assert (NX : forall q, (size' <- lift (u_res dbg (size + 1)) ;; x_de_rows dbg al ty sub1 h l size') q = de_rows al ty sub2 h l (size + 1) q).
    { intros q. unfold seqM. rewrite u_res_fit by (unfold is_usize; lia). cbn [lift]. apply IH; auto; lia. }
    assert (AP : forall q, (x_de_append dbg al t ;;; size' <- lift (u_res dbg (size + 1)) ;; x_de_rows dbg al ty sub1 h l size') q =
                           (de_append al t ;;; de_rows al ty sub2 h l (size + 1)) q).
    { intros q. apply seq_cong; [now apply x_append_eq|]. intros _ q' _. apply NX. }
    destruct (size =? 0).
    - assert (RQ : forall q : parts T C, holding (tn_mem t) (n <- lift (x_request dbg t h) ;; vec_reserve al n ;;;
                                fun p => p_store ty (hd 0 (p_dims p) :: tn_dims t) p) q =
                             holding (tn_mem t) (check (tn_len t * h <=? usize_max) ;;; vec_reserve al (tn_len t * h) ;;;
                                fun p => p_store ty (hd 0 (p_dims p) :: tn_dims t) p) q).
      { intros q. unfold holding, seqM, check. rewrite (x_request_eq OK SM Hh LQ). destruct (tn_len t * h <=? usize_max); reflexivity. }
      cbv zeta. apply seq_cong; [apply RQ|]. intros _ q _. apply AP.
    - destruct (slice_eqb _ _); auto.
  Qed.

  Lemma x_finish_eq d ds' h l w0 m1 m2 :
    let ds := d :: ds' in
    nonneg (map dim_default ds) -> const_small (STuple ds) -> ty_wf (STuple ds) -> zlen l <= usize_max ->
    m1 (mkParts [] 0 (map dim_default ds) w0) = m2 (mkParts [] 0 (map dim_default ds) w0) ->
    (forall n p, m1 (mkParts [] 0 (map dim_default ds) w0) = Done (Some n) p -> xgathered de (fun _ => None) d ds' h l w0 n p) ->
    x_de_finish dbg ds m1 w0 = de_finish ds m2 w0.
  Proof.
    intros ds HN CS W HU EM G. unfold x_de_finish, de_finish.
    destruct (m1 (mkParts [] 0 (map dim_default ds) w0)) as [[n|] p|p| |] eqn:E0; symmetry in EM.
    2-5: unfold seqM; rewrite E0, EM; reflexivity.
    rewrite (seq_done _ E0), (seq_done _ EM). specialize (G n p eq_refl).
    destruct G as (EN & [HC [HI [c HW]]] & rd & ED & TR & NR & MR & SR & LR & RD0 & FB & KB & RC). pose proof (zlen_nonneg l).
    assert (N1 : nonneg (n :: rd)) by (constructor; [lia|exact NR]).
    assert (M1 : machine_dims (n :: rd)) by (constructor; [lia|exact MR]).
    assert (PN : prodZ (n :: rd) = zlen (p_items p)) by (rewrite prodZ_cons; lia).
    assert (DONE : typed (STuple ds) (n :: rd) ->
      (t <- xt_from_vec dbg (p_items p) (p_cap p) ;; t' <- xt_into_shape dbg (STuple ds) (n :: rd) t ;; ret (Some t')) (p_w p) =
      (t <- tn_from_vec (p_items p) (p_cap p) ;; t' <- tn_into_shape (STuple ds) (n :: rd) t ;; ret (Some t')) (p_w p)).
    { intros TY. apply (@x_close_ok dbg T C ds (n :: rd) (p_items p) (p_cap p) (p_w p) TY N1 M1 HC HI).
      destruct (@close_ok T C ds (n :: rd) (p_items p) (p_cap p) (p_w p) TY N1 CS W PN HC) as [->|[-> _]]; discriminate. }
    destruct d as [k|]; cbn [sh_head ds].
    - rewrite ED. cbn [hd dim_default]. destruct (Z.eqb_spec n k) as [->|NE]; [|reflexivity].
      cbv iota. cbn [dim_default]. apply DONE. constructor; auto. reflexivity.
    - assert (TY : typed (STuple (DDyn :: ds')) (n :: rd)) by (constructor; [exact I|auto]).
      assert (E2 : (p_store (STuple (DDyn :: ds')) (n :: tl (p_dims p)) ;;; @ret _ (option unit) (Some tt)) p =
                   Done (Some tt) (mkParts (p_items p) (p_cap p) (n :: rd) (p_w p))).
      { unfold p_store, seqM. rewrite ED. cbn [tl]. rewrite (@sh_store_typed _ _ TY). reflexivity. }
      unfold ds in *. cbn [sh_head]. rewrite E2. cbn [p_items p_cap p_dims p_w]. apply DONE; auto.
  Qed.

  Lemma box_most n h (l : list (sdata E)) v : In v l -> 0 <= hint_of h -> box n v * hint_of h <= box (S n) (SSeq h l).
  Proof. intros H Hh. pose proof (@most_in E n l v H). pose proof (@box_hint E n h l). pose proof (@most_pos E n l). nia. Qed.

  Theorem x_de_tensor_eq ds :
    nonneg (map dim_default ds) -> machine_dims (map dim_default ds) -> const_small (STuple ds) -> ty_wf (STuple ds) ->
    forall v (w : world T C), sized (length ds) v -> dbg = true \/ box (length ds) v <= usize_max ->
    x_de_tensor dbg al de ds v w = de_tensor al de ds v w.
  Proof.
    induction ds as [|d ds' IH]; intros HN HM CS W v w HZ HB.
    - cbn [x_de_tensor de_tensor]. apply seq_cong; [reflexivity|]. intros [x|] w' _; [|reflexivity].
      apply seq_cong; [|reflexivity].
      assert (OK1 : tensor_ok (mkTensor (STuple [DDyn]) [1] [x] 1)) by (constructor; cbn; try lia; repeat constructor; lia).
      assert (SM1 : small dbg (mkTensor (STuple [DDyn]) [1] [x] 1)).
      { destruct (@flat_counted dbg 1) as (F1 & F2 & F3); [unfold usize_max; lia|]. constructor; auto. cbn. unfold isize_max; lia. }
      pose proof (@x_into_shape_ok dbg T C _ w' OK1 SM1 (STuple []) [] ltac:(constructor) ltac:(constructor) eq_refl) as XI.
      unfold same_osmall in XI. apply XI. rewrite into_shape_eq; auto; [|constructor]. cbn. discriminate.
    - assert (HN' : nonneg (map dim_default ds')) by (inversion HN; auto).
      assert (CS' : const_small (STuple ds')) by (inversion CS; auto).
      assert (W' : ty_wf (STuple ds')) by (cbn in *; lia).
      assert (HM' : machine_dims (map dim_default ds')) by (inversion HM; auto).
      specialize (IH HN' HM' CS' W'). cbn [x_de_tensor de_tensor]. destruct v as [x|h l]; [reflexivity|].
      cbn [sized length] in HZ. destruct HZ as (HZ1 & HZ2 & HZ3). fold (hint_of h) in *.
      pose proof (@x_loop_post dbg T C E al de (fun _ => None) HA d ds' h l w HN HN' HM' HZ1 HZ2 HZ3
        (@x_de_tensor_post dbg T C E al de (fun _ => None) HA ds' HN' HM' CS' W')) as LP.
      apply x_finish_eq with (h := h) (l := l); auto.
      + destruct ds' as [|d' ds''].
        * apply seq_cong; [reflexivity|]. intros _ p _. apply x_elems_eq; lia.
        * apply x_rows_eq with (K := fun v => sized (length (d' :: ds'')) v /\ In v l); try lia.
          -- intros u wu [Hu Iu]. apply IH; auto. destruct HB as [HB|HB]; auto. right.
             pose proof (@box_in E (length (d' :: ds'')) h l u Iu). cbn [length] in *. lia.
          -- intros u wu t w' [Hu Iu] E1. pose proof (@x_de_tensor_post dbg T C E al de (fun _ => None) HA (d' :: ds'') HN' HM' CS' W' u wu Hu) as P.
             rewrite E1 in P. destruct P as (OK & SM & _ & _ & _ & KB & _). split; [exact OK|]. split; [exact SM|].
             destruct HB as [HB|HB]; auto. right. specialize (KB (length (tn_dims t))). rewrite firstn_all in KB.
             pose proof (@box_most (length (d' :: ds'')) h l u Iu ltac:(lia)). unfold tn_len. rewrite sh_len_prod. cbn [length] in *. nia.
          -- apply Forall_forall. intros u Hu. split; [|exact Hu]. rewrite Forall_forall in HZ3. now apply HZ3.
      + intros n p E1. unfold x_loop in LP. rewrite E1 in LP. exact LP.
  Qed.
End Exact.
