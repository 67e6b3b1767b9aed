(** Serialization, and round trips. *)
From Verif Require Import Base Spec SpecFacts Shape Mapping Index View Wf MappingFacts MapOps ReshapeFacts ViewFacts
  Expr ExprFacts Tensor TraceFacts TensorSpec TensorFacts TensorOps DrainFacts OwnFacts ZipFacts Ops OpsFacts OpsMore
  ViewMore ExprMore Serde SerdeSpec SerdeFacts.
Unset Strict Implicit.

Lemma deserialize_iff {T C E} al (de : sdata E -> C -> call (option T) C) dec ds v (w : world T C) :
  nonneg (map dim_default ds) -> const_small (STuple ds) -> ty_wf (STuple ds) ->
  decides de dec -> ~ throws de -> adequate al (length ds) v ->
  (forall dims xs, typed (STuple ds) dims -> rect dec dims v xs ->
     exists cap c, zlen xs <= cap /\
       de_tensor al de ds v w = Done (Some (mkTensor (STuple ds) (settle ds dims) xs cap)) (after c xs [] w)) /\
  ((forall dims xs, typed (STuple ds) dims -> ~ rect dec dims v xs) ->
     exists w', de_tensor al de ds v w = Done None w' /\ from_here w [] w').
Proof.
  intros HN CS W D NT A. pose proof (@de_tensor_post T C E al de dec ds HN CS W v w) as H.
  destruct (de_tensor al de ds v w) as [[t|] w'|w'| |]; cbn [dpost] in H; try contradiction.
  - destruct H as (OK & TT & ST & _ & _ & [c ->] & RC). specialize (RC D).
    assert (TD : typed (STuple ds) (tn_dims t)) by (rewrite <- TT; apply (to_typed OK)). split.
    + intros dims xs TY R. exists (tn_cap t), c.
      pose proof (rect_settle TY TD R RC) as E1. apply Forall2_len in TY, TD.
      destruct (rect_unique (ds := ds) (eq_sym TY) (eq_sym TD) R RC) as [_ ->]. rewrite E1, ST, <- TT.
      split; [apply (to_cap OK)|]. now destruct t.
    + intros N. exfalso. exact (N _ _ TD RC).
  - destruct H as [FH HB]. split.
    + intros dims xs TY R. exfalso. exact (HB D _ _ TY R).
    + eauto.
  - destruct H as [_ H]. exfalso. auto.
Qed.

(** ** The serialized form *)

Fixpoint nest {E} (get : list Z -> outcome (sdata E)) (dims : list Z) : outcome (sdata E) :=
  match dims with
  | [] => get []
  | d :: ds => let* l := mapM (fun k => nest (fun idx => get (k :: idx)) ds) (zrange d) in Ok (SSeq (Some d) l)
  end.

Lemma nest_ext {E} dims : forall (f g : list Z -> outcome (sdata E)),
  (forall idx, in_bounds dims idx -> f idx = g idx) -> nest f dims = nest g dims.
Proof.
  induction dims as [|d dims IH]; intros f g H; cbn [nest]; [apply H; constructor|].
  erewrite mapM_ext; [reflexivity|]. intros k Hk. apply in_zrange in Hk. cbn beta. apply IH. intros idx Hi.
  apply H. now constructor.
Qed.

Lemma ser_loop_ok {T E} (ser : T -> outcome (sdata E)) mem rank : forall v,
  valid_view (Z.of_nat (length mem)) v -> (length (v_dims v) <= rank)%nat -> fits (v_dims v) ->
  ser_loop ser mem rank v = nest (fun idx => let* x := v_get mem v idx in ser x) (v_dims v).
Proof.
  induction rank as [|rank IH]; intros v HV HR HF; cbn [ser_loop].
  all: destruct (v_dims v) as [|d ds] eqn:EV; [|cbn [length Nat.eqb]].
  1,3: cbn [length Nat.eqb nest]; reflexivity.
  - cbn in HR; lia.
  - rewrite <- EV in HF. destruct (rows HV EV HF) as (e & ws & E1 & Y1 & F1 & _ & L1 & W1 & _ & G1).
    rewrite E1. cbn [bind nest]. erewrite iter_entries_list; [|exact Y1|exact F1].
    erewrite (@mapM_Forall2 view Z _ _ _ _ _ _ G1); [reflexivity|].
    intros w k Hw HG. rewrite Forall_forall in W1. destruct (W1 w Hw) as (D1 & V1 & FW).
    rewrite IH; auto; [|rewrite D1; cbn in HR; lia]. rewrite D1. apply nest_ext. intros idx Hi. cbn beta. now rewrite HG.
Qed.

Lemma nest_encoded {E} dims : forall (get : list Z -> outcome (sdata E)) f,
  (forall idx, in_bounds dims idx -> get idx = Ok (f idx)) -> nest get dims = Ok (encoded f dims).
Proof.
  induction dims as [|d dims IH]; intros get f H; cbn [nest encoded].
  - apply H. constructor.
  - assert (X : forall ks, (forall k, In k ks -> 0 <= k < d) ->
      mapM (fun k => nest (fun idx => get (k :: idx)) dims) ks = Ok (map (fun k => encoded (fun idx => f (k :: idx)) dims) ks)).
    { induction ks as [|k ks IHk]; intros HK; [reflexivity|]. cbn [mapM map].
      rewrite IH with (f := fun idx => f (k :: idx)); [cbn [bind]|].
      - rewrite IHk; [reflexivity|]. intros k' H'. apply HK. now right.
      - intros idx Hi. apply H. constructor; auto. apply HK. now left. }
    rewrite X; [reflexivity|]. intros k Hk. now apply in_zrange.
Qed.

Lemma serialize_encoded {T E} (enc : T -> sdata E) mem v rank f :
  valid_view (Z.of_nat (length mem)) v -> fits (v_dims v) -> sh_rank (v_ty v) = Some rank ->
  (forall idx, in_bounds (v_dims v) idx -> exists x, v_get mem v idx = Ok x /\ f idx = enc x) ->
  v_serialize (fun x => Ok (enc x)) mem v = Ok (encoded f (v_dims v)).
Proof.
  intros HV HF HR HG. unfold v_serialize. rewrite HR. rewrite ser_loop_ok; auto.
  - apply nest_encoded. intros idx Hi. destruct (HG idx Hi) as (x & -> & ->). reflexivity.
  - pose proof (wf_typed (vv_wf HV)) as TY. unfold v_ty in HR. unfold v_dims. destruct (m_ty (v_map v)); [discriminate|].
    cbn in HR, TY. apply Forall2_len in TY. injection HR as <-. lia.
Qed.

Lemma encoded_ext {E} dims : forall (f g : list Z -> sdata E),
  (forall idx, in_bounds dims idx -> f idx = g idx) -> encoded f dims = encoded g dims.
Proof.
  induction dims as [|d dims IH]; intros f g H; cbn [encoded]; [apply H; constructor|]. f_equal.
  apply map_ext_in. intros k Hk. apply in_zrange in Hk. apply IH. intros idx Hi. apply H. now constructor.
Qed.

(** Reading it. *)
Lemma encoded_rect {T E} (dec : sdata E -> option T) dims : forall (f : list Z -> sdata E) xs,
  nonneg dims -> Forall2 (fun idx x => dec (f idx) = Some x) (indices dims) xs ->
  rect dec dims (encoded f dims) xs.
Proof.
  induction dims as [|d dims IH]; intros f xs N H; cbn [rect encoded indices] in *.
  - inversion H as [|? x ? ? H1 H2]; subst. inversion H2; subst. eauto.
  - inversion N as [|? ? N1 N2]; subst.
    assert (X : forall ks xs, Forall2 (fun idx x => dec (f idx) = Some x) (flat_map (fun i => map (cons i) (indices dims)) ks) xs ->
      exists xss, Forall2 (rect dec dims) (map (fun k => encoded (fun idx => f (k :: idx)) dims) ks) xss /\ xs = concat xss).
    { induction ks as [|k ks IHk]; intros ys F; cbn [flat_map map] in *.
      - inversion F. exists []. auto.
      - apply Forall2_app_inv_l in F. destruct F as (a & b & F1 & F2 & ->). destruct (IHk b F2) as (xss & F3 & ->).
        exists (a :: xss). split; [|reflexivity]. constructor; auto. apply IH; auto.
        clear - F1. revert a F1. induction (indices dims) as [|i l IHl]; intros a F1; cbn [map] in F1; inversion F1; subst; constructor; auto. }
    destruct (X (zrange d) xs H) as (xss & F & ->).
    exists (Some d), (map (fun k => encoded (fun idx => f (k :: idx)) dims) (zrange d)), xss.
    split; [reflexivity|]. split; [unfold zlen; rewrite map_length, zrange_length; lia|]. auto.
Qed.

Lemma encoded_box {E} dims : forall (f : list Z -> sdata E) c B,
  nonneg dims -> 1 <= c -> (forall k, c * prodZ (firstn k dims) <= B) -> c * box (length dims) (encoded f dims) <= B.
Proof.
  induction dims as [|d dims IH]; intros f c B N HC H; cbn [encoded length].
  - specialize (H 0%nat). cbn in *. lia.
  - inversion N as [|? ? N1 N2]; subst. rewrite box_seq. cbn [hint_of].
    assert (L : zlen (map (fun k => encoded (fun idx => f (k :: idx)) dims) (zrange d)) = d).
    { unfold zlen. rewrite map_length, zrange_length. lia. }
    rewrite L, Z.max_id. destruct (Z.eq_dec d 0) as [->|NZ].
    + specialize (H 0%nat). cbn [firstn prodZ fold_right] in H. nia.
    + assert (M : most (length dims) (map (fun k => encoded (fun idx => f (k :: idx)) dims) (zrange d)) = 1 \/
                  exists k, most (length dims) (map (fun k => encoded (fun idx => f (k :: idx)) dims) (zrange d)) = box (length dims) (encoded (fun idx => f (k :: idx)) dims)).
      { clear L. induction (zrange d) as [|k ks IHk]; [now left|]. cbn [map]. unfold most in *. cbn [fold_right].
        destruct (Z.max_spec (box (length dims) (encoded (fun idx => f (k :: idx)) dims))
                    (fold_right (fun v m => Z.max (box (length dims) v) m) 1 (map (fun k => encoded (fun idx => f (k :: idx)) dims) ks))) as [[_ ->]|[_ ->]]; eauto. }
      assert (K0 : forall k, c * d * prodZ (firstn k dims) <= B).
      { intros k. specialize (H (S k)). cbn [firstn] in H. rewrite prodZ_cons in H. lia. }
      specialize (H 0%nat). cbn [firstn prodZ fold_right] in H. destruct M as [->|[k ->]].
      * specialize (K0 0%nat). cbn [firstn prodZ fold_right] in K0. lia.
      * specialize (IH (fun idx => f (k :: idx)) (c * d) B N2 ltac:(nia) K0). lia.
Qed.

(** ** Round trips *)

(** [B]: an upper bound on the numbers of elements. *)
Definition room (al : allocator) (dims : list Z) : Prop :=
  exists B, (forall k, prodZ (firstn k dims) <= B) /\ B < usize_max /\ forall n, 0 <= n <= B -> al_ok al n = true.

Lemma serialize_rect {T E} al (enc : T -> sdata E) dec mem v ds xs :
  (forall x, dec (enc x) = Some x) -> valid_view (Z.of_nat (length mem)) v -> v_ty v = STuple ds ->
  room al (v_dims v) -> contents mem v xs ->
  exists data, v_serialize (fun x => Ok (enc x)) mem v = Ok data /\ rect dec (v_dims v) data xs /\ adequate al (length ds) data.
Proof.
  intros HD HV TY (B & HB & BU & AL) HC.
  pose proof (vv_wf HV) as WF. pose proof (wf_nonneg WF) as N. fold (v_dims v) in N.
  pose proof (wf_typed WF) as TD. fold (v_dims v) in TD. change (m_ty (v_map v)) with (v_ty v) in TD. rewrite TY in TD.
  assert (F : fits (v_dims v)) by (intros k; specialize (HB k); lia).
  set (f := fun idx => match v_get mem v idx with Ok x => enc x | _ => SSeq None [] end).
  assert (G : forall idx, in_bounds (v_dims v) idx -> exists x, v_get mem v idx = Ok x /\ f idx = enc x).
  { intros idx Hi. destruct (contents_nth HC Hi) as (x & _ & E2). exists x. unfold f. now rewrite E2. }
  assert (R : rect dec (v_dims v) (encoded f (v_dims v)) xs).
  { apply encoded_rect; auto. unfold contents in HC. clear - HC HD f. induction HC; constructor; auto. unfold f. now rewrite H. }
  assert (LD : length (v_dims v) = length ds) by (apply Forall2_len in TD; auto).
  exists (encoded f (v_dims v)). split; [|split; [exact R|]].
  - eapply serialize_encoded; eauto. rewrite TY. reflexivity.
  - assert (X : 1 * box (length (v_dims v)) (encoded f (v_dims v)) <= B).
    { apply encoded_box; auto; [lia|]. intros k. specialize (HB k). lia. }
    rewrite LD, Z.mul_1_l in X. split; [lia|]. intros k Hk. apply AL. lia.
Qed.

Lemma round_trip {T C E} al (enc : T -> sdata E) (de : sdata E -> C -> call (option T) C) dec mem v ds xs (w : world T C) :
  (forall x, dec (enc x) = Some x) -> decides de dec -> ~ throws de -> const_small (STuple ds) -> nonneg (map dim_default ds) ->
  valid_view (Z.of_nat (length mem)) v -> v_ty v = STuple ds -> room al (v_dims v) -> contents mem v xs ->
  exists data cap c, zlen xs <= cap /\
    v_serialize (fun x => Ok (enc x)) mem v = Ok data /\
    de_tensor al de ds data w = Done (Some (mkTensor (STuple ds) (settle ds (v_dims v)) xs cap)) (after c xs [] w).
Proof.
  intros HD D NT CS N0 HV TY RM HC. destruct (serialize_rect HD HV TY RM HC) as (data & E0 & R & A).
  pose proof (vv_wf HV) as WF.
  pose proof (wf_typed WF) as TD. fold (v_dims v) in TD. change (m_ty (v_map v)) with (v_ty v) in TD. rewrite TY in TD.
  pose proof (wf_ty WF) as W. change (m_ty (v_map v)) with (v_ty v) in W. rewrite TY in W.
  destruct (@deserialize_iff T C E al de dec ds data w N0 CS W D NT A) as [H _].
  destruct (H _ _ TD R) as (cap & c & C1 & E1). exists data, cap, c. auto.
Qed.

(** When the shape comes back. *)
Lemma settle_consts ds : forall dims, typed (STuple ds) dims -> consts ds -> settle ds dims = dims.
Proof. intros dims TY HC. rewrite (const_dims HC TY). apply settle_default. Qed.

(** The dimensions are kept exactly if every dynamic dimension below an empty one is 0. *)
Lemma settle_iff ds : forall dims, typed (STuple ds) dims ->
  (settle ds dims = dims <->
   forall i j, (i < j)%nat -> nth_error dims i = Some 0 -> nth_error ds j = Some DDyn -> nth_error dims j = Some 0).
Proof.
  induction ds as [|d ds IH]; intros dims TY; inversion TY as [|? n ? dims' H1 H2]; subst; cbn [settle].
  - split; auto. intros _ [|i] j _ H; discriminate.
  - destruct (Z.eqb_spec n 0) as [->|NZ].
    + split.
      * intros E0 i j LT _ HJ. destruct j as [|j]; [lia|]. cbn in *. injection E0 as <-.
        rewrite nth_error_map, HJ. reflexivity.
      * intros H. f_equal. apply nth_error_same. intros j. rewrite nth_error_map.
        destruct (nth_error ds j) as [x|] eqn:E1; cbn [option_map].
        -- destruct x as [k|]; cbn [dim_default].
           ++ destruct (Forall2_nth_error H2 E1) as (y & E2 & E3). cbn in E3. now subst.
           ++ symmetry. exact (H 0%nat (S j) ltac:(lia) eq_refl E1).
        -- symmetry. apply nth_error_None. apply nth_error_None in E1. apply Forall2_len in H2. lia.
    + split.
      * intros E0. injection E0 as E0. assert (X := proj1 (IH dims' H2) E0). intros [|i] [|j] LT HI HJ; cbn in *; try lia.
        -- injection HI as ->. lia.
        -- apply (X i j); auto; lia.
      * intros H. f_equal. apply IH; auto. intros i j LT HI HJ. apply (H (S i) (S j)); auto. lia.
Qed.

(** ** Arrays *)

Lemma ar_from_tensor_done {T C} ds (t : tensor T) (w : world T C) :
  consts ds -> tensor_ok t -> tn_ty t = STuple ds -> ar_from_tensor ds t w = Done (tn_mem t) w.
Proof.
  intros HC OK TT. unfold ar_from_tensor, owning.
  assert (LT : zlen (tn_mem t) = prodZ (tn_dims t)) by apply (to_len OK).
  rewrite (into_trace (tn_ty t) LT).
  assert (TD : typed (STuple ds) (tn_dims t)) by (rewrite <- TT; apply (to_typed OK)).
  unfold array_fill. rewrite sh_from_dims_spec. rewrite (proj2 (accepts_typed (STuple ds) (tn_dims t)) TD). rewrite <- (const_dims HC TD), sh_len_prod, <- LT. cbn [fst snd].
  assert (X : forall ys acc (w : world T C), zlen acc + zlen ys = zlen (tn_mem t) ->
    fill_array (zlen (tn_mem t)) (fun x w => Done x w) ys (acc, w) = Done tt (acc ++ ys, w)).
  { induction ys as [|y ys IH]; intros acc u L; cbn [fill_array].
    - now rewrite app_nil_r.
    - cbn [fst snd]. unfold zlen in L. cbn [length] in L.
      assert (LL : zlen acc <? zlen (tn_mem t) = true) by (unfold zlen; lia). rewrite LL, IH, <- app_assoc; [reflexivity|].
      unfold zlen. rewrite app_length. cbn [length]. lia. }
  unfold seqM. rewrite X by (unfold zlen; cbn; lia). cbn [lift app]. now rewrite Z.eqb_refl, w_drop_nil.
Qed.

Lemma ar_deserialize_iff {T C E} al (de : sdata E -> C -> call (option T) C) dec ds v (w : world T C) :
  consts ds -> nonneg (map dim_default ds) -> const_small (STuple ds) -> ty_wf (STuple ds) ->
  decides de dec -> ~ throws de -> adequate al (length ds) v ->
  (forall xs, rect dec (map dim_default ds) v xs ->
     exists c, ar_deserialize al de ds v w = Done (Some xs) (after c xs [] w)) /\
  ((forall xs, ~ rect dec (map dim_default ds) v xs) ->
     exists w', ar_deserialize al de ds v w = Done None w' /\ from_here w [] w').
Proof.
  intros HC HN CS W D NT A. destruct ds as [|d ds].
  - cbn [ar_deserialize]. unfold seqM. pose proof (@de_elem_post T C E de dec v w) as HE.
    destruct (de_elem de v w) as [[x|] w'|w'| |]; try contradiction.
    + destruct HE as [[c ->] HE]. split.
      * intros xs (y & E1 & ->). rewrite HE in E1 by exact D. injection E1 as <-. exists c. reflexivity.
      * intros H. exfalso. apply (H [x]). exists x. auto.
    + destruct HE as [[c ->] HE]. split.
      * intros xs (y & E1 & ->). rewrite HE in E1 by exact D. discriminate.
      * intros _. eexists. split; [reflexivity|]. exists c, [], []. auto.
    + destruct HE as [_ H]. contradiction.
  - unfold ar_deserialize. destruct (@deserialize_iff T C E al de dec (d :: ds) v w HN CS W D NT A) as [H1 H2]. split.
    + intros xs R. assert (TD := default_typed (STuple (d :: ds))). cbn [sh_default] in TD.
      destruct (H1 _ _ TD R) as (cap & c & CP & E1). exists c. unfold seqM. rewrite E1, settle_default.
      rewrite ar_from_tensor_done; auto. constructor; cbn [tn_dims tn_ty tn_mem tn_cap]; auto. apply (rect_len R).
    + intros NR. destruct H2 as (w' & E1 & FH). { intros dims xs TY R. rewrite (const_dims HC TY) in R. exact (NR xs R). }
      exists w'. unfold seqM. rewrite E1. split; [reflexivity|exact FH].
Qed.

Lemma ar_deserialize_returns {T C E} al (de : sdata E -> C -> call (option T) C) dec ds v (w : world T C) :
  consts ds -> nonneg (map dim_default ds) -> const_small (STuple ds) -> ty_wf (STuple ds) -> decides de dec ->
  match ar_deserialize al de ds v w with
  | Done (Some xs) _ => rect dec (map dim_default ds) v xs
  | Done None _ => forall xs, ~ rect dec (map dim_default ds) v xs
  | Unwound _ => adequate al (length ds) v -> throws de
  | Aborted | Fault => False
  end.
Proof.
  intros HC HN CS W D. destruct ds as [|d ds].
  - cbn [ar_deserialize]. unfold seqM. pose proof (@de_elem_post T C E de dec v w) as HE.
    destruct (de_elem de v w) as [[x|] w'|w'| |]; try contradiction.
    + destruct HE as [_ HE]. exists x. auto.
    + destruct HE as [_ HE]. intros xs (y & E1 & ->). rewrite HE in E1 by exact D. discriminate.
    + destruct HE as [_ H]. auto.
  - unfold ar_deserialize, seqM. pose proof (@de_tensor_post T C E al de dec (d :: ds) HN CS W v w) as H.
    destruct (de_tensor al de (d :: ds) v w) as [[t|] w'|w'| |]; cbn [dpost] in H; try contradiction.
    + destruct H as (OK & TT & _ & _ & _ & _ & RC). specialize (RC D).
      assert (TD : tn_dims t = map dim_default (d :: ds)) by (apply (const_dims HC); rewrite <- TT; apply (to_typed OK)).
      rewrite ar_from_tensor_done; auto. rewrite <- TD. exact RC.
    + destruct H as [_ H]. intros xs R. apply (H D (map dim_default (d :: ds)) xs); auto. apply (default_typed (STuple (d :: ds))).
    + apply H.
Qed.

(** ** Nests, element by element *)

Lemma rect_elements {T E} (dec : sdata E -> option T) dims : forall v xs,
  rect dec dims v xs -> Forall2 (fun idx x => exists u, sub_at v idx = Some u /\ dec u = Some x) (indices dims) xs.
Proof.
  induction dims as [|d dims IH]; intros v xs H; cbn [rect indices] in *.
  - destruct H as (x & H & ->). repeat constructor. exists v. auto.
  - destruct H as (hint & l & xss & -> & HL & F & ->).
    assert (X : forall l pre xss, Forall2 (rect dec dims) l xss ->
      Forall2 (fun idx x => exists u, sub_at (SSeq hint (pre ++ l)) idx = Some u /\ dec u = Some x)
        (flat_map (fun i => map (cons i) (indices dims)) (map Z.of_nat (seq (length pre) (length l)))) (concat xss)).
    { clear - IH. induction l as [|v l IHl]; intros pre xss F; inversion F as [|? ys ? yss F1 F2]; subst; cbn [length seq map flat_map concat].
      - constructor.
      - apply Forall2_app.
        + specialize (IH _ _ F1). clear - IH. revert ys IH.
          assert (N : nth_error (pre ++ v :: l) (Z.to_nat (Z.of_nat (length pre))) = Some v).
          { rewrite Nat2Z.id, nth_error_app2, Nat.sub_diag by lia. reflexivity. }
          induction (indices dims) as [|i is IHi]; intros ys H; inversion H; subst; cbn [map]; constructor; auto.
          cbn [sub_at]. rewrite N. auto.
        + specialize (IHl (pre ++ [v]) _ F2). rewrite <- app_assoc, app_length, Nat.add_1_r in IHl. exact IHl. }
    specialize (X l [] xss F). cbn [length app] in X. unfold zrange. rewrite <- HL. unfold zlen. rewrite Nat2Z.id. exact X.
Qed.

Lemma encoded_at {E} dims : forall (f : list Z -> sdata E) idx, in_bounds dims idx -> sub_at (encoded f dims) idx = Some (f idx).
Proof.
  induction dims as [|d dims IH]; intros f idx H; inversion H as [|? i ? is H1 H2]; subst; cbn [encoded sub_at]; auto.
  rewrite nth_error_map, nth_error_zrange by lia. cbn [option_map]. rewrite IH by auto. reflexivity.
Qed.

Lemma serialized_elements {T E} (enc : T -> sdata E) mem v rank :
  valid_view (Z.of_nat (length mem)) v -> fits (v_dims v) -> sh_rank (v_ty v) = Some rank ->
  exists f, v_serialize (fun x => Ok (enc x)) mem v = Ok (encoded f (v_dims v)) /\
    forall idx, in_bounds (v_dims v) idx ->
      sub_at (encoded f (v_dims v)) idx = Some (f idx) /\ exists x, v_get mem v idx = Ok x /\ f idx = enc x.
Proof.
  intros V F R. pose (f := fun idx => match v_get mem v idx with Ok x => enc x | _ => SSeq None [] end).
  assert (G : forall idx, in_bounds (v_dims v) idx -> exists x, v_get mem v idx = Ok x /\ f idx = enc x).
  { intros idx B. destruct (proj1 (checked_get V) idx B) as (x & E1). exists x. unfold f. rewrite E1. auto. }
  exists f. split; [now apply serialize_encoded with (rank := rank)|]. intros idx B. split; [now apply encoded_at|auto].
Qed.

Lemma contents_whole {T} ty dims (xs : list T) : nonneg dims -> zlen xs = prodZ dims -> contents xs (whole ty dims) xs.
Proof.
  intros N LX. unfold contents. change (v_dims (whole ty dims)) with dims.
  assert (X : forall idx, in_bounds dims idx -> exists x, nth_error xs (Z.to_nat (flat dims idx)) = Some x /\ v_get xs (whole ty dims) idx = Ok x).
  { intros idx B. pose proof (flat_bounds B) as FB. destruct (nth_error xs (Z.to_nat (flat dims idx))) as [x|] eqn:E1.
    - exists x. split; [reflexivity|]. rewrite v_get_in by exact B. rewrite whole_addr by exact B. unfold read.
      destruct (Z.ltb_spec (flat dims idx) 0); [lia|]. rewrite E1. reflexivity.
    - exfalso. apply nth_error_None in E1. unfold zlen in LX. lia. }
  rewrite indices_unflat by exact N. rewrite <- LX. unfold zlen, zrange. rewrite Nat2Z.id.
  assert (Y : forall l pre, xs = pre ++ l -> Forall2 (fun idx x => v_get xs (whole ty dims) idx = Ok x)
     (map (unflat dims) (map Z.of_nat (seq (length pre) (length l)))) l).
  { induction l as [|x l IH]; intros pre E0; cbn [length seq map]; constructor.
    - assert (K : 0 <= Z.of_nat (length pre) < prodZ dims).
      { rewrite <- LX. unfold zlen. rewrite E0, app_length. cbn [length]. lia. }
      destruct (X (unflat dims (Z.of_nat (length pre)))) as (y & E1 & E2); [now apply unflat_in_bounds|].
      rewrite flat_unflat in E1 by auto. rewrite Nat2Z.id, E0, nth_error_app2, Nat.sub_diag in E1 by lia. cbn in E1. congruence.
    - specialize (IH (pre ++ [x])). rewrite <- app_assoc, app_length, Nat.add_1_r in IH. apply IH. exact E0. }
  apply (Y xs []). reflexivity.
Qed.

Lemma array_round_trip {T C E} al (enc : T -> sdata E) (de : sdata E -> C -> call (option T) C) dec ds xs (w : world T C) :
  (forall x, dec (enc x) = Some x) -> decides de dec -> ~ throws de -> const_small (STuple ds) ->
  consts ds -> nonneg (map dim_default ds) -> ty_wf (STuple ds) -> zlen xs = prodZ (map dim_default ds) -> room al (map dim_default ds) ->
  exists data c,
    v_serialize (fun x => Ok (enc x)) xs (whole (STuple ds) (map dim_default ds)) = Ok data /\
    ar_deserialize al de ds data w = Done (Some xs) (after c xs [] w).
Proof.
  intros HD D NT CS HC N W LX RM.
  assert (TD := default_typed (STuple ds)). cbn [sh_default] in TD.
  assert (V : valid_view (Z.of_nat (length xs)) (whole (STuple ds) (map dim_default ds))).
  { apply whole_valid; auto. unfold zlen in LX. lia. }
  assert (CX : contents xs (whole (STuple ds) (map dim_default ds)) xs) by (apply contents_whole; auto).
  destruct (serialize_rect (ds := ds) HD V eq_refl RM CX) as (data & E0 & R & A).
  destruct (ar_deserialize_iff w HC N CS W D NT A) as [H _]. destruct (H _ R) as (c & E1). exists data, c. auto.
Qed.
