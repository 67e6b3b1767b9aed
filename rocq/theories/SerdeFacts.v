(** Facts about the model of deserialization. *)
From Verif Require Import Base Spec SpecFacts Shape Mapping Index View Wf MappingFacts MapOps ReshapeFacts
  Expr Tensor TensorSpec TensorFacts TensorOps OwnFacts Ops OpsFacts Serde SerdeSpec.
Unset Strict Implicit.

(** ** Nests *)

Section Nests.
  Context {T E : Type} (dec : sdata E -> option T).

  Lemma rect_unique ds : forall dims1 dims2 v xs1 xs2,
    length dims1 = length ds -> length dims2 = length ds -> rect dec dims1 v xs1 -> rect dec dims2 v xs2 ->
    settle ds dims1 = settle ds dims2 /\ xs1 = xs2.
  Proof.
    induction ds as [|d ds IH]; intros [|n1 dims1] [|n2 dims2] v xs1 xs2 L1 L2 R1 R2; try discriminate.
    - destruct R1 as (x & E1 & ->), R2 as (y & E2 & ->). split; [reflexivity|congruence].
    - destruct R1 as (h1 & l1 & xss1 & -> & Z1 & F1 & ->), R2 as (h2 & l2 & xss2 & E0 & Z2 & F2 & ->).
      injection E0 as <- <-. cbn [settle]. assert (n2 = n1) as -> by congruence.
      assert (X : xss1 = xss2).
      { clear Z1 Z2. revert xss2 F2. induction F1 as [|v xs l xss H1 F1 IHF]; intros xss2 F2; inversion F2; subst; auto.
        f_equal; [|now apply IHF]. cbn in L1, L2. eapply IH; [| |exact H1|eassumption]; lia. }
      subst xss2. split; [|reflexivity]. f_equal. destruct (Z.eqb_spec n1 0); [reflexivity|].
      destruct l1 as [|v l1]; [cbn in Z1; lia|]. inversion F1; subst. inversion F2; subst. cbn in L1, L2.
      eapply IH; [| |eassumption|eassumption]; lia.
  Qed.

  Lemma rect_settle ds dims1 dims2 v xs1 xs2 :
    typed (STuple ds) dims1 -> typed (STuple ds) dims2 -> rect dec dims1 v xs1 -> rect dec dims2 v xs2 ->
    settle ds dims1 = settle ds dims2.
  Proof.
    intros T1 T2 R1 R2. apply Forall2_len in T1, T2. symmetry in T1, T2. now apply (@rect_unique ds dims1 dims2 v xs1 xs2).
  Qed.

  Lemma settle_length ds : forall dims, length dims = length ds -> length (settle ds dims) = length ds.
  Proof.
    induction ds as [|d ds IH]; intros [|n dims] H; try discriminate; auto. cbn in H. cbn [settle length].
    destruct (n =? 0); [now rewrite map_length|]. rewrite IH; lia.
  Qed.

  Lemma settle_typed ds : forall dims, typed (STuple ds) dims -> typed (STuple ds) (settle ds dims).
  Proof.
    induction ds as [|d ds IH]; intros dims H; inversion H; subst; [constructor|]. cbn [settle]. constructor; auto.
    destruct (_ =? 0); [apply (default_typed (STuple ds))|]. now apply IH.
  Qed.

  Lemma settle_nonneg ds : forall dims, nonneg (map dim_default ds) -> nonneg dims -> nonneg (settle ds dims).
  Proof.
    induction ds as [|d ds IH]; intros [|n dims] H N; try (now constructor). cbn [map] in H. inversion H; inversion N; subst. cbn [settle].
    constructor; auto. destruct (n =? 0); auto. now apply IH.
  Qed.

  Lemma settle_prod ds : forall dims, length dims = length ds -> prodZ (settle ds dims) = prodZ dims.
  Proof.
    induction ds as [|d ds IH]; intros [|n dims] H; try discriminate; auto. cbn in H. cbn [settle]. rewrite !prodZ_cons.
    destruct (Z.eqb_spec n 0); [subst; lia|]. rewrite IH; lia.
  Qed.

  Lemma settle_default ds : settle ds (map dim_default ds) = map dim_default ds.
  Proof. induction ds as [|d ds IH]; cbn [settle map]; auto. f_equal. destruct (_ =? 0); auto. Qed.

  Lemma settle_settle ds : forall dims, settle ds (settle ds dims) = settle ds dims.
  Proof.
    induction ds as [|d ds IH]; intros [|n dims]; cbn [settle]; auto. f_equal. destruct (n =? 0); auto.
  Qed.

  Lemma settle_rect ds : forall dims v xs, length dims = length ds -> rect dec dims v xs -> rect dec (settle ds dims) v xs.
  Proof.
    induction ds as [|d ds IH]; intros [|n dims] v xs L R; try discriminate; auto. cbn in L.
    destruct R as (h & l & xss & -> & Z1 & F & ->). cbn [settle]. exists h, l, xss. repeat split; auto.
    destruct (Z.eqb_spec n 0).
    - subst n. destruct l; [|cbn in *; lia]. inversion F. constructor.
    - clear Z1. induction F; constructor; auto.
  Qed.

  (** No dimension after a zero, or it is the default. *)
  Lemma settle_fixed ds : forall dims, positive dims -> length dims = length ds -> settle ds dims = dims.
  Proof.
    induction ds as [|d ds IH]; intros [|n dims] P L; try discriminate; auto. inversion P; subst. cbn in L. cbn [settle].
    f_equal. destruct (Z.eqb_spec n 0); [lia|]. apply IH; auto.
  Qed.

  Lemma rect_len dims : forall v xs, rect dec dims v xs -> zlen xs = prodZ dims.
  Proof.
    induction dims as [|d dims IH]; intros v xs R.
    - destruct R as (x & _ & ->). reflexivity.
    - destruct R as (h & l & xss & -> & Z1 & F & ->). rewrite prodZ_cons, <- Z1. clear Z1.
      induction F as [|v xs l xss H1 F IHF]; [reflexivity|]. cbn [concat]. unfold zlen in *. rewrite app_length. cbn [length].
      apply IH in H1. lia.
  Qed.
End Nests.

(** ** Bounds *)

Section Bounds.
  Unset Implicit Arguments.
  Context {E : Type}.
  Implicit Types v : sdata E.

  Definition most (n : nat) (l : list (sdata E)) : Z := fold_right (fun v m => Z.max (box n v) m) 1 l.
  Lemma most_pos n l : 1 <= most n l.
  Proof. unfold most. induction l; cbn [fold_right]; lia. Qed.
  Lemma most_in n l v : In v l -> box n v <= most n l.
  Proof. unfold most. induction l as [|a l IH]; intros H; [easy|]. cbn [fold_right]. destruct H as [->|H]; [|apply IH in H]; lia. Qed.
  Definition hint_of (h : option Z) : Z := match h with Some n => n | None => 0 end.
  Lemma box_seq n h l : box (S n) (SSeq h l) = Z.max 1 (Z.max (zlen l) (hint_of h) * most n l).
  Proof. reflexivity. Qed.
  Lemma box_pos n v : 1 <= box n v.
  Proof. destruct n; [cbn; lia|]. destruct v; [cbn; lia|rewrite box_seq; lia]. Qed.
  Lemma zlen_nonneg {A} (l : list A) : 0 <= zlen l.
  Proof. unfold zlen; lia. Qed.
  Lemma box_len n h l : zlen l * most n l <= box (S n) (SSeq h l).
  Proof. rewrite box_seq. pose proof (most_pos n l). pose proof (zlen_nonneg l). nia. Qed.
  Lemma box_hint n h l : hint_of h * most n l <= box (S n) (SSeq h l).
  Proof. rewrite box_seq. pose proof (most_pos n l). pose proof (zlen_nonneg l). nia. Qed.
  Lemma box_in n h l v : In v l -> box n v <= box (S n) (SSeq h l).
  Proof.
    intros H. pose proof (most_in n l v H). pose proof (most_pos n l). pose proof (box_len n h l).
    assert (1 <= zlen l) by (unfold zlen; destruct l; [easy|cbn; lia]). nia.
  Qed.
  Lemma adequate_in al n h l v : adequate al (S n) (SSeq h l) -> In v l -> adequate al n v.
  Proof. intros [H1 H2] H. pose proof (box_in n h l v H). split; [lia|]. intros k Hk. apply H2. lia. Qed.
End Bounds.
Set Implicit Arguments.

(** ** One deserialization *)

(** [Tensor::from(vec).into_shape(shape)] *)
Lemma close_ok {T C} ds dims (items : list T) cap (w : world T C) :
  typed (STuple ds) dims -> nonneg dims -> const_small (STuple ds) -> ty_wf (STuple ds) ->
  prodZ dims = zlen items -> zlen items <= cap ->
  let r := (t <- tn_from_vec items cap ;; t' <- tn_into_shape (STuple ds) dims t ;; ret (Some t')) w in
  r = Done (Some (mkTensor (STuple ds) dims items cap)) w \/
  (r = Unwound (w_drop items w) /\ ~ (fits dims /\ ~ In usize_max dims)).
Proof.
  intros TY N CS W P CP r. subst r. unfold seqM. rewrite from_vec_done. 
  assert (OK := from_vec_ok CP). rewrite into_shape_eq; auto.
  2:{ cbn. apply Forall2_len in TY. lia. }
  cbn [tn_dims tn_mem tn_cap]. destruct (@sh_reshape_iff [zlen items] _ _ TY CS) as [H1 H2].
  assert (P1 : prodZ [zlen items] = zlen items) by (cbn; lia). rewrite P1 in H1.
  destruct H2 as [H2|[nd H2]].
  - right. rewrite H2. split; [reflexivity|]. intros [F I].
    assert (X : sh_reshape [zlen items] (STuple ds) dims = Ok dims).
    { apply H1. rewrite known_no by exact I. split; [exact F|]. left. destruct (request_cases dims) as [[_ Z0]|(a & b & -> & _)].
      - auto.
      - exfalso. apply I. apply in_or_app; right; now left. }
    congruence.
  - left. rewrite H2. apply H1 in H2. destruct H2 as [F [(_ & -> & _)|(I & R & NZ & PN)]]; [reflexivity|].
    destruct (request_cases dims) as [[_ Z0]|(a & b & -> & NA & [[NB _]|[_ Z0]])]; try lia.
    destruct (@resolve_forall2 _ _ _ NA NB R) as [n ->]. rewrite known_one in NZ by assumption.
    rewrite prodZ_app in NZ. rewrite prodZ_app, prodZ_cons in P, PN. assert (n = usize_max) as -> by nia. reflexivity.
Qed.

(** Elements made since [w0]: still in [items], or dropped. *)
Definition from_here {T C} (w0 : world T C) (items : list T) (w : world T C) : Prop :=
  exists c ms dr, w = after c ms dr w0 /\ Permutation ms (items ++ dr).

Definition throws {T C E} (de : sdata E -> C -> call (option T) C) : Prop := exists v c c', de v c = Throws c'.

Section Deserialize.
  Context {T C E : Type} (al : allocator) (de : sdata E -> C -> call (option T) C) (dec : sdata E -> option T).

  (** What is known after deserializing [v] with a shape of dimensions [ds]. *)
  Definition dpost (ds : list dimty) (v : sdata E) (w0 : world T C) (r : result (world T C) (option (tensor T))) : Prop :=
    match r with
    | Done (Some t) w =>
        tensor_ok t /\ tn_ty t = STuple ds /\ settle ds (tn_dims t) = tn_dims t /\
        Forall2 (fun d n => d = DConst n \/ n <= box (length ds) v) ds (tn_dims t) /\
        (forall k, prodZ (firstn k (tn_dims t)) <= box (length ds) v) /\
        (exists c, w = after c (tn_mem t) [] w0) /\
        (decides de dec -> rect dec (tn_dims t) v (tn_mem t))
    | Done None w =>
        from_here w0 [] w /\
        (decides de dec -> forall dims xs, typed (STuple ds) dims -> ~ rect dec dims v xs)
    | Unwound w => from_here w0 [] w /\ (adequate al (length ds) v -> throws de)
    | Aborted | Fault => False
    end.

  (** The local variables of [visit_seq]. *)
  Definition holds (w0 : world T C) (p : parts T C) : Prop :=
    zlen (p_items p) <= p_cap p /\ exists c, p_w p = after c (p_items p) [] w0.
  Definition spost {A} (w0 : world T C) (good : A -> parts T C -> Prop) (bad thrown : Prop)
      (r : result (parts T C) (option A)) : Prop :=
    match r with
    | Done (Some a) p => good a p
    | Done None p => from_here w0 (p_items p) (p_w p) /\ bad
    | Unwound p => from_here w0 (p_items p) (p_w p) /\ thrown
    | Aborted | Fault => False
    end.

  Lemma spost_mono {A} w0 (g1 g2 : A -> parts T C -> Prop) (b1 b2 t1 t2 : Prop) r :
    (forall a p, g1 a p -> g2 a p) -> (b1 -> b2) -> (t1 -> t2) -> spost w0 g1 b1 t1 r -> spost w0 g2 b2 t2 r.
  Proof. intros H1 H2 H3. destruct r as [[a|] p|p| |]; cbn; intuition. Qed.

  Lemma holds_from w0 p : holds w0 p -> from_here w0 (p_items p) (p_w p).
  Proof. intros [_ [c H]]. exists c, (p_items p), []. now rewrite app_nil_r. Qed.

  Lemma de_elem_post v (w : world T C) :
    match de_elem de v w with
    | Done (Some x) w' => (exists c, w' = after c [x] [] w) /\ (decides de dec -> dec v = Some x)
    | Done None w' => (exists c, w' = after c [] [] w) /\ (decides de dec -> dec v = None)
    | Unwound w' => (exists c, w' = after c [] [] w) /\ throws de
    | _ => False
    end.
  Proof.
    unfold de_elem. destruct (de v (w_clo w)) as [[x|] c|c] eqn:E0.
    - split; [exists c; unfold w_make, after; now rewrite app_nil_r|]. intros D. symmetry. eapply D, E0.
    - split; [exists c; unfold w_set, after; now rewrite !app_nil_r|]. intros D. symmetry. eapply D, E0.
    - split; [exists c; unfold w_set, after; now rewrite !app_nil_r|]. eexists _, _, _; eauto.
  Qed.

  Lemma after_after c c' (a b d e : list T) (w : world T C) : after c b e (after c' a d w) = after c (a ++ b) (d ++ e) w.
  Proof. unfold after. cbn. now rewrite !app_assoc. Qed.
  Lemma drop_after c (a d e : list T) (w : world T C) : w_drop e (after c a d w) = after c a (d ++ e) w.
  Proof. unfold after, w_drop. cbn. now rewrite !app_assoc. Qed.

  (** *** The loop for rank 1 *)

  Lemma elems_post w0 : forall l size p,
    holds w0 p -> 0 <= size -> zlen (p_items p) = size ->
    spost w0
      (fun n p' => n = size + zlen l /\ holds w0 p' /\ p_dims p' = p_dims p /\ zlen (p_items p') = n /\
                   (decides de dec -> exists xs, p_items p' = p_items p ++ xs /\ Forall2 (fun v x => dec v = Some x) l xs))
      (decides de dec -> forall xs, ~ Forall2 (fun v x => dec v = Some x) l xs)
      ((forall n, 0 <= n <= size + zlen l -> al_ok al n = true) -> throws de)
      (de_elems al de l size p).
  Proof.
    induction l as [|v l IH]; intros size p HP HS HL; cbn [de_elems].
    - cbn. split; [unfold zlen; cbn; lia|]. repeat split; auto; try apply HP. intros _. exists []. rewrite app_nil_r. auto.
    - unfold seqM at 1. unfold inside_parts. pose proof (de_elem_post v (p_w p)) as HE.
      destruct HP as [HC [c HW]].
      assert (LL : size + 1 + zlen l = size + zlen (v :: l)) by (unfold zlen; cbn [length]; lia).
      destruct (de_elem de v (p_w p)) as [[x|] w'|w'| |]; try contradiction.
      + destruct HE as [[c' ->] HD]. unfold seqM at 1. unfold holding.
        destruct (reserve_cases al 1 (parts_w (after c' [x] [] (p_w p)) p)) as [(cap & -> & C1 & C2)|[-> A0]].
        * cbn [parts_w p_items p_cap p_dims p_w] in *. unfold seqM at 1. unfold vec_write.
          cbn [parts_w p_items p_cap p_dims p_w] in *. replace (zlen (p_items p) <? cap) with true by lia.
          assert (L1 : zlen (p_items p ++ [x]) = size + 1) by (unfold zlen in *; rewrite app_length; cbn; lia).
          specialize (IH (size + 1) (mkParts (p_items p ++ [x]) cap (p_dims p) (after c' [x] [] (p_w p)))).
          cbn [p_items p_cap p_dims p_w] in IH. rewrite LL in IH.
          eapply spost_mono; [| | |apply IH]; cbn beta; try lia.
          -- intros n p' (-> & H1 & H2 & H3 & H4). repeat split; auto; try apply H1.
             intros D. destruct (H4 D) as (xs & E1 & F1). exists (x :: xs). rewrite E1, <- app_assoc. split; auto.
          -- intros H D xs F. inversion F; subst. now apply (H D l').
          -- tauto.
          -- split; [cbn; lia|]. exists c'. cbn [p_items p_w]. rewrite HW, after_after. reflexivity.
        * cbn [parts_w p_items p_cap p_dims p_w spost] in *. split.
          -- exists c', (p_items p ++ [x]), [x]. rewrite HW, after_after, drop_after. auto.
          -- intros HA. rewrite HA in A0; [discriminate|]. pose proof (zlen_nonneg l). lia.
      + destruct HE as [[c' ->] HD]. cbn [ret spost parts_w p_items p_w]. split.
        * exists c', (p_items p), []. rewrite HW, after_after, !app_nil_r. auto.
        * intros D xs F. inversion F; subst. rewrite HD in H1; [discriminate|auto].
      + destruct HE as [[c' ->] HD]. cbn [ret spost parts_w p_items p_w]. split; auto.
        exists c', (p_items p), []. rewrite HW, after_after, !app_nil_r. auto.
  Qed.

  (** *** The loop for higher ranks *)

  Lemma append_post (w0 : world T C) (t : tensor T) c p :
    tensor_ok t -> zlen (p_items p) <= p_cap p -> p_w p = after c (p_items p ++ tn_mem t) [] w0 ->
    (exists cap, de_append al t p = Done tt (mkParts (p_items p ++ tn_mem t) cap (p_dims p) (p_w p)) /\
       zlen (p_items p ++ tn_mem t) <= cap) \/
    (exists p', de_append al t p = Unwound p' /\ from_here w0 (p_items p') (p_w p') /\
       al_ok al (zlen (p_items p) + zlen (tn_mem t)) = false).
  Proof.
    intros HT HC HW. unfold de_append, seqM, holding.
    assert (X : tn_into_vec t p = Done (tn_mem t, tn_cap t) p) by now apply into_vec_done.
    rewrite X. cbn [fst]. destruct (reserve_cases al (zlen (tn_mem t)) p) as [(cap & -> & C1 & C2)|[-> A0]].
    - left. exists cap. split; [reflexivity|]. unfold zlen in *. rewrite app_length. lia.
    - right. eexists. split; [reflexivity|]. cbn [parts_w p_items p_w]. split; [|exact A0].
      exists c, (p_items p ++ tn_mem t), (tn_mem t). rewrite HW, drop_after. auto.
  Qed.

  Lemma need_bound n a h B : 0 <= n <= B -> 1 <= a -> 0 <= 0 + n <= Z.max a h * Z.max 1 B.
  Proof. intros. assert (1 <= Z.max a h) by lia. assert (n <= Z.max 1 B) by lia. nia. Qed.
  Lemma hint_bound n a h B : 0 <= n <= B -> 1 <= a -> 0 <= n * h -> 0 <= n * h <= Z.max a h * Z.max 1 B.
  Proof.
    intros. assert (X1 : h <= Z.max a h) by lia. assert (X2 : n <= Z.max 1 B) by lia. assert (X3 : 1 <= Z.max a h) by lia.
    split; [lia|]. destruct (Z.eq_dec n 0); [nia|]. assert (0 <= h) by nia. nia.
  Qed.
  Lemma size_bound n s a h B : 0 <= n <= B -> 0 <= s <= a -> 0 <= s * n <= Z.max a h * Z.max 1 B.
  Proof. intros. assert (s <= Z.max a h) by lia. assert (n <= Z.max 1 B) by lia. nia. Qed.

  Lemma reserve_cases' n (p : parts T C) :
    (exists cap, vec_reserve al n p = Done tt (mkParts (p_items p) cap (p_dims p) (p_w p)) /\
       p_cap p <= cap /\ zlen (p_items p) + n <= cap) \/ 
    (vec_reserve al n p = Unwound p /\ al_ok al (zlen (p_items p) + n) = false /\ p_cap p < zlen (p_items p) + n).
  Proof.
    unfold vec_reserve. destruct (Z.leb_spec (zlen (p_items p) + n) (p_cap p)).
    - left. exists (p_cap p). destruct p; cbn in *. split; [reflexivity|lia].
    - destruct (al_ok al _) eqn:E0; [left|right; auto]. eexists. split; [reflexivity|]. lia.
  Qed.

  Section Rows.
    Variables (ds' : list dimty) (d : dimty).
    Let ds := d :: ds'.
    Variables (sub : sdata E -> M (world T C) (option (tensor T))) (hint : Z).
    Hypothesis Hsub : forall v w, dpost ds' v w (sub v w).
    Hypothesis Hn : nonneg (map dim_default ds).

    (** The dimensions stored so far, given the number of rows. *)
    Definition row_dims (size : Z) (p : parts T C) : Prop :=
      exists rd, p_dims p = dim_default d :: rd /\ typed (STuple ds') rd /\ nonneg rd /\ settle ds' rd = rd /\
        zlen (p_items p) = size * prodZ rd /\ (size = 0 -> rd = map dim_default ds').

    Lemma rows_post w0 (B : Z) : forall l size p,
      holds w0 p -> 0 <= size -> row_dims size p ->
      Forall (fun v => box (length ds') v <= B) l ->
      Forall2 (fun d n => d = DConst n \/ n <= B) ds' (tl (p_dims p)) ->
      (0 < size -> forall k, prodZ (firstn k (tl (p_dims p))) <= B) ->
      spost w0
        (fun n p' => n = size + zlen l /\ holds w0 p' /\ row_dims n p' /\
                     (0 < size -> p_dims p' = p_dims p) /\
                     Forall2 (fun d n => d = DConst n \/ n <= B) ds' (tl (p_dims p')) /\
                     (0 < n -> forall k, prodZ (firstn k (tl (p_dims p'))) <= B) /\
                     (decides de dec -> exists xss, p_items p' = p_items p ++ concat xss /\
                                          Forall2 (rect dec (tl (p_dims p'))) l xss))
        (decides de dec -> forall dims xss, typed (STuple ds') dims ->
           (0 < size -> settle ds' dims = tl (p_dims p)) -> ~ Forall2 (rect dec dims) l xss)
        ((Z.max (size + zlen l) hint * Z.max 1 B <= usize_max) ->
         (forall n, 0 <= n <= Z.max (size + zlen l) hint * Z.max 1 B -> al_ok al n = true) ->
         (forall v, In v l -> adequate al (length ds') v) -> throws de)
        (de_rows al (STuple ds) sub hint l size p).
    Proof.
      induction l as [|v l IH]; intros size p HP HS HR HB HD HK; cbn [de_rows].
      - unfold ret. cbn [spost]. assert (EZ : size + zlen (@nil (sdata E)) = size) by (unfold zlen; cbn; lia). rewrite EZ.
        split; [reflexivity|]. split; [exact HP|]. split; [exact HR|]. repeat split; auto.
        intros _. exists []. cbn. rewrite app_nil_r. auto.
      - unfold seqM at 1. unfold inside_parts. pose proof (Hsub v (p_w p)) as HE. unfold dpost in HE.
        pose proof HP as [HC [c HW]]. pose proof HR as (rd & ED & TR & NR & SR & LR & RD0).
        inversion HB as [|? ? HB1 HB2]; subst.
        assert (LL : size + 1 + zlen l = size + zlen (v :: l)) by (unfold zlen; cbn [length]; lia).
        pose proof (zlen_nonneg l) as ZL.
        destruct (sub v (p_w p)) as [[t|] w'|w'| |]; try contradiction.
        + destruct HE as (OK & TT & ST & FB & KB & [c' ->] & RC).
          assert (TD : typed (STuple ds') (tn_dims t)) by (rewrite <- TT; apply (to_typed OK)).
          assert (LT : zlen (tn_mem t) = prodZ (tn_dims t)) by apply (to_len OK).
          assert (LB : zlen (tn_mem t) <= B).
          { specialize (KB (length (tn_dims t))). rewrite firstn_all in KB. lia. }
          assert (HB0 : 1 <= box (length ds') v) by apply box_pos.
          assert (FB' : Forall2 (fun d n => d = DConst n \/ n <= B) ds' (tn_dims t)).
          { clear - FB HB1. induction FB; constructor; auto. destruct H; auto; right; lia. }
          assert (KB' : forall k, prodZ (firstn k (tn_dims t)) <= B) by (intros k; specialize (KB k); lia).
          destruct (Z.eqb_spec size 0) as [->|SZ].
          * (* first row *)
            assert (LI : p_items p = []) by (destruct (p_items p); [reflexivity|unfold zlen in LR; cbn [length] in LR; lia]).
            unfold seqM at 1. unfold holding at 1. unfold seqM at 1. unfold check.
            assert (TL : tn_len t = zlen (tn_mem t)) by (unfold tn_len; rewrite sh_len_prod; auto).
            destruct (Z.leb_spec (tn_len t * hint) usize_max) as [HO|HO].
            -- unfold seqM at 1.
               destruct (reserve_cases' (tn_len t * hint) (parts_w (after c' (tn_mem t) [] (p_w p)) p)) as [(cap & -> & C1 & C2)|[-> [A0 C2]]];
                 cbn [parts_w p_items p_cap p_dims p_w] in *.
               ++ unfold p_store. unfold seqM at 1. rewrite ED. cbn [hd].
                  assert (TY : typed (STuple ds) (dim_default d :: tn_dims t)).
                  { constructor; auto. unfold dim_ok. destruct d; cbn; auto. }
                  rewrite (@sh_store_typed _ _ TY). cbn [lift p_items p_cap p_w].
                  unfold seqM at 1.
                  destruct (@append_post w0 t c' (mkParts (p_items p) cap (dim_default d :: tn_dims t) (after c' (tn_mem t) [] (p_w p)))) as [(cap' & -> & CC)|(p' & -> & FH & A0)];
                    cbn [parts_w p_items p_cap p_dims p_w] in *; auto; try lia.
                  { now rewrite HW, LI, after_after. }
                  ** rewrite LI in *. cbn [app] in *.
                     eapply spost_mono; [| | |apply IH]; cbn beta; cbn [p_items p_dims p_w tl] in *.
                     --- rewrite LL. intros n p' (-> & H1 & H2 & H3 & H4 & H5 & H6). split; [reflexivity|]. split; [exact H1|]. split; [exact H2|].
                         split; [lia|]. split; [exact H4|]. split; [exact H5|].
                         intros D. destruct (H6 D) as (xss & E1 & F1). exists (tn_mem t :: xss). rewrite E1. split; [reflexivity|].
                         constructor; auto. rewrite H3 by lia. cbn [tl]. auto.
                     --- intros H D dims xss TY' HS' F. inversion F as [|? xs ? xss' R F']; subst.
                         apply (H D dims xss'); auto. intros _. rewrite <- ST.
                         exact (rect_settle TY' TD R (RC D)).
                     --- rewrite LL. intros H H1 H2 H3. apply H; auto. intros u Hu. apply H3. now right.
                     --- split; [exact CC|]. exists c'. cbn [p_items p_w]. now rewrite HW, after_after.
                     --- lia.
                     --- exists (tn_dims t). cbn [p_dims p_items]. split; [reflexivity|]. split; [exact TD|]. split; [apply (to_nonneg OK)|].
                         split; [exact ST|]. split; lia.
                     --- exact HB2.
                     --- exact FB'.
                     --- intros _. exact KB'.
                  ** split; [exact FH|]. intros H1 H2 H3. rewrite H2 in A0; [discriminate|]. rewrite LI. change (zlen (@nil T)) with 0.
                     pose proof (zlen_nonneg (tn_mem t)). apply need_bound; lia.
               ++ cbn [spost p_items p_w]. split.
                  ** exists c', (tn_mem t), (tn_mem t). rewrite HW, !LI, after_after, drop_after. cbn. rewrite ?LI. auto.
                  ** intros H1 H2 H3. rewrite LI in A0. rewrite H2 in A0; [discriminate|]. change (zlen (@nil T)) with 0.
                     rewrite LI in *. change (zlen (@nil T)) with 0 in *.
                     pose proof (zlen_nonneg (tn_mem t)). rewrite <- TL in *. apply hint_bound; lia.
            -- cbn [spost parts_w p_items p_w]. split.
               ++ exists c', (tn_mem t), (tn_mem t). rewrite HW, !LI, after_after, drop_after. cbn. rewrite ?LI. auto.
               ++ intros H1 H2 H3. exfalso. pose proof (zlen_nonneg (tn_mem t)).
                  assert (X : 0 <= tn_len t * hint <= Z.max (0 + zlen (v :: l)) hint * Z.max 1 B); [|lia].
                  assert (0 < usize_max) by reflexivity. unfold zlen in LL. unfold zlen in *. apply hint_bound; lia.
          * (* further rows *)
            cbn [parts_w p_dims]. destruct (slice_eqb (tn_dims t) (tl (p_dims p))) eqn:EQ.
            -- apply slice_eqb_iff in EQ. rewrite ED in EQ. cbn [tl] in EQ. unfold seqM at 1.
               destruct (@append_post w0 t c' (parts_w (after c' (tn_mem t) [] (p_w p)) p)) as [(cap' & -> & CC)|(p' & -> & FH & A0)];
                 cbn [parts_w p_items p_cap p_dims p_w] in *; auto; try lia.
               { now rewrite HW, after_after. }
               ++ eapply spost_mono; [| | |apply IH]; cbn beta; cbn [p_items p_dims p_w tl] in *.
                  ** rewrite LL. intros n p' (-> & H1 & H2 & H3 & H4 & H5 & H6). split; [reflexivity|]. split; [exact H1|]. split; [exact H2|].
                     split; [intros _; apply H3; lia|]. split; [exact H4|]. split; [exact H5|].
                     intros D. destruct (H6 D) as (xss & E1 & F1). exists (tn_mem t :: xss). rewrite E1, <- app_assoc. split; [reflexivity|].
                     constructor; auto. rewrite H3, ED by lia. cbn [tl]. rewrite <- EQ. auto.
                  ** intros H D dims xss TY' HS' F. inversion F as [|? xs ? xss' R F']; subst.
                     apply (H D dims xss'); auto. intros _. apply HS'. lia.
                  ** rewrite LL. intros H H1 H2 H3. apply H; auto. intros u Hu. apply H3. now right.
                  ** split; [exact CC|]. exists c'. cbn [p_items p_w]. now rewrite HW, after_after.
                  ** lia.
                  ** exists rd. cbn [p_dims p_items]. split; [exact ED|]. split; [exact TR|]. split; [exact NR|].
                     split; [exact SR|]. unfold zlen in *. rewrite app_length, Nat2Z.inj_add, LR, LT, EQ. split; [ring|lia].
                  ** exact HB2.
                  ** exact HD.
                  ** intros _. apply HK. lia.
               ++ split; [exact FH|]. intros H1 H2 H3. rewrite H2 in A0; [discriminate|]. 
                  rewrite LR, LT, EQ. specialize (KB' (length (tn_dims t))). rewrite firstn_all, EQ in KB'.
                  pose proof (prodZ_nonneg NR). replace (size * prodZ rd + prodZ rd) with ((size + 1) * prodZ rd) by ring.
                  apply size_bound; lia.
            -- cbn [spost parts_w p_items p_w]. split.
               ++ exists c', (p_items p ++ tn_mem t), (tn_mem t). rewrite HW, after_after, drop_after. auto.
               ++ intros D dims xss TY' HS' F. inversion F as [|? xs ? xss' R F']; subst.
                  assert (X : settle ds' dims = settle ds' (tn_dims t)).
                  { exact (rect_settle TY' TD R (RC D)). }
                  rewrite HS', ST in X by lia. assert (Y : slice_eqb (tn_dims t) (tl (p_dims p)) = true) by (apply slice_eqb_iff; auto).
                  congruence.
        + destruct HE as [(c' & ms & dr & -> & PM) HN]. cbn [ret spost parts_w p_items p_w]. split.
          * exists c', (p_items p ++ ms), dr. rewrite HW, after_after. split; [reflexivity|]. now apply Permutation_app_head.
          * intros D dims xss TY' HS' F. inversion F as [|? xs ? xss' R F']; subst. now apply (HN D dims xs TY').
        + destruct HE as [(c' & ms & dr & -> & PM) HN]. cbn [ret spost parts_w p_items p_w]. split.
          * exists c', (p_items p ++ ms), dr. rewrite HW, after_after. split; [reflexivity|]. now apply Permutation_app_head.
          * intros _ _ H. apply HN, H. now left.
    Qed.
  End Rows.

  (** *** The end of [visit_seq] *)

  Definition gathered d ds' h l (w0 : world T C) (n : Z) (p : parts T C) : Prop :=
    n = zlen l /\ holds w0 p /\
    exists rd, p_dims p = dim_default d :: rd /\ typed (STuple ds') rd /\ nonneg rd /\ settle ds' rd = rd /\
      zlen (p_items p) = n * prodZ rd /\ (n = 0 -> rd = map dim_default ds') /\
      Forall2 (fun d n => d = DConst n \/ n <= box (S (length ds')) (SSeq h l)) ds' rd /\
      (forall k, n * prodZ (firstn k rd) <= box (S (length ds')) (SSeq h l)) /\
      (decides de dec -> rect dec (n :: rd) (SSeq h l) (p_items p)).

  Lemma finish_post d ds' h l w0 m :
    let ds := d :: ds' in
    nonneg (map dim_default ds) -> const_small (STuple ds) -> ty_wf (STuple ds) ->
    spost w0 (gathered d ds' h l w0)
      (decides de dec -> forall dims xs, typed (STuple ds) dims -> ~ rect dec dims (SSeq h l) xs)
      (adequate al (S (length ds')) (SSeq h l) -> throws de) (m (mkParts [] 0 (map dim_default ds) w0)) ->
    dpost ds (SSeq h l) w0 (de_finish ds m w0).
  Proof.
    intros ds HN CS W H. unfold de_finish. unfold seqM at 1.
    destruct (m _) as [[n|] p|p| |]; cbn [spost] in H; try contradiction.
    - destruct H as (EN & [HC [c HW]] & rd & ED & TR & NR & SR & LR & RD0 & FB & KB & RC). pose proof (zlen_nonneg l).
      assert (N1 : nonneg (n :: rd)) by (constructor; [lia|exact NR]).
      assert (PN : prodZ (n :: rd) = zlen (p_items p)) by (rewrite prodZ_cons; lia).
      assert (S1 : settle ds (n :: rd) = n :: rd).
      { unfold ds. cbn [settle]. f_equal. destruct (Z.eqb_spec n 0) as [E0|E0]; auto. now rewrite RD0. }
      assert (K1 : forall k, prodZ (firstn k (n :: rd)) <= box (S (length ds')) (SSeq h l)).
      { intros [|k]; cbn [firstn]; [exact (box_pos (S (length ds')) (SSeq h l))|]. rewrite prodZ_cons. apply KB. }
      assert (NB : n <= box (S (length ds')) (SSeq h l)) by (specialize (KB 0%nat); cbn [firstn prodZ fold_right] in KB; lia).
      assert (DONE : typed (STuple ds) (n :: rd) -> forall cap, zlen (p_items p) <= cap ->
        dpost ds (SSeq h l) w0 ((t <- tn_from_vec (p_items p) cap ;; t' <- tn_into_shape (STuple ds) (n :: rd) t ;; ret (Some t')) (p_w p))).
      { intros TY cap CP. destruct (@close_ok T C ds (n :: rd) (p_items p) cap (p_w p) TY N1 CS W PN CP) as [->|[-> HF]].
        - cbn [dpost tn_dims tn_mem]. split; [|split; [reflexivity|split; [exact S1|split; [|split; [exact K1|split; [|exact RC]]]]]].
          + constructor; cbn [tn_dims tn_mem tn_ty tn_cap]; auto.
          + constructor; auto.
          + exists c. exact HW.
        - cbn [dpost]. split.
          + exists c, (p_items p), (p_items p). rewrite HW, drop_after. auto.
          + change (length ds) with (S (length ds')). intros [A1 A2]. exfalso. apply HF. split; [intros k; specialize (K1 k); lia|].
            intros I. assert (F2 : Forall2 (fun d n => d = DConst n \/ n <= box (S (length ds')) (SSeq h l)) ds (n :: rd)) by (constructor; auto).
            clear - I F2 A1 CS. unfold const_small in CS. revert CS I. induction F2 as [|a b x y H F2 IH]; intros CS I; [easy|].
            inversion CS; subst. destruct I as [->|I]; [|now apply IH]. destruct H as [->|H]; [congruence|lia]. }
      cbn [sh_head]. destruct d as [k|]; cbn [sh_head ds].
      + rewrite ED. cbn [hd dim_default].
        destruct (Z.eqb_spec n k) as [->|NE].
        * cbv iota. cbn [dim_default]. apply DONE; auto. constructor; auto. reflexivity.
        * cbn [dpost]. split.
          -- exists c, (p_items p), (p_items p). rewrite HW, drop_after. auto.
          -- intros D dims xs TY R. inversion TY as [|? b ? bs H1 H2]; subst. cbn in H1. subst b.
             destruct R as (h' & l' & xss & E0 & Z0 & _). injection E0 as <- <-. lia.
      + unfold p_store. unfold seqM at 1 2. rewrite ED. cbn [tl].
        assert (TY : typed (STuple ds) (n :: rd)) by (constructor; [exact I|auto]).
        unfold seqM. rewrite (@sh_store_typed _ _ TY). cbn [lift ret p_items p_cap p_dims p_w]. unfold ret. cbn [p_items p_cap p_dims p_w].
        apply DONE; auto.
    - unfold ret. cbn [dpost]. destruct H as [(c & ms & dr & E0 & PM) HB]. rewrite E0. split; [|exact HB].
      exists c, ms, (dr ++ p_items p). rewrite drop_after. split; [reflexivity|]. cbn. rewrite PM. apply Permutation_app_comm.
    - unfold ret. cbn [dpost]. destruct H as [(c & ms & dr & E0 & PM) HB]. rewrite E0. split; [|exact HB].
      exists c, ms, (dr ++ p_items p). rewrite drop_after. split; [reflexivity|]. cbn. rewrite PM. apply Permutation_app_comm.
  Qed.

  (** ** The main theorem *)

  Theorem de_tensor_post ds : nonneg (map dim_default ds) -> const_small (STuple ds) -> ty_wf (STuple ds) ->
    forall v w, dpost ds v w (de_tensor al de ds v w).
  Proof.
    induction ds as [|d ds' IH]; intros HN CS W v w.
    - cbn [de_tensor]. unfold seqM at 1. pose proof (de_elem_post v w) as HE. pose proof (box_pos 0 v).
      destruct (de_elem de v w) as [[x|] w'|w'| |]; try contradiction.
      + destruct HE as [[c ->] HD]. unfold seqM. rewrite into_shape_eq.
        * assert (X : sh_reshape (tn_dims (mkTensor (STuple [DDyn]) [1] [x] 1)) (STuple []) [] = Ok []) by reflexivity.
          rewrite X. cbn [tn_mem tn_cap]. unfold ret. cbn [dpost tn_dims tn_mem].
          split; [constructor; cbn; auto; try constructor; lia|]. split; [reflexivity|]. split; [reflexivity|]. split; [constructor|].
          split; [intros k; rewrite firstn_nil; cbn; lia|]. split; [exists c; reflexivity|]. intros D. exists x. split; auto.
        * constructor; cbn; try lia; repeat constructor; lia.
        * constructor.
        * reflexivity.
      + destruct HE as [[c ->] HD]. unfold ret. cbn [dpost]. split; [exists c, [], []; auto|].
        intros D [|n dims] xs TY R; [|inversion TY]. destruct R as (x & E0 & _). rewrite HD in E0; [discriminate|auto].
      + destruct HE as [[c ->] HD]. cbn [dpost]. split; [exists c, [], []; auto|]. auto.
    - assert (HN' : nonneg (map dim_default ds')) by (inversion HN; auto).
      assert (CS' : const_small (STuple ds')) by (inversion CS; auto).
      assert (W' : ty_wf (STuple ds')) by (cbn in *; lia).
      specialize (IH HN' CS' W'). cbn [de_tensor]. destruct v as [x|h l].
      { unfold ret. cbn [dpost]. split.
        - exists (w_clo w), [], []. split; [unfold after; rewrite !app_nil_r; now destruct w|constructor].
        - intros D dims xs TY R. inversion TY; subst. destruct R as (h & l & xss & E0 & _). discriminate. }
      apply finish_post; auto. fold (hint_of h).
      pose proof (zlen_nonneg l) as ZL. pose proof (box_len (length ds') h l) as BL. pose proof (box_hint (length ds') h l) as BH. pose proof (most_pos (length ds') l) as MP.
      assert (H0 : holds w (mkParts [] 0 (map dim_default (d :: ds')) w)).
      { split; [cbn; lia|]. exists (w_clo w). cbn. unfold after. rewrite !app_nil_r. now destruct w. }
      destruct ds' as [|d' ds''].
      + (* rank 1 *)
        unfold seqM at 1. destruct (reserve_cases' (hint_of h) (mkParts [] 0 (map dim_default [d]) w)) as [(cap & -> & C1 & C2)|[-> [A0 C2]]];
          cbn [p_items p_cap p_dims p_w] in *.
        * eapply spost_mono; [| | |apply elems_post with (w0 := w)]; cbn beta; cbn [p_items p_dims p_w] in *.
          -- intros n p' (EN & H1 & H2 & H3 & H4). split; [lia|]. split; [exact H1|]. exists []. rewrite H2. cbn [map].
             split; [reflexivity|]. split; [constructor|]. split; [constructor|]. split; [reflexivity|]. split; [cbn; lia|]. split; [reflexivity|].
             split; [constructor|]. split; [intros k; rewrite firstn_nil; cbn [prodZ fold_right]; nia|].
             intros D. destruct (H4 D) as (xs & E1 & F1). cbn [app] in E1. exists h, l, (map (fun x => [x]) xs).
             split; [reflexivity|]. split; [lia|]. split.
             ++ clear - F1. induction F1; cbn [map]; constructor; auto. exists y. auto.
             ++ rewrite E1. clear. induction xs; cbn; congruence.
          -- intros H D dims xs TY R. inversion TY as [|? b ? bs Hb Hbs]; subst. inversion Hbs; subst.
             destruct R as (h' & l' & xss & E0 & Z0 & F0 & ->). injection E0 as <- <-. apply (H D (concat xss)).
             clear - F0. induction F0 as [|a b la lb H F0 IHF]; cbn [concat]; [constructor|]. destruct H as (x & E1 & ->). constructor; auto.
          -- intros H [A1 A2]. apply H. intros n Hn. apply A2. nia.
          -- split; [cbn in *; lia|]. exists (w_clo w). cbn. unfold after. rewrite !app_nil_r. now destruct w.
          -- lia.
          -- reflexivity.
        * cbn [spost p_items p_w]. split; [apply (holds_from H0)|]. intros [A1 A2]. rewrite A2 in A0; [discriminate|].
          change (zlen (@nil T)) with 0 in *. nia.
      + eapply spost_mono; [| | |apply rows_post with (w0 := w) (ds' := d' :: ds'') (d := d) (B := most (length (d' :: ds'')) l)]; cbn beta; cbn [p_items p_dims p_w] in *.
        * intros n p' (EN & H1 & H2 & _ & H4 & H5 & H6). rewrite Z.add_0_l in EN. split; [exact EN|]. split; [exact H1|].
          destruct H2 as (rd & ED & TR & NR & SR & LR & RD0). exists rd. rewrite ED in *. cbn [tl] in *.
          assert (LB : zlen l * most (length (d' :: ds'')) l <= box (S (length (d' :: ds''))) (SSeq h l)) by lia.
          split; [reflexivity|]. split; [exact TR|]. split; [exact NR|]. split; [exact SR|]. split; [exact LR|]. split; [exact RD0|].
          split.
          { assert (MB : n = 0 \/ most (length (d' :: ds'')) l <= box (S (length (d' :: ds''))) (SSeq h l)) by nia. destruct MB as [->|MB].
            - rewrite RD0 by reflexivity. pose proof (box_pos (S (length (d' :: ds''))) (SSeq h l)) as BP. revert BP. generalize (box (S (length (d' :: ds''))) (SSeq h l)). intros z BP. clear - BP. induction (d' :: ds'') as [|a b IHb]; cbn [map]; constructor; auto.
              destruct a; cbn; auto. right; lia.
            - revert H4 MB. generalize (box (S (length (d' :: ds''))) (SSeq h l)) (most (length (d' :: ds'')) l). intros z m H4 MB. clear - H4 MB. induction H4; constructor; auto. destruct H; auto. right; lia. }
          split.
          { intros k. destruct (Z.eq_dec n 0) as [->|NZ]; [pose proof (box_pos (S (length (d' :: ds''))) (SSeq h l)); lia|]. specialize (H5 ltac:(lia) k). nia. }
          intros D. destruct (H6 D) as (xss & E1 & F1). exists h, l, xss. cbn [app] in E1. auto.
        * intros H D dims xs TY R. inversion TY as [|? b ? bs Hb Hbs]; subst.
          destruct R as (h' & l' & xss & E0 & Z0 & F0 & ->). injection E0 as <- <-. apply (H D bs xss); auto. lia.
        * intros H A. pose proof A as [A1 A2]. assert (BB : Z.max (0 + zlen l) (hint_of h) * Z.max 1 (most (length (d' :: ds'')) l) <= box (S (length (d' :: ds''))) (SSeq h l)).
          { rewrite box_seq, Z.add_0_l. rewrite (Z.max_r 1 (most (length (d' :: ds'')) l)) by lia. lia. }
          apply H.
          -- lia.
          -- intros n Hn. apply A2. lia.
          -- intros v Hv. eapply adequate_in; eauto.
        * exact IH.
        * exact HN.
        * exact H0.
        * lia.
        * exists (map dim_default (d' :: ds'')). cbn [p_dims p_items]. split; [reflexivity|]. split; [apply (default_typed (STuple (d' :: ds'')))|].
          split; [exact HN'|]. split; [apply settle_default|]. split; [cbn; lia|auto].
        * apply Forall_forall. intros v Hv. now apply most_in.
        * cbn [tl map]. revert MP. generalize (most (length (d' :: ds'')) l). intros z MP. clear - MP. change (dim_default d' :: map dim_default ds'') with (map dim_default (d' :: ds'')).
          induction (d' :: ds'') as [|a b IHb]; cbn [map]; constructor; auto. destruct a; cbn; auto. right; lia.
        * lia.
  Qed.
End Deserialize.
