(** What [expand], [resize_with] and [clone_from] leave behind when the user's code panics. *)
From Verif Require Import Base Spec SpecFacts Shape Mapping Index View Wf MappingFacts MapOps ReshapeFacts.
From Verif Require Import IndexFacts ViewFacts ViewMore Expr ExprSpec ExprFacts IterFacts SourceFacts ExprTree ExprMore.
From Verif Require Import Tensor TensorSpec TraceFacts TensorFacts ResizeFacts TensorOps DrainFacts OwnFacts.
Unset Strict Implicit.

Lemma gives_short {T C} (fs : list (C -> call T C)) c xs c' : gives fs c = (xs, c', false) -> (length xs < length fs)%nat.
Proof.
  revert c xs. induction fs as [|f fs IH]; intros c xs; cbn [gives length]; [discriminate|].
  destruct (f c) as [x c1|c1].
  - destruct (gives fs c1) as [[ys c2] b2] eqn:E. intros [= <- <- ->]. apply IH in E. cbn [length]. lia.
  - intros [= <- _]. cbn [length]. lia.
Qed.

(** A type all of whose sizes are constants has one list of sizes. *)
Lemma default_unique ty (d1 d2 : list Z) : typed ty d1 -> typed ty d2 -> prodZ (sh_default ty) <> 0 -> d1 = d2.
Proof.
  destruct ty as [|ds]; [intros _ _ H; exfalso; apply H; reflexivity|]. unfold typed. cbn [sh_default].
  revert d1 d2. induction ds as [|d ds IH]; intros d1 d2 H1 H2 HP; inversion H1; subst; inversion H2; subst; auto.
  cbn [map] in HP. rewrite prodZ_cons in HP. destruct d as [n|]; cbn [dim_default dim_ok] in *; [|lia].
  f_equal; [congruence|]. apply IH; auto. intros E. apply HP. rewrite E. lia.
Qed.

Lemma head_dyn_default ty (dims : list Z) : typed ty dims -> dims <> [] -> head_dyn ty = true -> prodZ (sh_default ty) = 0.
Proof.
  destruct ty as [|ds]; [reflexivity|]. unfold head_dyn, typed. cbn [sh_default]. intros HT HD HH.
  inversion HT; subst; [congruence|]. cbn [sh_head] in HH. destruct x; [discriminate|]. cbn [map dim_default]. rewrite prodZ_cons. lia.
Qed.

(** The source returned all its elements and the cloning of one of them panicked: the array is emptied. *)
Lemma expand_panics {T Y C} al (e : expression Y) (cl : Y -> C -> call T C) ys xs c t w :
  tensor_ok t -> outer_ok t = true -> (forall n, al_ok al n = true) ->
  nonneg (e_dims e) -> e_collect e = Ok ys -> zlen ys = prodZ (e_dims e) -> 0 < prodZ (e_dims e) ->
  gives (map cl ys) (w_clo w) = (xs, c, false) ->
  growable (tn_ty t) (tn_dims t) (e_dims e) ->
  exists cap, tn_cap t <= cap /\
    tn_expand al e cl (t, w) =
    Unwound (mkTensor (tn_ty t) (sh_default (tn_ty t)) [] cap, after c xs (tn_mem t ++ xs) w).
Proof.
  intros Ht HO Hal Hn HC HL HP HG Hok. destruct (outer_ok_inv HO) as [HD HH]. apply e_collect_trace in HC.
  assert (HON : honest e).
  { split; auto. rewrite HC. cbn [fst snd]. unfold zlen in HL. split; [lia|]. left. split; auto. }
  destruct (grown_facts (to_nonneg Ht) (to_typed Ht) HH HD Hn HP Hok) as (G1 & G2 & G3).
  assert (HX : zlen xs < prodZ (e_dims e)).
  { rewrite <- HL. pose proof (@gives_short T C (map cl ys) (w_clo w) xs c HG) as G. rewrite map_length in G. unfold zlen. lia. }
  pose proof (to_len Ht) as HM.
  destruct (reserve_cases al (prodZ (e_dims e)) (mkParts (tn_mem t) (tn_cap t) (tn_dims t) w)) as [(cap & E & Hc & Hr)|[E HF]].
  2:{ rewrite Hal in HF. discriminate. }
  exists cap. split; [exact Hc|].
  unfold tn_expand. unfold seqM at 1. rewrite check_outer_spec, HO, sh_len_prod.
  destruct (Z.ltb_spec 0 (prodZ (e_dims e))); [|lia].
  match goal with |- with_mut_parts ?m _ = _ => assert (E' : m (tn_ty t) (mkParts (tn_mem t) (tn_cap t) (tn_dims t) w) =
    Unwound (pushed c xs (mkParts (tn_mem t) cap (grown (tn_dims t) (e_dims e)) w))) end.
  { cbn beta. unfold seqM. rewrite E.
    destruct (@expand_dims_spec T C (tn_ty t) (e_dims e) (mkParts (tn_mem t) cap (tn_dims t) w)) as [[_ E2]|[HF _]];
      auto using (to_typed Ht); [|contradiction]. cbn [p_items p_cap p_dims p_w] in *. rewrite E2.
    rewrite clone_into_vec_spec by auto. cbn [p_w]. rewrite HC. cbn [fst snd]. rewrite HG. reflexivity. }
  rewrite (wmp_emptied Ht E').
  - unfold pushed, w_drop, after. cbn [p_items p_dims p_cap p_w w_clo w_made w_used w_dropped]. now rewrite app_nil_r.
  - unfold instep, pushed. cbn [p_items p_dims]. rewrite zlen_app, G3. unfold zlen in *. lia.
  - exact (head_dyn_default (to_typed Ht) HD HH).
Qed.

(** What [with_mut_parts] leaves: [kept] tells whether the vector is in step. *)
Definition left_with {T} (t : tensor T) (kept : bool) (items : list T) (cap : Z) : tensor T :=
  if kept then mkTensor (tn_ty t) (tn_dims t) items cap else mkTensor (tn_ty t) (sh_default (tn_ty t)) [] cap.

(** [clone_from]: the elements cloned so far have replaced the first ones.  If the number of elements is then the old
    one, the array keeps its sizes; otherwise it is emptied. *)
Lemma clone_from_panics {T C} al (clone : T -> C -> call T C) src dims (t : tensor T) (w : world T C) ys c :
  tensor_ok t -> typed (tn_ty t) dims -> zlen src = prodZ dims -> (forall n, al_ok al n = true) ->
  gives (map clone src) (w_clo w) = (ys, c, false) ->
  let kept := (length ys <=? length (tn_mem t))%nat && (length (tn_mem t) <=? length src)%nat in
  let items := ys ++ skipn (length ys) (firstn (length src) (tn_mem t)) in
  let gone := skipn (length src) (tn_mem t) ++ firstn (length ys) (firstn (length src) (tn_mem t)) in
  exists cap, tn_cap t <= cap /\
    tn_clone_from al clone src dims (t, w) =
    Unwound (left_with t kept items cap, after c ys (if kept then gone else gone ++ items) w).
Proof.
  intros Ht HTy Hs Hal HG kept items gone. set (m := tn_mem t) in *. set (n := Nat.min (length src) (length m)).
  pose proof (gives_short HG) as HSh. rewrite map_length in HSh.
  assert (EF : Z.to_nat (zlen src) = length src) by (unfold zlen; lia).
  assert (EN : length (firstn (length src) m) = n) by (rewrite firstn_length; unfold n; lia).
  assert (LI : (length ys <= n -> length items = n)%nat /\ (n <= length ys -> items = ys)%nat).
  { unfold items. split; intros H.
    - rewrite app_length, skipn_length, EN. lia.
    - rewrite skipn_all2 by (rewrite EN; lia). apply app_nil_r. }
  assert (BODY : exists cap, tn_cap t <= cap /\ (vec_clone_from al clone src ;;; p_set_dims dims) (mkParts m (tn_cap t) (tn_dims t) w) =
    Unwound (mkParts items cap (tn_dims t) (after c ys gone w))).
  { pose proof HG as HG'. rewrite <- (firstn_skipn n src) in HG'. rewrite map_app, gives_app in HG'.
    destruct (gives (map clone (firstn n src)) (w_clo w)) as [[y1 c1] b1] eqn:E1.
    destruct (gives_length E1) as [_ L1]. rewrite map_length, firstn_length in L1.
    assert (EW : forall c0 y0 k, after c0 y0 (firstn k (firstn (length src) m)) (w_drop (skipn (length src) m) w) =
                 after c0 y0 (skipn (length src) m ++ firstn k (firstn (length src) m)) w).
    { intros. unfold after, w_drop. cbn [w_made w_used w_dropped]. now rewrite <- app_assoc. }
    destruct b1.
    - specialize (L1 eq_refl). destruct (gives (map clone (skipn n src)) c1) as [[y2 c2] b2] eqn:E2. injection HG' as <- <- ->.
      pose proof (gives_short E2) as S2. rewrite map_length, skipn_length in S2.
      set (p1 := mkParts y1 (tn_cap t) (tn_dims t) (after c1 y1 (skipn (length src) m ++ firstn (length y1) (firstn (length src) m)) w)).
      destruct (reserve_cases al (zlen (skipn n src)) p1) as [(cap & ER & H1 & H2)|[ER HF]].
      2:{ rewrite Hal in HF. discriminate. }
      exists cap. split; [exact H1|]. unfold vec_clone_from. unfold seqM at 1 2. unfold vec_truncate. cbn [p_items p_cap p_dims p_w]. rewrite EF, EN.
      unfold seqM at 1. rewrite assign_loop_spec by (cbn [p_items]; rewrite EN, firstn_length; unfold n; lia).
      cbn [p_items p_cap p_dims p_w w_drop w_clo]. rewrite E1. cbn [finish firstn skipn app Nat.add].
      rewrite (skipn_all2 (n := length y1)) by (rewrite EN; lia). rewrite app_nil_r. 
      change (mkWorld (w_clo w) (w_made w) (w_used w) (w_dropped w ++ skipn (length src) m)) with (w_drop (skipn (length src) m) w).
      rewrite EW. fold p1. unfold seqM at 1. rewrite ER.
      rewrite clone_loop_spec by (cbn [p1 p_items p_cap] in *; lia). cbn [p_w p1 after w_clo]. rewrite E2. cbn [finish].
      unfold pushed. cbn [p_items p_cap p_dims p_w]. rewrite after_after, app_nil_r.
      assert (G : gone = skipn (length src) m ++ firstn (length y1) (firstn (length src) m)).
      { unfold gone. rewrite app_length. rewrite (@firstn_all2 T (length y1 + length y2) (firstn (length src) m)) by (rewrite EN; lia).
        rewrite (@firstn_all2 T (length y1) (firstn (length src) m)) by (rewrite EN; lia). reflexivity. }
      rewrite G. f_equal. f_equal. symmetry. apply LI. rewrite app_length. lia.
    - injection HG' as <- <-. exists (tn_cap t). split; [lia|].
      unfold vec_clone_from. unfold seqM at 1 2. unfold vec_truncate. cbn [p_items p_cap p_dims p_w]. rewrite EF, EN.
      unfold seqM at 1. rewrite assign_loop_spec by (cbn [p_items]; rewrite EN, firstn_length; unfold n; lia).
      cbn [p_items p_cap p_dims p_w w_drop w_clo]. rewrite E1. cbn [finish firstn skipn app Nat.add].
      change (mkWorld (w_clo w) (w_made w) (w_used w) (w_dropped w ++ skipn (length src) m)) with (w_drop (skipn (length src) m) w).
      rewrite EW. reflexivity. }
  destruct BODY as (cap & HCap & E). exists cap. split; [exact HCap|]. unfold tn_clone_from.
  pose proof (to_len Ht) as HM. fold m in HM.
  assert (KE : instep (mkParts items cap (tn_dims t) (after c ys gone w)) <-> kept = true).
  { unfold instep. cbn [p_items p_dims]. rewrite <- HM. unfold kept. rewrite andb_true_iff, !Nat.leb_le. fold m.
    destruct (Nat.le_gt_cases (length ys) n) as [L|L].
    - apply LI in L as LL. unfold zlen. rewrite LL. unfold n in *. lia.
    - assert (EI : items = ys) by (apply LI; lia). rewrite EI. unfold zlen, n in *. lia. }
  destruct kept.
  - rewrite (@wmp_unwound T C unit _ t w _ Ht E) by (apply KE; reflexivity). reflexivity.
  - rewrite (@wmp_emptied T C unit _ t w _ Ht E).
    + unfold left_with, w_drop, after. cbn [p_items p_dims p_cap p_w w_clo w_made w_used w_dropped]. now rewrite app_assoc.
    + intros H. apply KE in H. discriminate.
    + destruct (Z.eq_dec (prodZ (sh_default (tn_ty t))) 0) as [|N]; auto. exfalso.
      assert (ED : dims = tn_dims t) by exact (default_unique HTy (to_typed Ht) N). subst dims.
      assert (length src = length m) by (unfold zlen in *; lia).
      assert (X : false = true); [|discriminate]. apply KE. unfold instep. cbn [p_items p_dims]. rewrite <- HM. unfold zlen.
      rewrite (proj1 LI); unfold n; lia.
Qed.

(** [resize_with]: with the same inner sizes new elements are pushed to the old vector; otherwise the old vector was
    emptied before the first call. *)
Definition resize_kept {T} (dims new : list Z) (vs : list T) : bool :=
  if slice_eqb (tl new) (tl dims) then (length vs =? 0)%nat else prodZ dims =? 0.

Lemma resize_panics {T C} al new (f : C -> call T C) t w vs c :
  tensor_ok t -> nonneg new -> typed (tn_ty t) new -> length new = length (tn_dims t) -> fits new ->
  (forall n, al_ok al n = true) ->
  gives (repeat f (fresh (tn_dims t) new)) (w_clo w) = (vs, c, false) ->
  exists cap ds, tn_cap t <= cap /\
    Permutation (tn_mem t ++ vs) (tn_mem (left_with t (resize_kept (tn_dims t) new vs) (tn_mem t) cap) ++ ds) /\
    tn_resize_with al new f (t, w) =
    Unwound (left_with t (resize_kept (tn_dims t) new vs) (tn_mem t) cap, after c vs ds w).
Proof.
  intros Ht Hn HT HL HF Hal HG.
  destruct new as [|n0 nt0] eqn:EE.
  { exfalso. destruct (tn_dims t); [|discriminate HL]. change (fresh [] []) with 0%nat in HG. discriminate HG. }
  rewrite <- EE in *. assert (HE : new <> []) by (rewrite EE; discriminate). clear n0 nt0 EE.
  destruct (start_pok w Ht) as [(K1 & K2 & K3) I]. cbn [p_dims p_items p_cap] in K1, K2, K3. unfold instep in I. cbn [p_dims p_items] in I.
  assert (HE' : tn_dims t <> []) by (destruct (tn_dims t), new; cbn in *; congruence).
  pose proof (gives_short HG) as SH. rewrite repeat_length in SH.
  assert (BODY : exists items cap ds, tn_cap t <= cap /\
    resize_body al new f (mkParts (tn_mem t) (tn_cap t) (tn_dims t) w) = Unwound (mkParts items cap (tn_dims t) (after c vs ds w)) /\
    (if slice_eqb (tl new) (tl (tn_dims t)) then items = tn_mem t ++ vs /\ ds = [] else items = [])).
  { unfold resize_body. cbn [p_dims p_items p_cap p_w].
    destruct (Z.eqb_spec (prodZ new) 0) as [E0|E0].
    { exfalso. destruct (empty_new K1 Hn E0 I) as (F1 & _ & _). rewrite F1 in SH. lia. }
    destruct (slice_eqb (tl new) (tl (tn_dims t))) eqn:ES.
    - apply slice_eqb_eq in ES. pose proof (dims_cons HE') as ED. pose proof (dims_cons HE) as EN. rewrite ES in EN.
      set (o := nth 0 (tn_dims t) 0) in *. set (n := nth 0 new 0) in *. set (nt := tl (tn_dims t)) in *.
      assert (Hnt : nonneg nt /\ 0 <= o) by (rewrite ED in K1; inversion K1; auto).
      assert (Hn0 : 0 <= n) by (rewrite EN in Hn; inversion Hn; auto). destruct Hnt as [Hnt Ho].
      assert (Ha : zlen (tn_mem t) = o * prodZ nt) by (rewrite ED, prodZ_cons in I; exact I).
      destruct (same_tail Hnt Ho Hn0 Ha) as (S1 & _ & _).
      assert (ED' : fresh (tn_dims t) new = fresh (o :: nt) (n :: nt)) by (rewrite <- ED, <- EN; reflexivity).
      rewrite ED', S1 in HG, SH. assert (EP : prodZ new = n * prodZ nt) by (rewrite EN, prodZ_cons; reflexivity). rewrite EP in *.
      unfold vec_resize_with. cbn [p_items].
      destruct (Z.ltb_spec (zlen (tn_mem t)) (n * prodZ nt)) as [Hlt|Hge]; [|lia].
      unfold seqM. destruct (reserve_cases al (n * prodZ nt - zlen (tn_mem t)) (mkParts (tn_mem t) (tn_cap t) (tn_dims t) w)) as [(cap & E & H1 & H2)|[E HF']].
      2:{ rewrite Hal in HF'. discriminate. }
      rewrite E. exists (tn_mem t ++ vs), cap, []. split; [exact H1|]. split; [|auto]. cbn [p_items p_dims p_w] in *.
      pose proof (@times_call_spec T C f (Z.to_nat (n * prodZ nt - zlen (tn_mem t))) (mkParts (tn_mem t) cap (tn_dims t) w)) as TS.
      unfold seqM in TS at 1. unfold seqM. rewrite TS by (cbn [p_items p_cap]; lia). cbn [p_w]. rewrite HG. reflexivity.
    - unfold resize_copy. rewrite Hal. cbn [p_dims p_items p_cap p_w].
      pose proof (@copy_dim_spec T C f (tn_dims t) new (tn_mem t) []
        (mkCopy (tn_mem t) [] (Z.max (prodZ new) (al_grow al 0 (prodZ new))) w) K1 Hn (eq_sym HL) HE' I) as CS.
      cbn [c_old c_new c_cap] in CS. specialize (CS (eq_sym (app_nil_r _))). unfold zlen at 1 in CS. cbn [length] in CS.
      specialize (CS ltac:(lia)). unfold copy_post in CS. cbn [c_w] in CS. rewrite HG in CS. destruct CS as (rest & xs & ds & CS). rewrite CS.
      exists [], (tn_cap t), (ds ++ rest ++ xs). split; [lia|]. split; [|reflexivity].
      unfold copied. cbn [c_new c_cap c_w c_old app]. unfold w_drop, after. cbn [w_clo w_made w_used w_dropped]. now rewrite <- app_assoc. }
  destruct BODY as (items & cap & ds & HC & E & HI).
  set (kept := resize_kept (tn_dims t) new vs).
  assert (KE : instep (mkParts items cap (tn_dims t) (after c vs ds w)) <-> kept = true).
  { unfold instep, kept, resize_kept. cbn [p_items p_dims]. destruct (slice_eqb (tl new) (tl (tn_dims t))).
    - destruct HI as [-> _]. rewrite zlen_app, I, Nat.eqb_eq. unfold zlen. lia.
    - rewrite HI, Z.eqb_eq. change (zlen (@nil T)) with 0. lia. }
  assert (KI : kept = true -> items = tn_mem t).
  { unfold kept, resize_kept. destruct (slice_eqb (tl new) (tl (tn_dims t))).
    - destruct HI as [-> _]. rewrite Nat.eqb_eq. intros H. destruct vs; [apply app_nil_r|discriminate H].
    - rewrite Z.eqb_eq, HI. intros H. rewrite H in I. unfold zlen in I. destruct (tn_mem t); [reflexivity|cbn in I; lia]. }
  assert (RES : exists ds', tn_resize_with al new f (t, w) = Unwound (left_with t kept (tn_mem t) cap, after c vs ds' w)).
  { rewrite resize_unfold by auto.
    assert (E' : (fun ty => resize_body al new f ;;; p_store ty new) (tn_ty t) (mkParts (tn_mem t) (tn_cap t) (tn_dims t) w) =
      Unwound (mkParts items cap (tn_dims t) (after c vs ds w))) by (cbn beta; unfold seqM; now rewrite E).
    destruct kept.
    - exists ds. rewrite (wmp_unwound Ht E') by (apply KE; reflexivity). cbn [p_items p_dims p_cap p_w left_with]. now rewrite KI.
    - exists (ds ++ items). rewrite (wmp_emptied Ht E').
      + unfold left_with, w_drop, after. cbn [p_items p_dims p_cap p_w w_clo w_made w_used w_dropped]. now rewrite app_assoc.
      + intros H. apply KE in H. discriminate.
      + destruct (Z.eq_dec (prodZ (sh_default (tn_ty t))) 0) as [|N]; auto. exfalso.
        assert (ED : new = tn_dims t) by exact (default_unique HT (to_typed Ht) N). rewrite ED, fresh_same in SH. lia. }
  destruct RES as (ds' & R). exists cap, ds'. split; [exact HC|]. split; [|exact R].
  pose proof (@resize_post T C al new f t w (tn_mem t ++ w_used w ++ w_dropped w) (w_made w) Ht Hn) as P. rewrite R in P.
  assert (B : balanced (tn_mem t ++ w_used w ++ w_dropped w) (w_made w ++ tn_mem t) w).
  { unfold balanced. rewrite (Permutation_app_comm _ (w_made w)), <- !app_assoc. reflexivity. }
  specialize (P B). cbn [tpost] in P. destruct P as (_ & _ & P). unfold balanced, after in P. cbn [w_made w_used w_dropped] in P.
  apply (Permutation_app_inv_l (w_made w ++ w_used w ++ w_dropped w)).
  transitivity ((tn_mem t ++ w_used w ++ w_dropped w) ++ w_made w ++ vs).
  - perm.
  - rewrite P. perm.
Qed.
