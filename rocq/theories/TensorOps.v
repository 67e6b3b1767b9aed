(** What the tensor operations do: results, consistency and conservation of elements. *)
From Verif Require Import Base Spec SpecFacts Shape Mapping Index View Wf MappingFacts MapOps ReshapeFacts.
From Verif Require Import IndexFacts ViewFacts Expr ExprSpec ExprFacts Tensor TensorSpec TraceFacts TensorFacts ResizeFacts.
Unset Strict Implicit.

(** ** Conservation *)

(** Solves a permutation of the same lists. *)
Ltac perm_rotate n :=
  lazymatch n with
  | O => fail
  | S ?k => first [ apply Permutation_app_head
                  | (etransitivity; [|apply Permutation_app_comm]; rewrite <- ?app_assoc; perm_rotate k) ]
  end.
Ltac perm := rewrite <- ?app_assoc; repeat (first [reflexivity | perm_rotate 12%nat]).

Lemma balanced_after {T C} (A N xs : list T) c (w : world T C) :
  balanced A N w -> balanced A (N ++ xs) (after c xs [] w).
Proof.
  unfold balanced, after. cbn [w_made w_used w_dropped]. intros H. rewrite app_nil_r.
  transitivity ((A ++ w_made w) ++ xs); [perm|]. rewrite H. perm.
Qed.

Lemma balanced_drop {T C} (A N N' ds : list T) (w : world T C) :
  balanced A N w -> Permutation N (N' ++ ds) -> balanced A N' (w_drop ds w).
Proof.
  unfold balanced, w_drop. cbn [w_made w_used w_dropped]. intros H E. rewrite H, E. perm.
Qed.

Lemma balanced_perm {T C} (A N N' : list T) (w : world T C) :
  balanced A N w -> Permutation N N' -> balanced A N' w.
Proof. unfold balanced. intros H E. now rewrite H, E. Qed.

Lemma balanced_set {T C} (A N : list T) c (w : world T C) : balanced A N w -> balanced A N (w_set c w).
Proof. exact (fun H => H). Qed.

Lemma balanced_make {T C} (A N : list T) x c (w : world T C) : balanced A N w -> balanced A (N ++ [x]) (w_make c x w).
Proof.
  unfold balanced, w_make. cbn [w_made w_used w_dropped]. intros H.
  transitivity ((A ++ w_made w) ++ [x]); [perm|]. rewrite H. perm.
Qed.

(** ** Shapes *)

Lemma typed_length ty (d1 d2 : list Z) : typed ty d1 -> length d1 = length d2 ->
  match sh_rank ty with Some k => length d2 = k | None => True end.
Proof. destruct ty as [|ds]; cbn; auto. intros H <-. symmetry. eapply Forall2_len; eauto. Qed.

Lemma default_typed ty : typed ty (sh_default ty).
Proof. destruct ty as [|ds]; cbn; auto. induction ds as [|[n|] ds IH]; constructor; cbn; auto. Qed.

Lemma default_nonneg ty dims : typed ty dims -> nonneg dims -> nonneg (sh_default ty).
Proof.
  destruct ty as [|ds]; cbn; intros H HN; [repeat constructor; lia|].
  revert HN. induction H as [|d n ds dims Hd H IH]; intros HN; [constructor|]. inversion HN; subst. constructor.
  - destruct d; cbn in *; lia.
  - now apply IH.
Qed.

Lemma typed_head ty dims n : typed ty dims -> head_dyn ty = true -> dims <> [] -> typed ty (upd dims 0 n).
Proof.
  destruct ty as [|ds]; cbn; auto. intros H. unfold head_dyn. cbn. destruct H as [|d x ds dims Hd H]; [congruence|].
  cbn. intros E _. destruct d; [discriminate|]. constructor; cbn; auto.
Qed.

Lemma nonneg_upd dims i n : nonneg dims -> 0 <= n -> nonneg (upd dims i n).
Proof.
  intros H Hn. revert i. induction H as [|d ds Hd H IH]; intros [|i]; cbn; constructor; auto. now apply IH.
Qed.

(** ** Code inside [with_mut_parts] *)

(** The vector and the mapping are usable (though not necessarily in step). *)
Definition pok {T C} (ty : shty) (p : parts T C) : Prop :=
  nonneg (p_dims p) /\ typed ty (p_dims p) /\ zlen (p_items p) <= p_cap p.
Definition instep {T C} (p : parts T C) : Prop := zlen (p_items p) = prodZ (p_dims p).

(** Acceptable results: consistent when it returns, usable when it panics. *)
Definition ppost {T C A} (ty : shty) (S0 R : list T) (r : result (parts T C) A) : Prop :=
  match r with
  | Done _ p => pok ty p /\ instep p /\ balanced S0 (R ++ p_items p) (p_w p)
  | Unwound p => pok ty p /\ balanced S0 (R ++ p_items p) (p_w p)
  | Aborted | Fault => False
  end.
(** The same at the level of tensors.  Abortion is possible only for shape types without a zero
    length default. *)
Definition tpost {T C A} (ty : shty) (S0 R : list T) (r : result (tensor T * world T C) A) : Prop :=
  match r with
  | Done _ (t, w) | Unwound (t, w) => tensor_ok t /\ tn_ty t = ty /\ balanced S0 (R ++ tn_mem t) w
  | Aborted => prodZ (sh_default ty) <> 0
  | Fault => False
  end.

Lemma to_vec_ok {T} (t : tensor T) : tensor_ok t -> to_vec_raw t = Some (tn_mem t).
Proof. intros H. unfold to_vec_raw, tn_len. rewrite sh_len_prod, <- (to_len H). unfold zlen. now rewrite Z.eqb_refl. Qed.

Lemma wmp_post {T C A} (m : shty -> M (parts T C) A) t w (S0 R : list T) :
  tensor_ok t -> balanced S0 (R ++ tn_mem t) w ->
  ppost (tn_ty t) S0 R (m (tn_ty t) (mkParts (tn_mem t) (tn_cap t) (tn_dims t) w)) ->
  tpost (tn_ty t) S0 R (with_mut_parts m (t, w)).
Proof.
  intros Ht HB H. unfold with_mut_parts. rewrite (to_vec_ok Ht).
  destruct (m _ _) as [a p|p| |] eqn:E; cbn [ppost] in H; try easy.
  - destruct H as ((H1 & H2 & H3) & H4 & H5). rewrite sh_len_prod. rewrite H4, Z.eqb_refl.
    cbn [tpost]. split; [|split; [reflexivity|exact H5]]. constructor; auto. apply (to_ty Ht).
  - destruct H as ((H1 & H2 & H3) & H5). rewrite !sh_len_prod.
    destruct (Z.eqb_spec (zlen (p_items p)) (prodZ (p_dims p))) as [E1|E1].
    + cbn [tpost]. split; [|split; [reflexivity|exact H5]]. constructor; auto. apply (to_ty Ht).
    + destruct (Z.eqb_spec (prodZ (sh_default (tn_ty t))) 0) as [E2|E2]; cbn [tpost]; auto.
      split; [|split; [reflexivity|]].
      * constructor; cbn [tn_dims tn_ty tn_mem tn_cap]; auto.
        -- eapply default_nonneg; eauto.
        -- apply default_typed.
        -- apply (to_ty Ht).
        -- cbn. pose proof (@zlen_nonneg _ (p_items p)). lia.
      * cbn [tn_mem]. rewrite app_nil_r. eapply balanced_drop; [exact H5|reflexivity].
Qed.

(** The result of [with_mut_parts] when the closure returns in a consistent state. *)
Lemma wmp_done {T C A} (m : shty -> M (parts T C) A) t w a p :
  tensor_ok t -> m (tn_ty t) (mkParts (tn_mem t) (tn_cap t) (tn_dims t) w) = Done a p -> instep p ->
  with_mut_parts m (t, w) = Done a (mkTensor (tn_ty t) (p_dims p) (p_items p) (p_cap p), p_w p).
Proof.
  intros Ht E I. unfold with_mut_parts. rewrite (to_vec_ok Ht), E, sh_len_prod, I, Z.eqb_refl. reflexivity.
Qed.
Lemma wmp_unwound {T C A} (m : shty -> M (parts T C) A) t w p :
  tensor_ok t -> m (tn_ty t) (mkParts (tn_mem t) (tn_cap t) (tn_dims t) w) = Unwound p -> instep p ->
  with_mut_parts m (t, w) = Unwound (mkTensor (tn_ty t) (p_dims p) (p_items p) (p_cap p), p_w p).
Proof.
  intros Ht E I. unfold with_mut_parts. rewrite (to_vec_ok Ht), E, sh_len_prod, I, Z.eqb_refl. reflexivity.
Qed.
Lemma wmp_done_eq {T C A} (m : shty -> M (parts T C) A) t w a p r :
  tensor_ok t -> m (tn_ty t) (mkParts (tn_mem t) (tn_cap t) (tn_dims t) w) = Done a p -> instep p ->
  Done a (mkTensor (tn_ty t) (p_dims p) (p_items p) (p_cap p), p_w p) = r -> with_mut_parts m (t, w) = r.
Proof. intros Ht E I <-. now apply wmp_done. Qed.
Lemma wmp_unwound_eq {T C A} (m : shty -> M (parts T C) A) t w p r :
  tensor_ok t -> m (tn_ty t) (mkParts (tn_mem t) (tn_cap t) (tn_dims t) w) = Unwound p -> instep p ->
  Unwound (mkTensor (tn_ty t) (p_dims p) (p_items p) (p_cap p), p_w p) = r -> with_mut_parts m (t, w) = r.
Proof. intros Ht E I <-. now apply wmp_unwound. Qed.
(** When it panics out of step: the vector is emptied. *)
Lemma wmp_emptied {T C A} (m : shty -> M (parts T C) A) t w p :
  tensor_ok t -> m (tn_ty t) (mkParts (tn_mem t) (tn_cap t) (tn_dims t) w) = Unwound p -> ~ instep p ->
  prodZ (sh_default (tn_ty t)) = 0 ->
  with_mut_parts m (t, w) = Unwound (mkTensor (tn_ty t) (sh_default (tn_ty t)) [] (p_cap p), w_drop (p_items p) (p_w p)).
Proof.
  intros Ht E I HD. unfold with_mut_parts. rewrite (to_vec_ok Ht), E, !sh_len_prod, HD. unfold instep in I.
  destruct (Z.eqb_spec (zlen (p_items p)) (prodZ (p_dims p))); [congruence|reflexivity].
Qed.

Lemma start_pok {T C} (t : tensor T) (w : world T C) :
  tensor_ok t -> pok (tn_ty t) (mkParts (tn_mem t) (tn_cap t) (tn_dims t) w) /\
                 instep (mkParts (tn_mem t) (tn_cap t) (tn_dims t) w).
Proof.
  intros H. split; [split; [|split]|]; cbn [p_dims p_items p_cap].
  - apply (to_nonneg H).
  - apply (to_typed H).
  - apply (to_cap H).
  - apply (to_len H).
Qed.

(** ** reserve, try_reserve, shrink_to *)

Lemma reserve_cases {T C} al n (p : parts T C) :
  (exists cap, vec_reserve al n p = Done tt (mkParts (p_items p) cap (p_dims p) (p_w p)) /\
     p_cap p <= cap /\ zlen (p_items p) + n <= cap) \/ 
  (vec_reserve al n p = Unwound p /\ al_ok al (zlen (p_items p) + n) = false).
Proof.
  unfold vec_reserve. destruct (Z.leb_spec (zlen (p_items p) + n) (p_cap p)).
  - left. exists (p_cap p). split; [destruct p; reflexivity|lia].
  - destruct (al_ok al (zlen (p_items p) + n)); [left|right; auto].
    eexists. split; [reflexivity|]. lia.
Qed.

Lemma reserve_post {T C} al n (t : tensor T) (w : world T C) (S0 R : list T) :
  tensor_ok t -> balanced S0 (R ++ tn_mem t) w -> tpost (C := C) (tn_ty t) S0 R (tn_reserve al n (t, w)).
Proof.
  intros Ht HB. apply wmp_post; auto. destruct (start_pok w Ht) as [(H1 & H2 & H3) I].
  destruct (reserve_cases al n (mkParts (tn_mem t) (tn_cap t) (tn_dims t) w)) as [(cap & -> & Hc & _)|[-> _]]; cbn [ppost].
  - split; [|split; [exact I|exact HB]]. split; [exact H1|]. split; [exact H2|]. cbn in *. lia.
  - split; [|exact HB]. split; auto.
Qed.

Lemma reserve_done {T C} al n (t : tensor T) (w : world T C) :
  tensor_ok t ->
  (exists cap, tn_reserve al n (t, w) = Done tt (mkTensor (tn_ty t) (tn_dims t) (tn_mem t) cap, w) /\
     tn_cap t <= cap /\ tn_len t + n <= cap) \/
  (tn_reserve (C := C) al n (t, w) = Unwound (t, w) /\ al_ok al (tn_len t + n) = false).
Proof.
  intros Ht. unfold tn_reserve.
  assert (EL : tn_len t = zlen (tn_mem t)) by (unfold tn_len; rewrite sh_len_prod; symmetry; apply (to_len Ht)).
  destruct (start_pok w Ht) as [_ I]. rewrite EL.
  destruct (reserve_cases al n (mkParts (tn_mem t) (tn_cap t) (tn_dims t) w)) as [(cap & E & Hc & Hr)|[E Ho]]; [left|right].
  - exists cap. split; [|cbn in *; lia]. rewrite (wmp_done (m := fun _ => vec_reserve al n) Ht E I). reflexivity.
  - split; [|exact Ho]. rewrite (wmp_unwound (m := fun _ => vec_reserve al n) Ht E I). now destruct t.
Qed.

Lemma try_reserve_post {T C} al n (t : tensor T) (w : world T C) (S0 R : list T) :
  tensor_ok t -> balanced S0 (R ++ tn_mem t) w -> tpost (C := C) (tn_ty t) S0 R (tn_try_reserve al n (t, w)).
Proof.
  intros Ht HB. apply wmp_post; auto. destruct (start_pok w Ht) as [(H1 & H2 & H3) I]. unfold vec_try_reserve.
  destruct (reserve_cases al n (mkParts (tn_mem t) (tn_cap t) (tn_dims t) w)) as [(cap & -> & Hc & _)|[-> _]]; cbn [ppost].
  - split; [|split; [exact I|exact HB]]. split; [exact H1|]. split; [exact H2|]. cbn in *. lia.
  - split; [|split; [exact I|exact HB]]. split; auto.
Qed.

Lemma shrink_post {T C} n (t : tensor T) (w : world T C) (S0 R : list T) :
  tensor_ok t -> balanced S0 (R ++ tn_mem t) w -> tpost (C := C) (tn_ty t) S0 R (tn_shrink_to n (t, w)).
Proof.
  intros Ht HB. apply wmp_post; auto. destruct (start_pok w Ht) as [(H1 & H2 & H3) I]. unfold vec_shrink. cbn [ppost].
  split; [|split; [exact I|exact HB]]. split; [exact H1|]. split; [exact H2|]. cbn in *. lia.
Qed.

(** ** clear, truncate *)

Lemma clear_done {T C} (t : tensor T) (w : world T C) :
  tensor_ok t -> prodZ (sh_default (tn_ty t)) = 0 ->
  tn_clear (t, w) = Done tt (mkTensor (tn_ty t) (sh_default (tn_ty t)) [] (tn_cap t), w_drop (tn_mem t) w).
Proof.
  intros Ht HD. unfold tn_clear. cbn [fst]. rewrite sh_len_prod, HD. cbn [Z.eqb]. unfold seqM at 1. cbn [check].
  eapply wmp_done_eq; [exact Ht| | |].
  - unfold seqM, vec_truncate, p_set_dims. cbn [p_items p_cap p_dims p_w firstn skipn Z.to_nat]. reflexivity.
  - unfold instep. cbn [p_items p_dims]. now rewrite HD.
  - reflexivity.
Qed.

Lemma clear_panics {T C} (t : tensor T) (w : world T C) :
  prodZ (sh_default (tn_ty t)) <> 0 -> tn_clear (t, w) = Unwound (t, w).
Proof.
  intros HD. unfold tn_clear. cbn [fst]. rewrite sh_len_prod. apply Z.eqb_neq in HD. rewrite HD. reflexivity.
Qed.

Lemma clear_post {T C} (t : tensor T) (w : world T C) (S0 R : list T) :
  tensor_ok t -> balanced S0 (R ++ tn_mem t) w -> tpost (C := C) (tn_ty t) S0 R (tn_clear (t, w)).
Proof.
  intros Ht HB. destruct (Z.eq_dec (prodZ (sh_default (tn_ty t))) 0) as [HD|HD].
  - rewrite clear_done by auto. cbn [tpost]. split; [|split; [reflexivity|]].
    + constructor; cbn [tn_dims tn_ty tn_mem tn_cap].
      * eapply default_nonneg; [apply (to_typed Ht)|apply (to_nonneg Ht)].
      * apply default_typed.
      * apply (to_ty Ht).
      * now rewrite HD.
      * pose proof (to_cap Ht). cbn. lia.
    + cbn [tn_mem]. rewrite app_nil_r. eapply balanced_drop; [exact HB|reflexivity].
  - rewrite clear_panics by auto. cbn [tpost]. auto.
Qed.

(** The operations along the first dimension. *)
Definition outer_ok {T} (t : tensor T) : bool := (0 <? length (tn_dims t))%nat && head_dyn (tn_ty t).

Lemma check_outer_spec {T C} (t : tensor T) (w : world T C) :
  check_outer (t, w) = if outer_ok t then Done tt (t, w) else Unwound (t, w).
Proof.
  unfold check_outer, outer_ok, seqM, check. cbn [fst]. destruct (0 <? length (tn_dims t))%nat; auto.
Qed.

Lemma outer_ok_inv {T} (t : tensor T) : outer_ok t = true -> tn_dims t <> [] /\ head_dyn (tn_ty t) = true.
Proof.
  unfold outer_ok. intros H. apply andb_prop in H as [H1 H2]. split; auto. apply Nat.ltb_lt in H1.
  destruct (tn_dims t); cbn in *; [lia|discriminate].
Qed.

Lemma prodZ_upd0 d n : d <> [] -> prodZ (upd d 0 n) = n * prodZ (tl d).
Proof. destruct d; [congruence|]. intros _. reflexivity. Qed.

Lemma dims_cons d : d <> [] -> d = nth 0 d 0 :: tl d.
Proof. destruct d; [congruence|reflexivity]. Qed.

Lemma truncate_done {T C} (t : tensor T) (w : world T C) size :
  tensor_ok t -> outer_ok t = true -> 0 <= size ->
  let n := Z.min size (nth 0 (tn_dims t) 0) in
  let keep := Z.to_nat (n * prodZ (tl (tn_dims t))) in
  tn_truncate size (t, w) =
  Done tt (mkTensor (tn_ty t) (upd (tn_dims t) 0 n) (firstn keep (tn_mem t)) (tn_cap t),
           w_drop (skipn keep (tn_mem t)) w).
Proof.
  intros Ht HO Hs n keep. destruct (outer_ok_inv HO) as [HD HH]. unfold tn_truncate, seqM. rewrite check_outer_spec, HO.
  pose proof (to_nonneg Ht) as HN. pose proof (to_len Ht) as HL. rewrite (dims_cons HD), prodZ_cons in HL.
  assert (HN' : 0 <= nth 0 (tn_dims t) 0 /\ nonneg (tl (tn_dims t))).
  { rewrite (dims_cons HD) in HN. inversion HN; auto. }
  destruct HN' as [HN0 HNt]. pose proof (prodZ_nonneg HNt) as HP. cbn [fst].
  destruct (Z.ltb_spec size (nth 0 (tn_dims t) 0)) as [Hlt|Hge].
  - assert (En : n = size) by (unfold n; lia). clearbody n. subst n.
    eapply wmp_done_eq; [exact Ht| | |].
    + unfold p_store, lift, seqM. cbn [p_dims]. rewrite sh_store_typed by (apply typed_head; auto; apply (to_typed Ht)).
      cbn [p_items p_cap p_w p_dims]. unfold vec_truncate. cbn [p_items p_cap p_w p_dims].
      rewrite sh_len_prod, prodZ_upd0 by auto. reflexivity.
    + unfold instep. cbn [p_items p_dims]. rewrite prodZ_upd0 by auto. unfold keep. apply zlen_firstn. unfold zlen. nia.
    + reflexivity.
  - assert (En : n = nth 0 (tn_dims t) 0) by (unfold n; lia). clearbody n. subst n.
    assert (EK : keep = length (tn_mem t)) by (unfold keep; lia). clearbody keep. subst keep.
    rewrite upd_same, firstn_all, skipn_all by (destruct (tn_dims t); cbn; [congruence|lia]).
    unfold w_drop. rewrite app_nil_r. destruct t, w; reflexivity.
Qed.

Lemma truncate_panics {T C} (t : tensor T) (w : world T C) size : outer_ok t = false -> tn_truncate size (t, w) = Unwound (t, w).
Proof. intros H. unfold tn_truncate, seqM. now rewrite check_outer_spec, H. Qed.

Lemma truncate_post {T C} (t : tensor T) (w : world T C) size (S0 R : list T) :
  tensor_ok t -> 0 <= size -> balanced S0 (R ++ tn_mem t) w -> tpost (C := C) (tn_ty t) S0 R (tn_truncate size (t, w)).
Proof.
  intros Ht Hs HB. destruct (outer_ok t) eqn:HO; [|rewrite truncate_panics by auto; cbn [tpost]; auto].
  rewrite truncate_done by auto. cbn [tpost]. destruct (outer_ok_inv HO) as [HD HH].
  pose proof (to_nonneg Ht) as HN. pose proof (to_len Ht) as HL. rewrite (dims_cons HD), prodZ_cons in HL.
  assert (HN' : 0 <= nth 0 (tn_dims t) 0 /\ nonneg (tl (tn_dims t))).
  { rewrite (dims_cons HD) in HN. inversion HN; auto. }
  destruct HN' as [HN0 HNt]. pose proof (prodZ_nonneg HNt) as HP.
  set (n := Z.min size (nth 0 (tn_dims t) 0)) in *. assert (Hn : 0 <= n <= nth 0 (tn_dims t) 0) by (unfold n; lia). clearbody n.
  split; [|split; [reflexivity|]].
  - constructor; cbn [tn_dims tn_ty tn_mem tn_cap].
    + apply nonneg_upd; auto. lia.
    + apply typed_head; auto. apply (to_typed Ht).
    + apply (to_ty Ht).
    + rewrite prodZ_upd0 by auto. apply zlen_firstn. unfold zlen. nia.
    + pose proof (to_cap Ht). rewrite firstn_length. lia.
  - cbn [tn_mem]. eapply balanced_drop; [exact HB|]. rewrite <- app_assoc, firstn_skipn. reflexivity.
Qed.

(** ** expand *)

Lemma clone_into_vec_spec {T Y C} (e : expression Y) (cl : Y -> C -> call T C) p :
  honest e -> zlen (p_items p) + prodZ (e_dims e) <= p_cap p ->
  clone_into_vec e cl p =
  let '(xs, c, b) := gives (map cl (fst (e_trace e))) (w_clo (p_w p)) in
  match b, snd (e_trace e) with
  | true, Ok _ => Done tt (pushed c xs p)
  | _, _ => Unwound (pushed c xs p)
  end.
Proof.
  intros (Hn & Hlen & Hend) Hc. unfold clone_into_vec, seqM, check. rewrite sh_len_prod.
  destruct (Z.leb_spec (prodZ (e_dims e)) (p_cap p - zlen (p_items p))); [|lia].
  rewrite clone_loop_spec by (unfold zlen in *; lia).
  destruct (gives _ _) as [[xs c] b]. unfold finish. destruct b; auto.
  unfold lift. destruct Hend as [[-> _]| ->]; auto. 
Qed.

(** The dimensions after [expand]. *)
Definition grown (dims src : list Z) : list Z :=
  if prodZ dims =? 0 then src else upd dims 0 (nth 0 dims 0 + nth 0 src 0).
(** When they can be appended. *)
Definition growable (ty : shty) (dims src : list Z) : Prop :=
  if prodZ dims =? 0 then typed ty src else length src = length dims /\ tl src = tl dims.

Lemma expand_dims_spec {T C} ty src (p : parts T C) :
  typed ty (p_dims p) -> head_dyn ty = true -> p_dims p <> [] ->
  (growable ty (p_dims p) src /\
   expand_dims ty src p = Done tt (mkParts (p_items p) (p_cap p) (grown (p_dims p) src) (p_w p))) \/
  (~ growable ty (p_dims p) src /\ expand_dims ty src p = Unwound p).
Proof.
  intros HT HH HD. unfold growable, grown, expand_dims, sh_is_empty. rewrite sh_len_prod.
  destruct (prodZ (p_dims p) =? 0).
  - destruct (Nat.eqb_spec (length src) (length (p_dims p))) as [E|E].
    + unfold p_store, lift, seqM. rewrite sh_store_spec by (eapply typed_length; eauto).
      destruct (accepts ty src) eqn:A; [left|right]; split; auto.
      * now apply accepts_typed.
      * intros H. apply accepts_typed in H. congruence.
    + unfold lift, seqM, p_set_dims. rewrite sh_from_dims_spec. destruct (accepts ty src) eqn:A; [left|right]; split; auto.
      * now apply accepts_typed.
      * intros H. apply accepts_typed in H. congruence.
  - unfold seqM, check. destruct (Nat.eqb_spec (length src) (length (p_dims p))) as [E|E].
    + destruct (slice_eqb (tl src) (tl (p_dims p))) eqn:ES.
      * left. apply slice_eqb_eq in ES. split; auto. unfold p_store, lift, seqM. rewrite sh_store_typed by now apply typed_head. reflexivity.
      * right. split; auto. intros [_ H]. apply slice_eqb_eq in H. congruence.
    + right. split; auto. tauto.
Qed.

Lemma grown_facts ty dims src :
  nonneg dims -> typed ty dims -> head_dyn ty = true -> dims <> [] -> nonneg src -> 0 < prodZ src -> growable ty dims src ->
  nonneg (grown dims src) /\ typed ty (grown dims src) /\ prodZ (grown dims src) = prodZ dims + prodZ src.
Proof.
  intros HN HT HH HD HS HP HG. unfold grown, growable in *. destruct (Z.eqb_spec (prodZ dims) 0) as [E|E].
  - split; auto. split; auto. lia.
  - destruct HG as [HL HTl].
    assert (HSD : src <> []) by (destruct src, dims; cbn in *; congruence).
    assert (0 <= nth 0 src 0) by (destruct HS; cbn; lia).
    assert (0 <= nth 0 dims 0) by (destruct HN; cbn; lia).
    split; [apply nonneg_upd; auto; lia|]. split; [now apply typed_head|].
    rewrite prodZ_upd0 by auto. rewrite (dims_cons HD) at 3. rewrite (dims_cons HSD) at 2. rewrite !prodZ_cons, HTl. lia.
Qed.

(** [expand] with a source that gives all its elements. *)
Lemma expand_done {T Y C} al (e : expression Y) (cl : Y -> C -> call T C) ys xs c t w :
  tensor_ok t -> outer_ok t = true -> (forall n, al_ok al n = true) ->
  nonneg (e_dims e) -> e_collect e = Ok ys -> zlen ys = prodZ (e_dims e) -> 0 < prodZ (e_dims e) ->
  gives (map cl ys) (w_clo w) = (xs, c, true) ->
  growable (tn_ty t) (tn_dims t) (e_dims e) ->
  exists cap, tn_cap t <= cap /\ zlen (tn_mem t ++ xs) <= cap /\
    tn_expand al e cl (t, w) =
    Done tt (mkTensor (tn_ty t) (grown (tn_dims t) (e_dims e)) (tn_mem t ++ xs) cap, after c xs [] w).
Proof.
  intros Ht HO Hal Hn HC HL HP HG Hok. destruct (outer_ok_inv HO) as [HD HH]. apply e_collect_trace in HC.
  assert (HON : honest e).
  { split; auto. rewrite HC. cbn [fst snd]. unfold zlen in HL. split; [lia|]. left. split; auto. }
  destruct (grown_facts (to_nonneg Ht) (to_typed Ht) HH HD Hn HP Hok) as (G1 & G2 & G3).
  assert (HX : zlen xs = prodZ (e_dims e)).
  { destruct (gives_length HG) as [_ G]. rewrite map_length in G. unfold zlen in *. rewrite G; auto. }
  pose proof (to_len Ht) as HM.
  destruct (reserve_cases al (prodZ (e_dims e)) (mkParts (tn_mem t) (tn_cap t) (tn_dims t) w)) as [(cap & E & Hc & Hr)|[E HF]].
  2:{ rewrite Hal in HF. discriminate. }
  exists cap. split; [exact Hc|]. split; [rewrite zlen_app, HX; exact Hr|].
  unfold tn_expand. unfold seqM at 1. rewrite check_outer_spec, HO, sh_len_prod.
  destruct (Z.ltb_spec 0 (prodZ (e_dims e))); [|lia].
  eapply wmp_done_eq; [exact Ht| | |].
  - cbn beta. unfold seqM. rewrite E.
    destruct (@expand_dims_spec T C (tn_ty t) (e_dims e) (mkParts (tn_mem t) cap (tn_dims t) w)) as [[_ E2]|[HF _]];
      auto using (to_typed Ht); [|contradiction]. cbn [p_items p_cap p_dims p_w] in *. rewrite E2.
    rewrite clone_into_vec_spec by auto. cbn [p_w]. rewrite HC. cbn [fst snd]. rewrite HG. reflexivity.
  - unfold instep, pushed. cbn [p_items p_dims]. rewrite zlen_app, G3. unfold zlen in *. lia.
  - reflexivity.
Qed.

(** A mismatch leaves the tensor as it was. *)
Lemma expand_mismatch {T Y C} al (e : expression Y) (cl : Y -> C -> call T C) t w :
  tensor_ok t -> outer_ok t = true -> (forall n, al_ok al n = true) -> 0 < prodZ (e_dims e) ->
  ~ growable (tn_ty t) (tn_dims t) (e_dims e) ->
  exists cap, tn_cap t <= cap /\
    tn_expand al e cl (t, w) = Unwound (mkTensor (tn_ty t) (tn_dims t) (tn_mem t) cap, w).
Proof.
  intros Ht HO Hal HP Hok. destruct (outer_ok_inv HO) as [HD HH]. destruct (start_pok w Ht) as [_ I].
  destruct (reserve_cases al (prodZ (e_dims e)) (mkParts (tn_mem t) (tn_cap t) (tn_dims t) w)) as [(cap & E & Hc & Hr)|[E HF]].
  2:{ rewrite Hal in HF. discriminate. }
  exists cap. split; [exact Hc|]. unfold tn_expand. unfold seqM at 1. rewrite check_outer_spec, HO, sh_len_prod.
  destruct (Z.ltb_spec 0 (prodZ (e_dims e))); [|lia].
  eapply wmp_unwound_eq; [exact Ht| | |].
  - cbn beta. unfold seqM. rewrite E.
    destruct (@expand_dims_spec T C (tn_ty t) (e_dims e) (mkParts (tn_mem t) cap (tn_dims t) w)) as [[HF _]|[_ E2]];
      auto using (to_typed Ht); [contradiction|]. cbn [p_items p_cap p_dims p_w] in *. rewrite E2. reflexivity.
  - exact I.
  - reflexivity.
Qed.

Lemma expand_other {T Y C} al (e : expression Y) (cl : Y -> C -> call T C) t w :
  (outer_ok t = false -> tn_expand al e cl (t, w) = Unwound (t, w)) /\
  (outer_ok t = true -> prodZ (e_dims e) <= 0 -> tn_expand al e cl (t, w) = Done tt (t, w)).
Proof.
  unfold tn_expand, seqM. rewrite check_outer_spec, sh_len_prod. split; intros ->; auto.
  intros H. destruct (Z.ltb_spec 0 (prodZ (e_dims e))); [lia|reflexivity].
Qed.

Lemma expand_post {T Y C} al (e : expression Y) (cl : Y -> C -> call T C) t w S0 R :
  tensor_ok t -> honest e -> balanced S0 (R ++ tn_mem t) w ->
  tpost (tn_ty t) S0 R (tn_expand al e cl (t, w)).
Proof.
  intros Ht HE HB. unfold tn_expand. unfold seqM at 1. rewrite check_outer_spec.
  destruct (outer_ok t) eqn:HO; [|cbn [tpost]; auto]. destruct (outer_ok_inv HO) as [HD HH]. rewrite sh_len_prod.
  destruct (Z.ltb_spec 0 (prodZ (e_dims e))) as [HP|HP]; [|cbn [tpost ret]; auto].
  apply wmp_post; auto. unfold seqM. destruct (start_pok w Ht) as [(K1 & K2 & K3) I].
  destruct (reserve_cases al (prodZ (e_dims e)) (mkParts (tn_mem t) (tn_cap t) (tn_dims t) w)) as [(cap & E & Hc & Hr)|[E HF]]; rewrite E.
  2:{ split; auto. split; auto. }
  cbn [p_items p_cap p_dims p_w] in *.
  destruct (@expand_dims_spec T C (tn_ty t) (e_dims e) (mkParts (tn_mem t) cap (tn_dims t) w)) as [[HG E2]|[HF E2]];
    auto using (to_typed Ht); rewrite E2.
  2:{ split; auto. split; auto. cbn. split; auto. unfold zlen in *. lia. }
  cbn [p_items p_cap p_dims p_w] in *.
  destruct (grown_facts (to_nonneg Ht) (to_typed Ht) HH HD (proj1 HE) HP HG) as (G1 & G2 & G3).
  rewrite clone_into_vec_spec by auto. cbn [p_w].
  destruct (gives _ _) as [[xs c] b] eqn:EG. destruct (gives_length EG) as [L1 L2]. rewrite map_length in *.
  destruct HE as (Hn & Hlen & Hend).
  assert (PK : pok (tn_ty t) (pushed c xs (mkParts (tn_mem t) cap (grown (tn_dims t) (e_dims e)) w))).
  { split; auto. split; auto. unfold pushed. cbn [p_items p_cap]. rewrite zlen_app. unfold zlen in *. lia. }
  assert (BL : balanced S0 (R ++ p_items (pushed c xs (mkParts (tn_mem t) cap (grown (tn_dims t) (e_dims e)) w)))
                 (p_w (pushed c xs (mkParts (tn_mem t) cap (grown (tn_dims t) (e_dims e)) w)))).
  { unfold pushed. cbn [p_items p_w]. rewrite app_assoc. now apply balanced_after. }
  destruct b; [destruct Hend as [[-> HEQ]| ->]|]; cbn [ppost]; auto.
  split; auto. split; auto. unfold instep, pushed. cbn [p_items p_dims]. rewrite zlen_app, G3.
  pose proof (to_len Ht). specialize (L2 eq_refl). unfold zlen in *. lia.
Qed.

(** ** extend *)

Lemma vec_extend_done {T C} al (fs : list (C -> call T C)) p xs c b :
  (forall n, al_ok al n = true) -> gives fs (w_clo (p_w p)) = (xs, c, b) -> zlen (p_items p) <= p_cap p ->
  exists cap, p_cap p <= cap /\ zlen (p_items p ++ xs) <= cap /\
    vec_extend al fs p = finish b tt (mkParts (p_items p ++ xs) cap (p_dims p) (after c xs [] (p_w p))).
Proof.
  intros Hal. revert p xs. induction fs as [|f fs IH]; intros p xs; cbn [gives vec_extend].
  - intros [= <- <- <-] Hc. exists (p_cap p). rewrite app_nil_r, after_nil. split; [lia|]. split; [exact Hc|]. now destruct p.
  - unfold seqM at 1, vec_call. destruct (f (w_clo (p_w p))) as [x c1|c1].
    + destruct (gives fs c1) as [[ys c2] b2] eqn:EG. intros [= <- <- <-] Hc. unfold seqM at 1.
      destruct (reserve_cases al 1 (mkParts (p_items p) (p_cap p) (p_dims p) (w_make c1 x (p_w p)))) as [(cap & E & H1 & H2)|[E HF]].
      2:{ rewrite Hal in HF. discriminate. }
      rewrite E. cbn [p_items p_cap p_dims p_w] in *. unfold seqM at 1, vec_write. cbn [p_items p_cap p_dims p_w].
      destruct (Z.ltb_spec (zlen (p_items p)) cap); [|lia].
      destruct (IH (mkParts (p_items p ++ [x]) cap (p_dims p) (w_make c1 x (p_w p))) ys) as (cap' & C1 & C2 & EE).
      * exact EG.
      * cbn [p_items p_cap]. rewrite zlen_app. unfold zlen at 2. cbn. lia.
      * exists cap'. cbn [p_items p_cap p_dims p_w] in *. split; [lia|]. rewrite <- app_assoc in *. cbn [app] in *.
        split; [exact C2|]. rewrite EE. unfold after, w_make. cbn [w_made w_used w_dropped]. rewrite <- app_assoc. reflexivity.
    + intros [= <- <- <-] Hc. exists (p_cap p). rewrite app_nil_r. split; [lia|]. split; [exact Hc|].
      unfold finish, after, w_set. rewrite !app_nil_r. reflexivity.
Qed.

(** In general (reservations may fail). *)
Lemma vec_extend_cases {T C} al (fs : list (C -> call T C)) p S0 R :
  balanced S0 (R ++ p_items p) (p_w p) -> zlen (p_items p) <= p_cap p ->
  match vec_extend al fs p with
  | Done _ p' | Unwound p' =>
      p_dims p' = p_dims p /\ zlen (p_items p') <= p_cap p' /\ balanced S0 (R ++ p_items p') (p_w p')
  | _ => False
  end.
Proof.
  revert p. induction fs as [|f fs IH]; intros p HB Hc; cbn [vec_extend].
  - cbn [ret]. auto.
  - unfold seqM at 1, vec_call. destruct (f (w_clo (p_w p))) as [x c1|c1]; [|cbn; auto]. unfold seqM at 1.
    destruct (reserve_cases al 1 (mkParts (p_items p) (p_cap p) (p_dims p) (w_make c1 x (p_w p)))) as [(cap & E & H1 & H2)|[E HF]]; rewrite E.
    + cbn [p_items p_cap p_dims p_w] in *. unfold seqM at 1, vec_write. cbn [p_items p_cap p_dims p_w].
      destruct (Z.ltb_spec (zlen (p_items p)) cap); [|lia].
      apply (IH (mkParts (p_items p ++ [x]) cap (p_dims p) (w_make c1 x (p_w p)))); cbn [p_items p_cap p_dims p_w].
      * rewrite app_assoc. now apply balanced_make.
      * rewrite zlen_app. unfold zlen at 2. cbn. lia.
    + cbn [p_items p_cap p_dims p_w] in *. split; auto. split; auto.
      eapply balanced_drop; [apply balanced_make; exact HB|reflexivity].
Qed.

(** One-dimensional tensors. *)
Definition flat_ty : shty := STuple [DDyn].
Lemma flat_dims {T} (t : tensor T) : tensor_ok t -> tn_ty t = flat_ty -> tn_dims t = [zlen (tn_mem t)].
Proof.
  intros Ht E. pose proof (to_typed Ht) as H. rewrite E in H. cbn in H. pose proof (to_len Ht) as HL.
  inversion H as [|? n ? ? ? H' E1 E2]; subst. inversion H'; subst. rewrite <- E2 in HL. cbn in HL. f_equal. unfold zlen. lia.
Qed.

Lemma extend_done {T C} al (fs : list (C -> call T C)) t w xs c :
  tensor_ok t -> tn_ty t = flat_ty -> (forall n, al_ok al n = true) -> gives fs (w_clo w) = (xs, c, true) ->
  exists cap, tn_cap t <= cap /\ zlen (tn_mem t ++ xs) <= cap /\
    tn_extend al fs (t, w) = Done tt (mkTensor flat_ty [zlen (tn_mem t ++ xs)] (tn_mem t ++ xs) cap, after c xs [] w).
Proof.
  intros Ht Hty Hal HG.
  destruct (@vec_extend_done T C al fs (mkParts (tn_mem t) (tn_cap t) (tn_dims t) w) xs c true Hal HG (to_cap Ht)) as (cap & H1 & H2 & E).
  exists cap. split; [exact H1|]. split; [exact H2|]. unfold tn_extend. eapply wmp_done_eq; [exact Ht| | |].
  - unfold seqM. rewrite E. cbn [finish]. unfold p_set_dims. reflexivity.
  - unfold instep. cbn [p_items p_dims prodZ fold_right]. lia.
  - cbn [p_items p_dims p_cap p_w]. now rewrite Hty.
Qed.

(** A panic of the iterator before the first element leaves the tensor; a later one empties it. *)
Lemma extend_panics {T C} al (fs : list (C -> call T C)) t w xs c :
  tensor_ok t -> tn_ty t = flat_ty -> (forall n, al_ok al n = true) -> gives fs (w_clo w) = (xs, c, false) ->
  exists cap, tn_cap t <= cap /\
    tn_extend al fs (t, w) =
    Unwound (match xs with
             | [] => (mkTensor flat_ty (tn_dims t) (tn_mem t) cap, after c [] [] w)
             | _ :: _ => (mkTensor flat_ty [0] [] cap, after c xs (tn_mem t ++ xs) w)
             end).
Proof.
  intros Ht Hty Hal HG.
  destruct (@vec_extend_done T C al fs (mkParts (tn_mem t) (tn_cap t) (tn_dims t) w) xs c false Hal HG (to_cap Ht)) as (cap & H1 & H2 & E).
  exists cap. split; [exact H1|]. unfold tn_extend. cbn [p_items p_cap p_dims p_w finish] in *.
  assert (E' : (fun _ : shty => vec_extend al fs ;;; (fun p => p_set_dims [zlen (p_items p)] p)) (tn_ty t)
                 (mkParts (tn_mem t) (tn_cap t) (tn_dims t) w) = Unwound (mkParts (tn_mem t ++ xs) cap (tn_dims t) (after c xs [] w)))
    by (cbn beta; unfold seqM; now rewrite E).
  destruct xs as [|x xs].
  - rewrite (wmp_unwound Ht E').
    + cbn [p_items p_dims p_cap p_w]. now rewrite Hty, app_nil_r.
    + unfold instep. cbn [p_items p_dims]. rewrite app_nil_r. apply (to_len Ht).
  - rewrite (wmp_emptied Ht E').
    + cbn [p_items p_dims p_cap p_w]. rewrite Hty. cbn [sh_default flat_ty map dim_default].
      unfold w_drop, after. cbn [w_clo w_made w_used w_dropped]. now rewrite app_nil_r.
    + unfold instep. cbn [p_items p_dims]. rewrite (flat_dims Ht Hty). cbn [prodZ fold_right]. rewrite zlen_app.
      unfold zlen. cbn [length]. lia.
    + now rewrite Hty.
Qed.

Lemma extend_post {T C} al (fs : list (C -> call T C)) t w S0 R :
  tensor_ok t -> tn_ty t = flat_ty -> balanced S0 (R ++ tn_mem t) w ->
  tpost (tn_ty t) S0 R (tn_extend al fs (t, w)).
Proof.
  intros Ht Hty HB. apply wmp_post; auto. unfold seqM.
  pose proof (@vec_extend_cases T C al fs (mkParts (tn_mem t) (tn_cap t) (tn_dims t) w) S0 R HB (to_cap Ht)) as H.
  destruct (vec_extend _ _ _) as [u p|p| |]; cbn [p_dims] in H; try contradiction; destruct H as (H1 & H2 & H3).
  - unfold p_set_dims. cbn [ppost p_items p_w]. split; [split; [|split]|split]; cbn [p_items p_dims p_cap]; auto.
    + repeat constructor. apply zlen_nonneg.
    + rewrite Hty. repeat constructor.
    + unfold instep. cbn [p_items p_dims prodZ fold_right]. lia.
  - cbn [ppost]. split; auto. split; [|split]; auto; rewrite H1; [apply (to_nonneg Ht)|apply (to_typed Ht)].
Qed.

(** ** resize *)

(** Elements are conserved while copying. *)
Definition cbal {T C} (S0 R : list T) (s : copying T C) : Prop := balanced S0 (R ++ c_old s ++ c_new s) (c_w s).
Definition keeps {S A} (I : S -> Prop) (m : M S A) : Prop :=
  forall s, I s -> match m s with Done _ s' | Unwound s' => I s' | _ => True end.

Lemma keeps_seq {S A B} (I : S -> Prop) (m : M S A) (k : A -> M S B) :
  keeps I m -> (forall a, keeps I (k a)) -> keeps I (seqM m k).
Proof. intros H1 H2 s Hs. unfold seqM. specialize (H1 s Hs). destruct (m s); auto. now apply H2. Qed.
Lemma keeps_times {S} (I : S -> Prop) n (m : M S unit) : keeps I m -> keeps I (timesM n m).
Proof.
  intros H. induction n as [|n IH]; cbn [timesM]; [intros s Hs; exact Hs|]. apply keeps_seq; auto.
Qed.

Lemma copy_move_keeps {T C} S0 R n : keeps (@cbal T C S0 R) (copy_move n).
Proof.
  intros s H. unfold copy_move. destruct (_ && _); auto. unfold cbal in *. cbn [c_old c_new c_w].
  eapply balanced_perm; [exact H|]. rewrite <- (firstn_skipn (Z.to_nat n) (c_old s)) at 1. perm.
Qed.
Lemma copy_drop_keeps {T C} S0 R n : keeps (@cbal T C S0 R) (copy_drop n).
Proof.
  intros s H. unfold copy_drop. destruct (_ <=? _); auto. unfold cbal in *. cbn [c_old c_new c_w].
  eapply balanced_drop; [exact H|]. rewrite <- (firstn_skipn (Z.to_nat n) (c_old s)) at 1. perm.
Qed.
Lemma copy_new_keeps {T C} S0 R f : keeps (@cbal T C S0 R) (copy_new f).
Proof.
  intros s H. unfold copy_new. destruct (f _) as [x c|c]; [|exact H]. destruct (_ <? _); auto.
  unfold cbal in *. cbn [c_old c_new c_w]. rewrite !app_assoc in *. now apply balanced_make.
Qed.
Lemma copy_dim_keeps {T C} S0 R f old new : keeps (@cbal T C S0 R) (copy_dim f old new).
Proof.
  revert new. induction old as [|o ot IH]; intros [|n nt]; try (intros s H; exact H).
  cbn [copy_dim]. apply keeps_seq; [|intros _; apply keeps_seq].
  - destruct ot; [apply copy_move_keeps|]. apply keeps_times, IH.
  - destruct (_ <? _); [apply copy_drop_keeps|intros s H; exact H].
  - intros _. apply keeps_times, copy_new_keeps.
Qed.

(** *** The dimensions after the first are unchanged *)

Lemma fresh_same d : fresh d d = 0%nat.
Proof.
  unfold fresh. assert (E : forall l, (forall x, In x l -> in_bounds d x) -> filter (fun idx => negb (inside d idx)) l = []).
  { induction l as [|x l IH]; intros H; cbn; auto. rewrite (proj2 (inside_spec _ _) (H x (or_introl eq_refl))). cbn.
    apply IH. intros; apply H; now right. }
  rewrite E; auto. intros x. now apply in_indices.
Qed.

Lemma flat_map_elem {T} d (a : list T) :
  nonneg d -> zlen a = prodZ d ->
  flat_map (fun is => match elem_at d a is with Some x => [x] | None => [] end) (indices d) = a.
Proof.
  intros Hd Hl. rewrite indices_unflat by auto. rewrite flat_map_concat_map, map_map.
  rewrite (map_ext_in _ (fun k => match nth_error a (Z.to_nat k) with Some x => [x] | None => [] end)).
  - rewrite <- Hl. clear. unfold zrange, zlen. rewrite Nat2Z.id, map_map.
    rewrite (map_ext _ (fun k => match nth_error a k with Some x => [x] | None => [] end)) by (intros; now rewrite Nat2Z.id).
    induction a as [|x l IH]; cbn; auto. f_equal. rewrite <- seq_shift, map_map. exact IH.
  - intros k Hk. apply in_zrange in Hk. unfold elem_at.
    rewrite (proj2 (inside_spec _ _) (unflat_in_bounds Hd Hk)). now rewrite flat_unflat.
Qed.

Lemma fill_same {T} d (a vs : list T) :
  nonneg d -> zlen a = prodZ d -> fill_missing (elem_at d a) (indices d) vs = a.
Proof.
  intros Hd Hl. rewrite <- (flat_map_elem Hd Hl) at 2.
  assert (G : forall l, (forall x, In x l -> in_bounds d x) ->
    fill_missing (elem_at d a) l vs = flat_map (fun is => match elem_at d a is with Some x => [x] | None => [] end) l).
  { induction l as [|x l IH]; intros H; cbn; auto. destruct (elem_at d a x) eqn:E.
    - cbn. f_equal. apply IH. intros; apply H; now right.
    - exfalso. apply (elem_at_in (H x (or_introl eq_refl)) Hl E). }
  apply G. intros x. now apply in_indices.
Qed.

Lemma lost_same {T} d (a : list T) : lost d a d = [].
Proof.
  unfold lost. assert (G : forall l, (forall x, In x l -> in_bounds d x) ->
    flat_map (fun idx => if inside d idx then [] else match elem_at d a idx with Some x => [x] | None => [] end) l = []).
  { induction l as [|x l IH]; intros H; cbn; auto. rewrite (proj2 (inside_spec _ _) (H x (or_introl eq_refl))).
    apply IH. intros; apply H; now right. }
  apply G. intros x. now apply in_indices.
Qed.

Lemma rows_fill_same {T} nt k (a vs : list T) :
  nonneg nt -> Z.of_nat k * prodZ nt <= zlen a -> rows_fill nt nt k a vs = firstn (Z.to_nat (Z.of_nat k * prodZ nt)) a.
Proof.
  intros Hn. pose proof (prodZ_nonneg Hn) as HP. revert a vs. induction k as [|k IH]; intros a vs Hk; cbn [rows_fill]; auto.
  rewrite Nat2Z.inj_succ in Hk. rewrite fresh_same. cbn [firstn skipn]. rewrite fill_same by (auto; apply zlen_firstn; nia).
  rewrite IH by (rewrite zlen_skipn; nia).
  replace (Z.to_nat (Z.of_nat (S k) * prodZ nt)) with (Z.to_nat (prodZ nt) + Z.to_nat (Z.of_nat k * prodZ nt))%nat by nia.
  generalize (Z.to_nat (Z.of_nat k * prodZ nt)) as m. generalize (Z.to_nat (prodZ nt)) as q. clear.
  intros q m. rewrite <- (firstn_skipn q a) at 3. rewrite firstn_app, firstn_firstn, Nat.min_r by lia. f_equal.
  rewrite firstn_length. destruct (Nat.le_gt_cases q (length a)).
  - f_equal. lia.
  - rewrite !skipn_all2 by lia. now rewrite !firstn_nil.
Qed.

Lemma rows_lost_same {T} nt k (a : list T) : rows_lost nt nt k a = [].
Proof. revert a. induction k as [|k IH]; intros a; cbn [rows_lost]; auto. now rewrite lost_same, IH. Qed.

Lemma same_tail {T} o n nt (a : list T) :
  nonneg nt -> 0 <= o -> 0 <= n -> zlen a = o * prodZ nt ->
  fresh (o :: nt) (n :: nt) = Z.to_nat (n * prodZ nt - zlen a) /\
  lost (o :: nt) a (n :: nt) = skipn (Z.to_nat (n * prodZ nt)) a /\
  (forall vs, length vs = fresh (o :: nt) (n :: nt) ->
     fill_missing (elem_at (o :: nt) a) (indices (n :: nt)) vs = firstn (Z.to_nat (n * prodZ nt)) a ++ vs).
Proof.
  intros Hnt Ho Hn Ha. pose proof (prodZ_nonneg Hnt) as HP.
  assert (EF : fresh (o :: nt) (n :: nt) = Z.to_nat ((n - Z.min o n) * prodZ nt)) by (rewrite fresh_cons, fresh_same by auto; lia).
  split; [|split].
  - rewrite EF. rewrite Ha. nia.
  - rewrite lost_cons, rows_lost_same by auto. cbn [app]. destruct (Z.le_ge_cases n o).
    + now rewrite Z.min_r.
    + rewrite Z.min_l by lia. unfold zlen in Ha. rewrite !skipn_all2 by nia. reflexivity.
  - intros vs Hvs. rewrite EF in Hvs.
    rewrite <- (app_nil_l vs) at 1. rewrite fill_cons; auto.
    + rewrite rows_fill_same by (auto; nia). f_equal. destruct (Z.le_ge_cases n o).
      * f_equal. nia.
      * unfold zlen in Ha. rewrite !firstn_all2 by nia. reflexivity.
    + rewrite fresh_same. cbn. lia.
Qed.

(** *** The code in [with_mut_parts] *)

Definition resize_body {T C} (al : allocator) (new : list Z) (f : C -> call T C) : M (parts T C) unit :=
  fun p => (if prodZ new =? 0 then vec_truncate 0
            else if slice_eqb (tl new) (tl (p_dims p)) then vec_resize_with al (prodZ new) f
            else resize_copy al (prodZ new) new f) p.

Lemma empty_new {T} old new (a : list T) :
  nonneg old -> nonneg new -> prodZ new = 0 -> zlen a = prodZ old ->
  fresh old new = 0%nat /\ lost old a new = a /\ (forall vs, fill_missing (elem_at old a) (indices new) vs = []).
Proof.
  intros Ho Hn HP Ha. unfold fresh. rewrite (indices_empty Hn HP). split; auto. split; auto.
  rewrite <- (flat_map_elem Ho Ha) at 2. unfold lost. apply flat_map_ext. intros idx.
  destruct (inside new idx) eqn:E; auto. apply inside_spec in E. apply in_bounds_positive, prodZ_pos in E. lia.
Qed.

Lemma resize_body_done {T C} al new (f : C -> call T C) p vs c :
  nonneg (p_dims p) -> nonneg new -> length new = length (p_dims p) -> new <> [] -> instep p -> zlen (p_items p) <= p_cap p ->
  (forall n, al_ok al n = true) ->
  gives (repeat f (fresh (p_dims p) new)) (w_clo (p_w p)) = (vs, c, true) ->
  exists cap, prodZ new <= cap /\
    resize_body al new f p =
    Done tt (mkParts (fill_missing (elem_at (p_dims p) (p_items p)) (indices new) vs) cap (p_dims p)
               (after c vs (lost (p_dims p) (p_items p) new) (p_w p))).
Proof.
  intros Hn Hn' HL HE HI Hcap Hal HG. unfold resize_body.
  destruct (Z.eqb_spec (prodZ new) 0) as [E0|E0].
  - destruct (empty_new Hn Hn' E0 HI) as (F1 & F2 & F3). rewrite F1 in HG. cbn in HG. injection HG as <- <-.
    exists (p_cap p). split; [pose proof (@zlen_nonneg _ (p_items p)); lia|]. rewrite F2, F3. unfold vec_truncate. cbn [Z.to_nat firstn skipn].
    unfold w_drop, after. now rewrite app_nil_r.
  - destruct (slice_eqb (tl new) (tl (p_dims p))) eqn:ES.
    + apply slice_eqb_eq in ES.
      assert (HE' : p_dims p <> []) by (destruct (p_dims p), new; cbn in *; congruence).
      pose proof (dims_cons HE') as ED. pose proof (dims_cons HE) as EN. rewrite ES in EN.
      set (o := nth 0 (p_dims p) 0) in *. set (n := nth 0 new 0) in *. set (nt := tl (p_dims p)) in *.
      assert (Hnt : nonneg nt /\ 0 <= o) by (rewrite ED in Hn; inversion Hn; auto).
      assert (Hn0 : 0 <= n) by (rewrite EN in Hn'; inversion Hn'; auto). destruct Hnt as [Hnt Ho].
      assert (Ha : zlen (p_items p) = o * prodZ nt) by (unfold instep in HI; rewrite ED, prodZ_cons in HI; exact HI).
      destruct (same_tail Hnt Ho Hn0 Ha) as (S1 & S2 & S3). rewrite ED, EN. rewrite ED, EN in HG.
      rewrite EN, prodZ_cons in E0. rewrite prodZ_cons.
      destruct (gives_length HG) as [_ GL]. specialize (GL eq_refl). rewrite repeat_length in GL.
      rewrite S2, (S3 vs GL). unfold vec_resize_with.
      destruct (Z.ltb_spec (zlen (p_items p)) (n * prodZ nt)) as [Hlt|Hge].
      * unfold seqM. destruct (reserve_cases al (n * prodZ nt - zlen (p_items p)) p) as [(cap & E & H1 & H2)|[E HF]].
        2:{ rewrite Hal in HF. discriminate. }
        rewrite E. exists cap. split; [lia|]. rewrite S1 in HG.
        pose proof (@times_call_spec T C f (Z.to_nat (n * prodZ nt - zlen (p_items p))) (mkParts (p_items p) cap (p_dims p) (p_w p))) as TS.
        unfold seqM in TS at 1. unfold seqM. rewrite TS by (cbn [p_items p_cap]; lia). cbn [p_w]. rewrite HG. cbn [finish].
        unfold pushed. cbn [p_items p_cap p_dims p_w]. rewrite skipn_all2, firstn_all2 by (unfold zlen in Hlt; lia). now rewrite ED.
      * assert (vs = []) as ->. { destruct vs; auto. cbn [length] in GL. rewrite S1 in GL. lia. }
        rewrite S1 in HG. replace (Z.to_nat (n * prodZ nt - zlen (p_items p))) with 0%nat in HG by lia. cbn in HG. injection HG as <-.
        exists (p_cap p). split; [lia|]. unfold vec_truncate. rewrite app_nil_r, <- ED. unfold w_drop, after. now rewrite app_nil_r.
    + unfold resize_copy. rewrite Hal.
      assert (HE' : p_dims p <> []) by (destruct (p_dims p), new; cbn in *; congruence).
      pose proof (@copy_dim_spec T C f (p_dims p) new (p_items p) []
        (mkCopy (p_items p) [] (Z.max (prodZ new) (al_grow al 0 (prodZ new))) (p_w p)) Hn Hn' (eq_sym HL) HE' HI) as CS.
      cbn [c_old c_new c_cap] in CS. specialize (CS (eq_sym (app_nil_r _))). unfold zlen at 1 in CS. cbn [length] in CS.
      specialize (CS ltac:(lia)). unfold copy_post in CS. cbn [c_w] in CS. rewrite HG in CS. rewrite CS.
      eexists. split; [|unfold copied; cbn [c_new c_cap c_w c_old app]; unfold w_drop; rewrite app_nil_r; cbn [after w_clo w_made w_used w_dropped]; reflexivity].
      lia.
Qed.

Lemma resize_body_cases {T C} al new (f : C -> call T C) p S0 R :
  nonneg (p_dims p) -> nonneg new -> length new = length (p_dims p) -> new <> [] -> instep p -> zlen (p_items p) <= p_cap p ->
  balanced S0 (R ++ p_items p) (p_w p) ->
  match resize_body al new f p with
  | Done _ p' => p_dims p' = p_dims p /\ zlen (p_items p') = prodZ new /\ zlen (p_items p') <= p_cap p' /\ balanced S0 (R ++ p_items p') (p_w p')
  | Unwound p' => p_dims p' = p_dims p /\ zlen (p_items p') <= p_cap p' /\ balanced S0 (R ++ p_items p') (p_w p')
  | _ => False
  end.
Proof.
  intros Hn Hn' HL HE HI Hcap HB. unfold resize_body. pose proof (prodZ_nonneg Hn') as HP.
  destruct (Z.eqb_spec (prodZ new) 0) as [E0|E0].
  - unfold vec_truncate. cbn [Z.to_nat firstn skipn p_items p_dims p_cap p_w]. rewrite E0. split; auto. split; auto.
    split; [unfold zlen in *; cbn; lia|]. rewrite app_nil_r. eapply balanced_drop; [exact HB|reflexivity].
  - destruct (slice_eqb (tl new) (tl (p_dims p))) eqn:ES.
    + unfold vec_resize_with. destruct (Z.ltb_spec (zlen (p_items p)) (prodZ new)) as [Hlt|Hge].
      * unfold seqM at 1. destruct (reserve_cases al (prodZ new - zlen (p_items p)) p) as [(cap & E & H1 & H2)|[E HF]]; rewrite E; auto.
        rewrite times_call_spec by (cbn [p_items p_cap]; lia). cbn [p_w].
        destruct (gives _ _) as [[vs c] b] eqn:EG. destruct (gives_length EG) as [G1 G2]. rewrite repeat_length in *.
        destruct b; cbn [finish]; unfold pushed; cbn [p_items p_dims p_cap p_w].
        -- specialize (G2 eq_refl). split; auto. rewrite zlen_app. split; [unfold zlen in *; lia|]. split; [unfold zlen in *; lia|].
           rewrite app_assoc. now apply balanced_after.
        -- split; auto. rewrite zlen_app. split; [unfold zlen in *; lia|]. rewrite app_assoc. now apply balanced_after.
      * unfold vec_truncate. cbn [p_items p_dims p_cap p_w]. split; auto. rewrite zlen_firstn by lia. split; auto. split; [lia|].
        eapply balanced_drop; [exact HB|]. now rewrite <- app_assoc, firstn_skipn.
    + unfold resize_copy. destruct (al_ok al (prodZ new)); [|auto].
      assert (HE' : p_dims p <> []) by (destruct (p_dims p), new; cbn in *; congruence).
      set (s0 := mkCopy (p_items p) [] (Z.max (prodZ new) (al_grow al 0 (prodZ new))) (p_w p)).
      pose proof (@copy_dim_spec T C f (p_dims p) new (p_items p) [] s0 Hn Hn' (eq_sym HL) HE' HI) as CS.
      pose proof (@copy_dim_keeps T C S0 R f (p_dims p) new s0) as CK.
      cbn [s0 c_old c_new c_cap] in CS. specialize (CS (eq_sym (app_nil_r _))). unfold zlen at 1 in CS. cbn [length] in CS.
      specialize (CS ltac:(lia)). unfold copy_post in CS. cbn [c_w] in CS. unfold cbal in CK. cbn [s0 c_old c_new c_cap c_w] in CK.
      rewrite app_nil_r in CK. specialize (CK HB). fold s0 in CS.
      destruct (gives _ _) as [[vs c] b] eqn:EG. destruct (gives_length EG) as [G1 G2]. rewrite repeat_length in *.
      destruct b.
      * rewrite CS in CK |- *. unfold copied in *. cbn [c_new c_cap c_w c_old s0 app] in *. cbn [p_dims p_items p_cap p_w].
        assert (EL : zlen (fill_missing (elem_at (p_dims p) (p_items p)) (indices new) vs) = prodZ new).
        { unfold zlen. rewrite fill_length; [rewrite indices_length by auto; lia|].
          rewrite <- fresh_missing by auto. auto. }
        split; auto. split; auto. split; [lia|]. eapply balanced_drop; [exact CK|]. now rewrite app_nil_r.
      * destruct CS as (rest' & xs' & ds' & CS). rewrite CS in CK |- *. cbn [p_dims p_items p_cap p_w]. split; auto.
        split; [unfold zlen in *; cbn; lia|]. rewrite app_nil_r. eapply balanced_drop; [exact CK|reflexivity].
Qed.

Lemma resize_unfold {T C} al new (f : C -> call T C) t w :
  length new = length (tn_dims t) -> new <> [] -> fits new ->
  tn_resize_with al new f (t, w) = with_mut_parts (fun ty => resize_body al new f ;;; p_store ty new) (t, w).
Proof.
  intros HL HE HF. unfold tn_resize_with. unfold seqM at 1. cbn [fst]. rewrite HL, Nat.eqb_refl. cbn [check].
  destruct new as [|n nt]; [congruence|]. rewrite checked_len_fits by auto. reflexivity.
Qed.

Lemma resize_done {T C} al new (f : C -> call T C) t w vs c :
  tensor_ok t -> nonneg new -> typed (tn_ty t) new -> length new = length (tn_dims t) -> new <> [] -> fits new ->
  (forall n, al_ok al n = true) ->
  gives (repeat f (fresh (tn_dims t) new)) (w_clo w) = (vs, c, true) ->
  exists cap, prodZ new <= cap /\
    tn_resize_with al new f (t, w) =
    Done tt (mkTensor (tn_ty t) new (fill_missing (elem_at (tn_dims t) (tn_mem t)) (indices new) vs) cap,
             after c vs (lost (tn_dims t) (tn_mem t) new) w).
Proof.
  intros Ht Hn HT HL HE HF Hal HG. rewrite resize_unfold by auto. destruct (start_pok w Ht) as [(K1 & K2 & K3) I].
  destruct (@resize_body_done T C al new f (mkParts (tn_mem t) (tn_cap t) (tn_dims t) w) vs c K1 Hn HL HE I K3 Hal HG) as (cap & HC & E).
  exists cap. split; auto. cbn [p_items p_cap p_dims p_w] in *. eapply wmp_done_eq; [exact Ht| | |].
  - unfold seqM. rewrite E. unfold p_store, lift, seqM. rewrite sh_store_typed by auto. reflexivity.
  - unfold instep. cbn [p_items p_dims]. unfold zlen. destruct (gives_length HG) as [_ GL]. rewrite repeat_length in GL.
    rewrite fill_length; [rewrite indices_length by auto; pose proof (prodZ_nonneg Hn); lia|].
    rewrite <- fresh_missing by apply (to_len Ht). auto.
  - reflexivity.
Qed.

Lemma resize_panics_early {T C} al new (f : C -> call T C) t w :
  length new <> length (tn_dims t) \/ ~ fits new -> tn_resize_with al new f (t, w) = Unwound (t, w).
Proof.
  intros H. unfold tn_resize_with. unfold seqM, check. cbn [fst].
  destruct (Nat.eqb_spec (length new) (length (tn_dims t))) as [E|E]; auto. destruct H as [H|H]; [congruence|].
  destruct new as [|n nt].
  - exfalso. apply H. intros k. rewrite firstn_nil. vm_compute. discriminate.
  - destruct (checked_len_cases (n :: nt)) as [F| ->]; [contradiction|reflexivity].
Qed.

Lemma resize_rank0 {T C} al (f : C -> call T C) t w :
  tn_dims t = [] -> tn_resize_with al [] f (t, w) = Done tt (t, w).
Proof. intros E. unfold tn_resize_with, seqM, check. cbn [fst]. now rewrite E. Qed.

Lemma resize_post {T C} al new (f : C -> call T C) t w S0 R :
  tensor_ok t -> nonneg new -> balanced S0 (R ++ tn_mem t) w ->
  tpost (tn_ty t) S0 R (tn_resize_with al new f (t, w)).
Proof.
  intros Ht Hn HB.
  destruct (Nat.eq_dec (length new) (length (tn_dims t))) as [HL|HL]; [|rewrite resize_panics_early by auto; cbn [tpost]; auto].
  destruct new as [|n nt].
  { rewrite resize_rank0 by (destruct (tn_dims t); [auto|discriminate]). cbn [tpost]. auto. }
  destruct (checked_len_cases (n :: nt)) as [HF|HF].
  2:{ rewrite resize_panics_early; [cbn [tpost]; auto|right]. intros H. rewrite checked_len_fits in HF by auto. discriminate. }
  assert (HE : n :: nt <> []) by discriminate.
  rewrite resize_unfold by auto. apply wmp_post; auto. destruct (start_pok w Ht) as [(K1 & K2 & K3) I].
  pose proof (@resize_body_cases T C al (n :: nt) f (mkParts (tn_mem t) (tn_cap t) (tn_dims t) w) S0 R K1 Hn HL HE I K3 HB) as H.
  unfold seqM. destruct (resize_body _ _ _ _) as [u p|p| |]; cbn [p_dims] in H; try contradiction.
  - destruct H as (H1 & H2 & H3 & H4). unfold p_store, lift, seqM.
    rewrite sh_store_spec by (eapply typed_length; [exact K2|cbn [p_dims]; auto]).
    destruct (accepts (tn_ty t) (n :: nt)) eqn:A; cbn [ppost p_items p_dims p_cap p_w].
    + apply accepts_typed in A. split; [split; [|split]|split]; cbn [p_items p_dims p_cap]; auto.
    + split; auto. split; [|split]; auto; rewrite H1; auto.
  - destruct H as (H1 & H3 & H4). cbn [ppost]. split; auto. split; [|split]; auto; rewrite H1; auto.
Qed.
