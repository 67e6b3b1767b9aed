(** append, clone, conversions, creation, zip_with and arrays. *)
From Verif Require Import Base Spec SpecFacts Shape Mapping Index View Wf MappingFacts MapOps ReshapeFacts.
From Verif Require Import IndexFacts ViewFacts ViewMore Expr ExprSpec ExprFacts IterFacts SourceFacts ExprTree ExprMore.
From Verif Require Import Tensor TensorSpec TraceFacts TensorFacts ResizeFacts TensorOps DrainFacts.
Unset Strict Implicit.

(** ** drain with a range *)

Lemma drain_ok_eq {T} (t : tensor T) lo hi :
  tensor_ok t -> bound_arg lo -> bound_arg hi -> nth 0 (tn_dims t) 0 <= usize_max ->
  tn_drain t lo hi =
  if outer_ok t && (range_lo lo <=? range_hi (nth 0 (tn_dims t) 0) hi) && (range_hi (nth 0 (tn_dims t) 0) hi <=? nth 0 (tn_dims t) 0)
  then Ok (drained t (range_lo lo) (range_hi (nth 0 (tn_dims t) 0) hi)) else Panic.
Proof.
  intros Ht Hl Hh Hd. unfold tn_drain. destruct (outer_ok t) eqn:HO.
  - unfold outer_ok in HO. apply andb_prop in HO as [H1 H2]. rewrite H1, H2. cbn [assert bind]. rewrite ix_range_spec by auto.
    cbn [andb]. destruct (Z.leb_spec (range_lo lo) (range_hi (nth 0 (tn_dims t) 0) hi)); cbn [andb bind]; auto.
    destruct (Z.leb_spec (range_hi (nth 0 (tn_dims t) 0) hi) (nth 0 (tn_dims t) 0)); cbn [bind]; auto.
    apply drain_new_eq; auto.
    + unfold outer_ok. now rewrite H1, H2.
    + split; auto. destruct lo; unfold bound_arg, usize, range_lo in *; lia.
  - unfold outer_ok in HO. destruct (0 <? length (tn_dims t))%nat; cbn [andb assert bind] in *; auto. rewrite HO. reflexivity.
Qed.

Lemma drain_all {T} (t : tensor T) : tensor_ok t -> outer_ok t = true ->
  let n := nth 0 (tn_dims t) 0 in
  0 <= n /\ rows t 0 n = tn_mem t /\
  drained t 0 n = mkDrain (tn_ty t) (upd (tn_dims t) 0 0) (tn_mem t) (tn_cap t) 0 (tn_dims t) 0 0 0 /\
  remaining t 0 n = mkTensor (tn_ty t) (upd (tn_dims t) 0 0) [] (tn_cap t).
Proof.
  intros Ht HO n. destruct (outer_ok_inv HO) as [HD HH]. pose proof (to_nonneg Ht) as HN. pose proof (to_len Ht) as HL.
  rewrite (dims_cons HD) in HN, HL. inversion HN as [|? ? Hn Hnt]; subst. rewrite prodZ_cons in HL. fold n in Hn, HL.
  pose proof (prodZ_nonneg Hnt) as HP. split; auto.
  assert (ER : rows t 0 n = tn_mem t).
  { unfold rows, cells. rewrite Z.sub_0_r, Z.mul_0_l. cbn [Z.to_nat skipn]. apply firstn_all2. nia. }
  split; auto. split.
  - unfold drained. fold n. rewrite !Z.sub_0_r, Z.mul_0_l, Z.sub_diag, Z.mul_0_l. f_equal. apply upd_same. destruct (tn_dims t); [congruence|cbn; lia].
  - unfold remaining. fold n. rewrite Z.sub_0_r, Z.sub_diag. f_equal.
    unfold rows, cells. rewrite !Z.sub_diag, !Z.mul_0_l. reflexivity.
Qed.

(** ** append *)

(** An allocator that never refuses. *)
Definition roomy (al : allocator) : allocator := mkAlloc (fun _ => true) (al_grow al).

Lemma reserve_roomy {T C} al n (p : parts T C) :
  vec_reserve al n p = vec_reserve (roomy al) n p \/ vec_reserve al n p = Unwound p.
Proof.
  unfold vec_reserve, roomy. cbn [al_ok al_grow]. destruct (_ <=? _); auto. destruct (al_ok al _); auto.
Qed.

Lemma expand_roomy {T Y C} al (e : expression Y) (cl : Y -> C -> call T C) t w :
  tensor_ok t ->
  tn_expand al e cl (t, w) = tn_expand (roomy al) e cl (t, w) \/ tn_expand al e cl (t, w) = Unwound (t, w).
Proof.
  intros Ht. unfold tn_expand, seqM. rewrite !check_outer_spec. destruct (outer_ok t); auto.
  destruct (0 <? _); auto.
  unfold with_mut_parts. rewrite (to_vec_ok Ht).
  destruct (reserve_roomy al (sh_len (e_dims e)) (mkParts (tn_mem t) (tn_cap t) (tn_dims t) w)) as [E|E]; [left|right].
  - rewrite E. reflexivity.
  - rewrite E. cbn [p_items p_dims p_cap p_w]. rewrite sh_len_prod. unfold zlen. rewrite (to_len Ht), Z.eqb_refl.
    now destruct t.
Qed.

Lemma gives_count {T} (l : list T) n :
  gives (map (fun x m => Gives x (m + 1)) l) n = (l, n + zlen l, true).
Proof.
  revert n. induction l as [|x l IH]; intros n; cbn.
  - unfold zlen. cbn. now rewrite Z.add_0_r.
  - rewrite IH. unfold zlen. cbn [length]. do 2 f_equal. lia.
Qed.

(** What is left of the source of [append]. *)
Definition emptied {T} (t : tensor T) : tensor T := mkTensor (tn_ty t) (upd (tn_dims t) 0 0) [] (tn_cap t).

Lemma emptied_ok {T} (t : tensor T) : tensor_ok t -> outer_ok t = true -> tensor_ok (emptied t).
Proof.
  intros Ht HO. destruct (drain_all Ht HO) as (Hn & _ & _ & E). unfold emptied. rewrite <- E. apply remaining_ok; auto; lia.
Qed.

(** Nothing can be drained from or added to the wrong kind of tensor. *)
Lemma append_other {T C} al (t1 t2 : tensor T) (w : world T C) :
  tensor_ok t2 -> outer_ok t2 = false -> tn_append al (t1, t2, w) = Unwound (t1, t2, w).
Proof.
  intros H2 HO. unfold tn_append, tn_drain.
  unfold outer_ok in HO. destruct (0 <? length (tn_dims t2))%nat; cbn [andb assert bind] in *; auto. rewrite HO. reflexivity.
Qed.

Lemma append_drain {T} (t2 : tensor T) : tensor_ok t2 -> outer_ok t2 = true ->
  tn_drain t2 Unbounded Unbounded = Ok (drained t2 0 (nth 0 (tn_dims t2) 0)).
Proof.
  intros H2 HO. destruct (drain_all H2 HO) as (Hn & _). unfold tn_drain. unfold outer_ok in HO. apply andb_prop in HO as [E1 E2].
  rewrite E1, E2. cbn [assert bind]. unfold ix_range. cbn [bind]. destruct (Z.leb_spec 0 (nth 0 (tn_dims t2) 0)); [|lia]. rewrite Z.leb_refl. cbn [assert bind].
  apply drain_new_eq; auto; try lia. unfold outer_ok. now rewrite E1, E2.
Qed.

Section Append.
  Variables (T C : Type) (al : allocator) (t1 t2 : tensor T) (w : world T C).
  Hypothesis H1 : tensor_ok t1.
  Hypothesis H2 : tensor_ok t2.
  Hypothesis HO2 : outer_ok t2 = true.

  Let d := drained t2 0 (nth 0 (tn_dims t2) 0).
  Let w0 : world T Z := mkWorld 0 [] [] (w_dropped w).

  (** The drain is dropped after [k] elements were moved. *)
  Local Lemma append_finish k ds : (k <= length (tn_mem t2))%nat ->
    drain_drop (mkDrain (d_ty d) (d_dims d) (d_mem d) (d_cap d) (d_ptr d) (d_view d) (d_new_size d) (d_tail d) (Z.of_nat k))
      (mkWorld (w_clo w) (w_made w) (w_used w) ds) =
    Done tt (emptied t2, mkWorld (w_clo w) (w_made w) (w_used w) (ds ++ skipn k (tn_mem t2))).
  Proof.
    intros Hk. destruct (drain_all H2 HO2) as (Hn & ER & _ & EM).
    fold (drain_at k d). unfold d. rewrite drain_drop_eq; auto; try lia; [|rewrite ER; exact Hk].
    rewrite EM, ER. reflexivity.
  Qed.

  Lemma append_none : outer_ok t1 = true -> prodZ (tn_dims t2) = 0 ->
    tn_append al (t1, t2, w) = Done tt (t1, emptied t2, w).
  Proof.
    intros HO1 E0. destruct (drain_all H2 HO2) as (Hn & ER & ED & EM).
    assert (EV : e_dims (e_drain d) = tn_dims t2) by (unfold d; rewrite ED; reflexivity).
    pose proof (to_len H2) as HL2.
    unfold tn_append. rewrite append_drain by auto. fold d. fold w0.
    rewrite (proj2 (expand_other al (e_drain d) (fun x n => Gives x (n + 1)) t1 w0) HO1) by (rewrite EV; lia).
    unfold w0. cbn [w_clo w_dropped]. rewrite (@append_finish 0) by lia.
    assert (tn_mem t2 = []) as -> by (destruct (tn_mem t2); auto; cbn in HL2; lia). rewrite app_nil_r. destruct w; reflexivity.
  Qed.

  Lemma append_cases :
    (* the source was moved, or was empty *)
    (outer_ok t1 = true /\
     ((prodZ (tn_dims t2) = 0 /\ tn_append al (t1, t2, w) = Done tt (t1, emptied t2, w)) \/
      (0 < prodZ (tn_dims t2) /\ growable (tn_ty t1) (tn_dims t1) (tn_dims t2) /\ exists cap, tn_cap t1 <= cap /\ zlen (tn_mem t1 ++ tn_mem t2) <= cap /\
         tn_append al (t1, t2, w) =
         Done tt (mkTensor (tn_ty t1) (grown (tn_dims t1) (tn_dims t2)) (tn_mem t1 ++ tn_mem t2) cap, emptied t2, w)))) \/
    (* it panicked; the rows of the source are dropped *)
    ((outer_ok t1 = false \/ ~ growable (tn_ty t1) (tn_dims t1) (tn_dims t2) \/ exists n, al_ok al n = false) /\
     exists cap, tn_cap t1 <= cap /\
     tn_append al (t1, t2, w) = Unwound (mkTensor (tn_ty t1) (tn_dims t1) (tn_mem t1) cap, emptied t2, w_drop (tn_mem t2) w)).
  Proof.
    destruct (drain_all H2 HO2) as (Hn & ER & ED & EM).
    assert (EV : e_dims (e_drain d) = tn_dims t2) by (unfold d; rewrite ED; reflexivity).
    pose proof (to_nonneg H2) as HN2. pose proof (prodZ_nonneg HN2) as HP2. pose proof (to_len H2) as HL2.
    assert (HT : e_trace (e_drain d) = (tn_mem t2, Ok tt)).
    { unfold d. rewrite drain_trace; auto; try lia. now rewrite ER. }
    assert (KEEP : forall ds, drain_drop (mkDrain (d_ty d) (d_dims d) (d_mem d) (d_cap d) (d_ptr d) (d_view d) (d_new_size d) (d_tail d) 0)
      (mkWorld (w_clo w) (w_made w) (w_used w) ds) =
      Done tt (emptied t2, mkWorld (w_clo w) (w_made w) (w_used w) (ds ++ tn_mem t2))).
    { intros ds. apply (@append_finish 0 ds). lia. }
    assert (CL : forall t, mkTensor (tn_ty t) (tn_dims t) (tn_mem t) (tn_cap t) = t :> tensor T) by (intros []; reflexivity).
    (* the two ways in which [expand] fails *)
    assert (FAIL : forall t1', tn_expand al (e_drain d) (fun x n => Gives x (n + 1)) (t1, w0) = Unwound (t1', w0) ->
      tn_append al (t1, t2, w) = Unwound (t1', emptied t2, w_drop (tn_mem t2) w)).
    { intros t1' E. unfold tn_append. rewrite append_drain by auto. fold d. fold w0. rewrite E. unfold w0 at 1. cbn [w_clo].
      rewrite KEEP. reflexivity. }
    assert (FAIL0 : tn_expand al (e_drain d) (fun x n => Gives x (n + 1)) (t1, w0) = Unwound (t1, w0) ->
      exists cap, tn_cap t1 <= cap /\ tn_append al (t1, t2, w) = Unwound (mkTensor (tn_ty t1) (tn_dims t1) (tn_mem t1) cap, emptied t2, w_drop (tn_mem t2) w)).
    { intros E. exists (tn_cap t1). split; [lia|]. rewrite CL. now apply FAIL. }
    destruct (outer_ok t1) eqn:HO1.
    2:{ right. split; auto. apply FAIL0. now apply expand_other. }
    destruct (Z.eq_dec (prodZ (tn_dims t2)) 0) as [E0|E0].
    { left. split; auto. left. split; auto. unfold tn_append. rewrite append_drain by auto. fold d. fold w0.
      rewrite (proj2 (expand_other al (e_drain d) (fun x n => Gives x (n + 1)) t1 w0) HO1) by (rewrite EV; lia).
      unfold w0. cbn [w_clo w_dropped]. rewrite KEEP.
      assert (tn_mem t2 = []) as -> by (destruct (tn_mem t2); auto; cbn in HL2; lia). rewrite app_nil_r. destruct w; reflexivity. }
    assert (al_fail : tn_expand al (e_drain d) (fun x n => Gives x (n + 1)) (t1, w0) = Unwound (t1, w0) \/
      tn_expand al (e_drain d) (fun x n => Gives x (n + 1)) (t1, w0) = tn_expand (roomy al) (e_drain d) (fun x n => Gives x (n + 1)) (t1, w0))
      by (destruct (expand_roomy al (e_drain d) (fun x n => Gives x (n + 1)) w0 H1); auto).
    assert (GD : growable (tn_ty t1) (tn_dims t1) (tn_dims t2) \/ ~ growable (tn_ty t1) (tn_dims t1) (tn_dims t2)).
    { unfold growable. destruct (prodZ (tn_dims t1) =? 0).
      - destruct (accepts (tn_ty t1) (tn_dims t2)) eqn:EA; [left; now apply accepts_typed|right].
        intros H. apply accepts_typed in H. congruence.
      - destruct (Nat.eq_dec (length (tn_dims t2)) (length (tn_dims t1))); [|right; tauto].
        destruct (list_eq_dec Z.eq_dec (tl (tn_dims t2)) (tl (tn_dims t1))); [left; auto|right; tauto]. }
    destruct GD as [G|G].
    - assert (HG : gives (map (fun x n => Gives x (n + 1)) (tn_mem t2)) (w_clo w0) = (tn_mem t2, zlen (tn_mem t2), true))
        by (rewrite gives_count; unfold w0; cbn [w_clo]; now rewrite Z.add_0_l).
      destruct (@expand_done T T Z (roomy al) (e_drain d) (fun x n => Gives x (n + 1)) (tn_mem t2) (tn_mem t2) (zlen (tn_mem t2)) t1 w0)
        as (cap & HC & HC' & E); auto.
      + now rewrite EV.
      + now apply e_collect_trace.
      + rewrite EV. exact HL2.
      + rewrite EV. lia.
      + now rewrite EV.
      + rewrite EV in E. destruct al_fail as [AF|AF].
        * right. split; [|now apply FAIL0]. right. right.
          destruct (al_ok al (zlen (tn_mem t1) + sh_len (e_dims (e_drain d)))) eqn:EA; [|eauto]. exfalso.
          assert (EX : tn_expand al (e_drain d) (fun x n => Gives x (n + 1)) (t1, w0) = tn_expand (roomy al) (e_drain d) (fun x n => Gives x (n + 1)) (t1, w0)).
          { unfold tn_expand, seqM. rewrite !check_outer_spec, HO1. destruct (0 <? _); auto.
            unfold with_mut_parts. rewrite (to_vec_ok H1). unfold vec_reserve. cbn [p_items roomy al_ok al_grow].
            rewrite EA. reflexivity. }
          rewrite E in EX. congruence.
        * left. split; auto. right. split; [lia|]. split; auto. exists cap. split; auto. split; auto.
          unfold tn_append. rewrite append_drain by auto. fold d. fold w0. rewrite AF, E. cbn [after w_clo w_dropped w0].
          pose proof (@append_finish (length (tn_mem t2)) ((w_dropped w ++ []))) as AP.
          unfold zlen. rewrite AP by lia. rewrite skipn_all, !app_nil_r. destruct w; reflexivity.
    - destruct (@expand_mismatch T T Z (roomy al) (e_drain d) (fun x n => Gives x (n + 1)) t1 w0) as (cap & HC & E); auto.
      + rewrite EV. lia.
      + now rewrite EV.
      + right. split; [auto|]. destruct al_fail as [AF|AF]; [now apply FAIL0|]. exists cap. split; auto. apply FAIL. now rewrite AF, E.
  Qed.
End Append.

Lemma append_post {T C} al (t1 t2 : tensor T) (w : world T C) S0 R :
  tensor_ok t1 -> tensor_ok t2 -> balanced S0 (R ++ tn_mem t1 ++ tn_mem t2) w ->
  match tn_append al (t1, t2, w) with
  | Done _ (t1', t2', w') | Unwound (t1', t2', w') =>
      tensor_ok t1' /\ tensor_ok t2' /\ tn_ty t1' = tn_ty t1 /\ tn_ty t2' = tn_ty t2 /\
      balanced S0 (R ++ tn_mem t1' ++ tn_mem t2') w'
  | _ => False
  end.
Proof.
  intros H1 H2 HB. destruct (outer_ok t2) eqn:HO2; [|rewrite append_other by auto; auto].
  assert (HE := emptied_ok H2 HO2).
  destruct (@append_cases T C al t1 t2 w H1 H2 HO2) as
    [(HO1 & [(E0 & E)|(E0 & G & cap & HC & HC' & E)])|(HF & cap & HC & E)]; rewrite E.
  - split; auto. split; auto. split; auto. split; auto. cbn [emptied tn_mem]. rewrite app_nil_r.
    pose proof (to_len H2) as HL. assert (EM : tn_mem t2 = []) by (destruct (tn_mem t2); auto; cbn in HL; lia).
    now rewrite EM, app_nil_r in HB.
  - destruct (outer_ok_inv HO1) as [HD HH].
    destruct (grown_facts (to_nonneg H1) (to_typed H1) HH HD (to_nonneg H2) E0 G) as (G1 & G2 & G3).
    split; [|split; auto; split; auto; split; auto].
    + pose proof (to_len H1). pose proof (to_len H2).
      constructor; cbn [tn_dims tn_ty tn_mem tn_cap]; auto; [apply (to_ty H1)|rewrite app_length; lia].
    + cbn [emptied tn_mem]. now rewrite app_nil_r.
  - split; [|split; auto; split; auto; split; auto].
    + destruct H1. constructor; auto. cbn [tn_mem tn_cap]. lia.
    + cbn [emptied tn_mem]. rewrite app_nil_r. eapply balanced_drop; [exact HB|]. now rewrite app_assoc.
Qed.

(** ** clone, clone_from *)

Lemma clone_items_spec {T C} (clone : T -> C -> call T C) done xs (w : world T C) :
  clone_items clone done xs w =
  let '(ys, c, b) := gives (map clone xs) (w_clo w) in
  if b then Done (done ++ ys) (after c ys [] w) else Unwound (after c ys (done ++ ys) w).
Proof.
  revert done w. induction xs as [|x xs IH]; intros d w; cbn [clone_items map gives].
  - cbn. now rewrite app_nil_r, after_nil.
  - destruct (clone x (w_clo w)) as [y c|c].
    + rewrite IH. cbn [w_make w_clo]. destruct (gives (map clone xs) c) as [[ys c'] b].
      unfold after, w_make. cbn [w_made w_used w_dropped]. destruct b; rewrite <- !app_assoc; reflexivity.
    + unfold w_drop, w_set, after. cbn. rewrite !app_nil_r. reflexivity.
Qed.

Lemma clone_done {T C} (clone : T -> C -> call T C) (t : tensor T) (w : world T C) :
  tensor_ok t ->
  tn_clone clone t w =
  let '(ys, c, b) := gives (map clone (tn_mem t)) (w_clo w) in
  if b then Done (mkTensor (tn_ty t) (tn_dims t) ys (zlen ys)) (after c ys [] w) else Unwound (after c ys ys w).
Proof.
  intros Ht. unfold tn_clone, seqM. rewrite (to_vec_ok Ht), clone_items_spec.
  destruct (gives _ _) as [[ys c] b] eqn:E. destruct (gives_length E) as [_ HL]. rewrite map_length in HL.
  destruct b; auto. cbn [app]. unfold from_parts. rewrite sh_len_prod, <- (to_len Ht). unfold zlen. rewrite HL by auto.
  now rewrite Z.eqb_refl.
Qed.

Lemma assign_loop_spec {T C} (clone : T -> C -> call T C) src i (p : parts T C) :
  (i + length src <= length (p_items p))%nat ->
  assign_loop clone i src p =
  let '(ys, c, b) := gives (map clone src) (w_clo (p_w p)) in
  finish b tt (mkParts (firstn i (p_items p) ++ ys ++ skipn (i + length ys) (p_items p)) (p_cap p) (p_dims p)
                 (after c ys (firstn (length ys) (skipn i (p_items p))) (p_w p))).
Proof.
  revert i p. induction src as [|x src IH]; intros i p Hi; cbn [assign_loop map gives].
  - cbn. rewrite after_nil, Nat.add_0_r, firstn_skipn. now destruct p.
  - unfold seqM at 1, vec_call. destruct (clone x (w_clo (p_w p))) as [y c|c].
    + unfold seqM at 1. cbn [p_items p_cap p_dims p_w length] in *.
      destruct (nth_error (p_items p) i) as [old|] eqn:E; [|apply nth_error_None in E; lia].
      rewrite IH by (cbn [p_items]; rewrite upd_length; lia). cbn [p_items p_cap p_dims p_w w_drop w_make w_clo].
      destruct (gives (map clone src) c) as [[ys c'] b]. f_equal.
      assert (SPLIT : exists l1 l2, p_items p = l1 ++ old :: l2 /\ length l1 = i) by now apply nth_error_split.
      destruct SPLIT as (l1 & l2 & EP & EL). rewrite EP in *. clear EP E. subst i.
      assert (EU : upd (l1 ++ old :: l2) (length l1) y = l1 ++ y :: l2).
      { clear. induction l1 as [|z l1 IH]; cbn; auto. now rewrite IH. }
      rewrite EU. clear EU.
      assert (F1 : forall (z : T), firstn (S (length l1)) (l1 ++ z :: l2) = l1 ++ [z]).
      { intros z. rewrite firstn_app. replace (S (length l1) - length l1)%nat with 1%nat by lia.
        rewrite firstn_all2 by lia. reflexivity. }
      assert (F2 : forall k (z : T), skipn (length l1 + S k) (l1 ++ z :: l2) = skipn k l2).
      { intros k z. rewrite skipn_app. rewrite skipn_all2 by lia. replace (length l1 + S k - length l1)%nat with (S k) by lia. reflexivity. }
      assert (F3 : forall (z : T), skipn (length l1) (l1 ++ z :: l2) = z :: l2).
      { intros z. rewrite skipn_app, skipn_all, Nat.sub_diag. reflexivity. }
      assert (F4 : forall (z : T), skipn (S (length l1)) (l1 ++ z :: l2) = l2).
      { intros z. replace (S (length l1)) with (length l1 + 1)%nat by lia. now rewrite F2. }
      rewrite F1, F3, F4. cbn [length]. rewrite F2.
      replace (S (length l1) + length ys)%nat with (length l1 + S (length ys))%nat by lia. rewrite F2.
      rewrite firstn_app, firstn_all, Nat.sub_diag. cbn [firstn]. rewrite app_nil_r.
      unfold after, w_drop, w_make. cbn [w_made w_used w_dropped]. rewrite <- !app_assoc. reflexivity.
    + cbn. unfold after, w_set. cbn. rewrite Nat.add_0_r, firstn_skipn, !app_nil_r. reflexivity.
Qed.

Lemma clone_from_done {T C} al (clone : T -> C -> call T C) src dims (t : tensor T) (w : world T C) ys c :
  tensor_ok t -> zlen src = prodZ dims -> (forall n, al_ok al n = true) ->
  gives (map clone src) (w_clo w) = (ys, c, true) ->
  exists cap, zlen ys <= cap /\
    tn_clone_from al clone src dims (t, w) =
    Done tt (mkTensor (tn_ty t) dims ys cap,
             after c ys (skipn (length src) (tn_mem t) ++ firstn (length src) (tn_mem t)) w).
Proof.
  intros Ht Hs Hal HG. set (m := tn_mem t). set (n := Nat.min (length src) (length m)).
  rewrite <- (firstn_skipn n src) in HG. rewrite map_app, gives_app in HG.
  destruct (gives (map clone (firstn n src)) (w_clo w)) as [[y1 c1] b1] eqn:E1. destruct b1; [|discriminate].
  destruct (gives (map clone (skipn n src)) c1) as [[y2 c2] b2] eqn:E2. injection HG as <- <- ->.
  destruct (gives_length E1) as [_ L1]. destruct (gives_length E2) as [_ L2].
  specialize (L1 eq_refl). specialize (L2 eq_refl). rewrite map_length in *.
  assert (EN : length (firstn (Z.to_nat (zlen src)) m) = n) by (rewrite firstn_length; unfold n, zlen; lia).
  assert (EF : Z.to_nat (zlen src) = length src) by (unfold zlen; lia).
  rewrite EF in EN. rewrite firstn_length in L1. rewrite skipn_length in L2.
  set (p1 := mkParts y1 (tn_cap t) (tn_dims t) (after c1 y1 (skipn (length src) m ++ firstn (length src) m) w)).
  destruct (reserve_cases al (zlen (skipn n src)) p1) as [(cap & ER & H1 & H2)|[ER HF]].
  2:{ rewrite Hal in HF. discriminate. }
  exists cap. split. { cbn [p1 p_items] in H2. rewrite zlen_app. unfold zlen in *. rewrite skipn_length in H2. lia. }
  assert (LY : zlen (y1 ++ y2) = prodZ dims) by (rewrite zlen_app; unfold zlen in *; lia).
  unfold tn_clone_from. eapply wmp_done_eq; [exact Ht| | |].
  - unfold vec_clone_from. unfold seqM at 1 2. unfold vec_truncate. cbn [p_items p_cap p_dims p_w]. fold m. rewrite EF, EN.
    unfold seqM at 1. rewrite assign_loop_spec by (cbn [p_items]; rewrite EN, firstn_length; lia).
    cbn [p_items p_cap p_dims p_w w_drop w_clo]. rewrite E1. cbn [finish firstn skipn app Nat.add].
    rewrite (firstn_all2 (n := length y1)) by (rewrite firstn_length; lia).
    rewrite (skipn_all2 (n := length y1)) by (rewrite firstn_length; lia). rewrite app_nil_r.
    assert (EW : after c1 y1 (firstn (length src) m) (w_drop (skipn (length src) m) w) =
                 after c1 y1 (skipn (length src) m ++ firstn (length src) m) w).
    { unfold after, w_drop. cbn [w_made w_used w_dropped]. now rewrite <- app_assoc. }
    rewrite EW. fold p1. unfold seqM at 1. rewrite ER.
    rewrite clone_loop_spec by (cbn [p1 p_items p_cap] in *; lia). cbn [p_w p1 after w_clo]. rewrite E2. cbn [finish].
    unfold p_set_dims, pushed. cbn [p_items p_cap p_dims p_w]. reflexivity.
  - unfold instep. cbn [p_items p_dims p1]. exact LY.
  - cbn [p_items p_cap p_dims p_w p1]. rewrite after_after, app_nil_r. reflexivity.
Qed.

Lemma clone_from_post {T C} al (clone : T -> C -> call T C) src dims (t : tensor T) (w : world T C) S0 R :
  tensor_ok t -> nonneg dims -> typed (tn_ty t) dims -> zlen src = prodZ dims -> balanced S0 (R ++ tn_mem t) w ->
  tpost (tn_ty t) S0 R (tn_clone_from al clone src dims (t, w)).
Proof.
  intros Ht Hn HT Hs HB. apply wmp_post; auto. destruct (start_pok w Ht) as [(K1 & K2 & K3) I].
  set (m := tn_mem t) in *. set (n := Nat.min (length src) (length m)).
  assert (EF : Z.to_nat (zlen src) = length src) by (unfold zlen; lia).
  assert (EN : length (firstn (length src) m) = n) by (rewrite firstn_length; unfold n; lia).
  unfold vec_clone_from. unfold seqM at 1 2. unfold vec_truncate. cbn [p_items p_cap p_dims p_w]. rewrite EF, EN.
  unfold seqM at 1. rewrite assign_loop_spec by (cbn [p_items]; rewrite EN, firstn_length; lia).
  cbn [p_items p_cap p_dims p_w w_drop w_clo]. change (w_clo (mkWorld (w_clo w) (w_made w) (w_used w) (w_dropped w ++ skipn (length src) m))) with (w_clo w).
  destruct (gives (map clone (firstn n src)) (w_clo w)) as [[y1 c1] b1] eqn:E1. cbn [firstn skipn app Nat.add].
  destruct (gives_length E1) as [G1 L1]. rewrite map_length, firstn_length in G1, L1.
  assert (LI : zlen (y1 ++ skipn (length y1) (firstn (length src) m)) = zlen (firstn (length src) m)).
  { rewrite zlen_app. unfold zlen. rewrite skipn_length, EN. lia. }
  assert (LM : zlen (firstn (length src) m) <= zlen m) by (unfold zlen; rewrite firstn_length; lia).
  assert (HB1 : balanced S0 (R ++ y1 ++ skipn (length y1) (firstn (length src) m))
    (after c1 y1 (firstn (length y1) (firstn (length src) m)) (w_drop (skipn (length src) m) w))).
  { assert (HB0 : balanced S0 (R ++ firstn (length src) m) (w_drop (skipn (length src) m) w)).
    { eapply balanced_drop; [exact HB|]. now rewrite <- app_assoc, firstn_skipn. }
    pose proof (@balanced_after T C S0 _ y1 c1 _ HB0) as HB'.
    pose proof (@balanced_drop T C S0 _ (R ++ y1 ++ skipn (length y1) (firstn (length src) m)) (firstn (length y1) (firstn (length src) m)) _ HB') as HB2.
    unfold w_drop, after in *. cbn [w_clo w_made w_used w_dropped] in *. rewrite app_nil_r in HB2. apply HB2.
    rewrite <- (firstn_skipn (length y1) (firstn (length src) m)) at 1. perm. }
  destruct b1; cbn [finish].
  - unfold seqM at 1.
    set (p1 := mkParts (y1 ++ skipn (length y1) (firstn (length src) m)) (tn_cap t) (tn_dims t)
      (after c1 y1 (firstn (length y1) (firstn (length src) m)) (w_drop (skipn (length src) m) w))) in *.
    change (mkParts _ _ _ _) with p1.
    destruct (reserve_cases al (zlen (skipn n src)) p1) as [(cap & ER & H1 & H2)|[ER HF]]; rewrite ER.
    + rewrite clone_loop_spec by (cbn [p1 p_items p_cap] in *; lia).
      cbn [p_w]. destruct (gives (map clone (skipn n src)) (w_clo (p_w p1))) as [[y2 c2] b2] eqn:E2.
      destruct (gives_length E2) as [G2 L2]. rewrite map_length, skipn_length in *.
      assert (PB : balanced S0 (R ++ p_items (pushed c2 y2 (mkParts (p_items p1) cap (p_dims p1) (p_w p1))))
                 (p_w (pushed c2 y2 (mkParts (p_items p1) cap (p_dims p1) (p_w p1))))).
      { unfold pushed. cbn [p_items p_w]. rewrite app_assoc. apply balanced_after. exact HB1. }
      assert (PL : zlen (p_items (pushed c2 y2 (mkParts (p_items p1) cap (p_dims p1) (p_w p1)))) <= cap).
      { unfold pushed. cbn [p_items]. cbn [p1 p_items] in *. rewrite zlen_app. unfold zlen in *. rewrite skipn_length in H2. lia. }
      destruct b2; cbn [finish].
      * unfold p_set_dims. cbn [ppost p_items p_w]. split; [|split; [|exact PB]].
        -- split; auto.
        -- unfold instep. cbn [p_items p_dims]. unfold pushed. cbn [p_items p1]. rewrite zlen_app.
           specialize (L2 eq_refl). specialize (L1 eq_refl). rewrite LI. unfold zlen in *. rewrite EN. lia.
      * split; [|exact PB]. split; auto.
    + split; [|exact HB1]. split; auto. split; auto. cbn [p1 p_items p_cap]. rewrite LI. cbn [p_items p_cap] in K3. lia.
  - split; [|exact HB1]. split; auto. split; auto. cbn [p_items p_cap] in *. rewrite LI. lia.
Qed.

(** ** Operations that create or consume a tensor *)

(** Acceptable results: a consistent tensor, or a panic; everything is accounted for. *)
Definition opost {T C} (S0 R : list T) (r : result (world T C) (tensor T)) : Prop :=
  match r with
  | Done t w => tensor_ok t /\ balanced S0 (R ++ tn_mem t) w
  | Unwound w => balanced S0 R w
  | Aborted | Fault => False
  end.

Lemma clone_post {T C} (clone : T -> C -> call T C) (t : tensor T) (w : world T C) S0 R :
  tensor_ok t -> balanced S0 R w -> opost S0 R (tn_clone clone t w).
Proof.
  intros Ht HB. rewrite clone_done by auto. destruct (gives _ _) as [[ys c] b] eqn:E.
  destruct (gives_length E) as [_ HL]. rewrite map_length in HL. destruct b; cbn [opost].
  - specialize (HL eq_refl). split; [|now apply balanced_after].
    constructor; cbn [tn_dims tn_ty tn_mem tn_cap]; try apply Ht; [|unfold zlen; lia].
    rewrite HL. apply (to_len Ht).
  - change (after c ys ys w) with (mkWorld c (w_made w ++ ys) (w_used w) (w_dropped w ++ ys)).
    pose proof (@balanced_after T C S0 R ys c w HB) as H. eapply (@balanced_drop T C S0 _ R ys) in H; [|reflexivity].
    unfold w_drop, after in H. cbn [w_clo w_made w_used w_dropped] in H. now rewrite app_nil_r in H.
Qed.

Lemma into_vec_done {T S} (t : tensor T) (s : S) : tensor_ok t -> tn_into_vec t s = Done (tn_mem t, tn_cap t) s.
Proof. intros Ht. unfold tn_into_vec. now rewrite (to_vec_ok Ht). Qed.

Lemma from_vec_done {T S} (items : list T) cap (s : S) :
  tn_from_vec items cap s = Done (mkTensor flat_ty [zlen items] items cap) s.
Proof. unfold tn_from_vec, from_parts. rewrite sh_len_prod. cbn [prodZ fold_right]. rewrite Z.mul_1_r, Z.eqb_refl. reflexivity. Qed.

Lemma from_vec_ok {T} (items : list T) cap : zlen items <= cap -> tensor_ok (mkTensor flat_ty [zlen items] items cap).
Proof.
  intros H. constructor; cbn [tn_dims tn_ty tn_mem tn_cap]; auto.
  - repeat constructor. apply zlen_nonneg.
  - repeat constructor.
  - repeat constructor.
  - cbn. unfold zlen. lia.
Qed.

Lemma into_flat_done {T S} (t : tensor T) (s : S) : tensor_ok t ->
  tn_into_flat t s = Done (mkTensor flat_ty [zlen (tn_mem t)] (tn_mem t) (tn_cap t)) s.
Proof. intros Ht. unfold tn_into_flat, seqM. rewrite into_vec_done by auto. apply from_vec_done. Qed.

Lemma into_mapping_eq {T C} ty (t : tensor T) (w : world T C) :
  tensor_ok t ->
  tn_into_mapping ty t w =
  if accepts ty (tn_dims t) then Done (mkTensor ty (tn_dims t) (tn_mem t) (tn_cap t)) w else Unwound (w_drop (tn_mem t) w).
Proof.
  intros Ht. unfold tn_into_mapping, seqM. rewrite into_vec_done by auto. unfold owning, lift. rewrite m_remap_dense.
  cbn [is_contiguous m_dims andb fst snd]. destruct (accepts ty (tn_dims t)); auto. cbn [m_dims].
  unfold from_parts. rewrite sh_len_prod. unfold zlen. rewrite (to_len Ht), Z.eqb_refl. reflexivity.
Qed.

Lemma into_mapping_post {T C} ty (t : tensor T) (w : world T C) S0 R :
  tensor_ok t -> ty_wf ty -> balanced S0 (R ++ tn_mem t) w -> opost S0 R (tn_into_mapping ty t w).
Proof.
  intros Ht Hty HB. rewrite into_mapping_eq by auto. destruct (accepts ty (tn_dims t)) eqn:E; cbn [opost].
  - split; auto. apply accepts_typed in E. destruct Ht. constructor; auto.
  - eapply balanced_drop; [exact HB|reflexivity].
Qed.

Lemma into_shape_eq {T C} ty dims (t : tensor T) (w : world T C) :
  tensor_ok t -> nonneg dims -> match sh_rank ty with Some k => length dims = k | None => True end ->
  tn_into_shape ty dims t w =
  match sh_reshape (tn_dims t) ty dims with
  | Ok nd => Done (mkTensor ty nd (tn_mem t) (tn_cap t)) w
  | Panic => Unwound (w_drop (tn_mem t) w)
  | _ => Fault
  end.
Proof.
  intros Ht Hn HR. unfold tn_into_shape, seqM. rewrite into_vec_done by auto. unfold owning, lift.
  cbn [m_reshape m_dims fst snd].
  destruct (sh_reshape (tn_dims t) ty dims) as [nd| | |] eqn:E; cbn [bind]; auto. cbn [m_dims].
  edestruct sh_reshape_sound as (_ & _ & _ & P); [exact (to_nonneg Ht)|exact Hn|exact HR|exact E|].
  unfold from_parts. rewrite sh_len_prod, P. unfold zlen. rewrite (to_len Ht), Z.eqb_refl. reflexivity.
Qed.

Lemma into_shape_post {T C} ty dims (t : tensor T) (w : world T C) S0 R :
  tensor_ok t -> nonneg dims -> match sh_rank ty with Some k => length dims = k | None => True end -> ty_wf ty ->
  balanced S0 (R ++ tn_mem t) w -> opost S0 R (tn_into_shape ty dims t w).
Proof.
  intros Ht Hn HR Hty HB. rewrite into_shape_eq by auto. pose proof (@fine_sh_reshape (tn_dims t) ty dims) as HF.
  destruct (sh_reshape (tn_dims t) ty dims) as [nd| | |] eqn:E; cbn [opost]; try contradiction.
  - split; auto. edestruct sh_reshape_sound as (_ & N & TY & P); [exact (to_nonneg Ht)|exact Hn|exact HR|exact E|].
    destruct Ht. constructor; auto. cbn [tn_mem tn_dims]. lia.
  - eapply balanced_drop; [exact HB|reflexivity].
Qed.

Lemma into_scalar_done {T C} (t : tensor T) (w : world T C) : tensor_ok t ->
  (prodZ (tn_dims t) = 1 -> exists x, tn_mem t = [x] /\ tn_into_scalar t w = Done x w) /\
  (prodZ (tn_dims t) <> 1 -> tn_into_scalar t w = Unwound (w_drop (tn_mem t) w)).
Proof.
  intros Ht. unfold tn_into_scalar, tn_len. rewrite (to_vec_ok Ht), sh_len_prod. pose proof (to_len Ht) as HL. split; intros H.
  - rewrite H in *. cbn [Z.eqb Pos.eqb]. destruct (tn_mem t) as [|x [|y l]]; cbn in HL; try lia. exists x. split; reflexivity.
  - destruct (Z.eqb_spec (prodZ (tn_dims t)) 1); [congruence|reflexivity].
Qed.

Lemma gives_moved {T C} (l : list T) (c : C) : gives (map moved l) c = (l, c, true).
Proof. induction l as [|x l IH]; cbn; auto. cbn in IH. now rewrite IH. Qed.

Lemma from_expr_done {T C} al (e : expression T) ys (w : world T C) :
  (forall n, al_ok al n = true) -> nonneg (e_dims e) -> e_collect e = Ok ys -> zlen ys = prodZ (e_dims e) ->
  exists cap, zlen ys <= cap /\
    tn_from_expr al e w = Done (mkTensor (e_ty e) (e_dims e) ys cap) (after (w_clo w) ys [] w).
Proof.
  intros Hal Hn HC HL. apply e_collect_trace in HC.
  assert (HON : honest e).
  { split; auto. rewrite HC. cbn [fst snd]. unfold zlen in HL. split; [lia|]. left. split; auto. }
  unfold tn_from_expr. rewrite sh_len_prod, Hal, orb_true_r.
  set (cap := if prodZ (e_dims e) =? 0 then 0 else Z.max (prodZ (e_dims e)) (al_grow al 0 (prodZ (e_dims e)))).
  assert (HC' : prodZ (e_dims e) <= cap) by (unfold cap; destruct (Z.eqb_spec (prodZ (e_dims e)) 0); lia).
  exists cap. split; [lia|]. rewrite clone_into_vec_spec by (auto; cbn [p_items p_cap]; unfold zlen; cbn; lia).
  rewrite HC. cbn [fst snd p_w]. rewrite gives_moved. unfold pushed. cbn [p_items p_cap p_dims p_w app].
  unfold from_parts. rewrite sh_len_prod, HL, Z.eqb_refl. reflexivity.
Qed.

Lemma from_expr_post {T C} al (e : expression T) (w : world T C) S0 R :
  honest e -> typed (e_ty e) (e_dims e) -> ty_wf (e_ty e) -> balanced S0 R w -> opost S0 R (tn_from_expr al e w).
Proof.
  intros HON HT Hty HB. unfold tn_from_expr. rewrite sh_len_prod. destruct (_ || _); [|exact HB].
  set (cap := if prodZ (e_dims e) =? 0 then 0 else Z.max (prodZ (e_dims e)) (al_grow al 0 (prodZ (e_dims e)))).
  assert (HC' : prodZ (e_dims e) <= cap) by (unfold cap; destruct (Z.eqb_spec (prodZ (e_dims e)) 0); lia).
  rewrite clone_into_vec_spec by (auto; cbn [p_items p_cap]; unfold zlen; cbn; lia). cbn [p_w]. rewrite gives_moved.
  destruct HON as (Hn & Hlen & Hend).
  pose proof (@balanced_after T C S0 R (fst (e_trace e)) (w_clo w) w HB) as HB'.
  destruct Hend as [[-> HEQ]| ->]; unfold pushed; cbn [p_items p_cap p_dims p_w app opost].
  - unfold from_parts. rewrite sh_len_prod. unfold zlen. rewrite HEQ, Z.eqb_refl. cbn [opost]. split; [|exact HB'].
    constructor; cbn [tn_dims tn_ty tn_mem tn_cap]; auto. lia.
  - eapply balanced_drop; [exact HB'|reflexivity].
Qed.

Lemma with_capacity_eq {T C} al ty cap (w : world T C) :
  (forall n, al_ok al n = true) -> nonneg (sh_default ty) ->
  (prodZ (sh_default ty) = 0 /\ fits (sh_default ty) /\ exists cap', (0 <= cap -> cap <= cap') /\
     tn_with_capacity (T := T) al ty cap w = Done (mkTensor ty (sh_default ty) [] cap') w) \/
  (~ (prodZ (sh_default ty) = 0 /\ fits (sh_default ty)) /\ tn_with_capacity (T := T) al ty cap w = Unwound w).
Proof.
  intros Hal Hn. unfold tn_with_capacity, seqM, check.
  destruct (checked_len_cases (sh_default ty)) as [F|E].
  - rewrite checked_len_fits by auto. destruct (Z.eqb_spec (prodZ (sh_default ty)) 0) as [E0|E0].
    + left. split; auto. split; auto. rewrite Hal, orb_true_r. unfold from_parts. rewrite sh_len_prod, E0. cbn [zlen length].
      change (Z.of_nat 0 =? 0) with true. cbn iota. eexists. split; [|reflexivity]. destruct (Z.eqb_spec cap 0); lia.
    + right. split; auto. tauto.
  - rewrite E. right. split; auto. intros [_ F]. rewrite checked_len_fits in E by auto. discriminate.
Qed.

Lemma with_capacity_post {T C} al ty cap (w : world T C) S0 (R : list T) :
  nonneg (sh_default ty) -> ty_wf ty -> 0 <= cap -> balanced S0 R w -> opost S0 R (tn_with_capacity (T := T) al ty cap w).
Proof.
  intros Hn Hty Hc HB. unfold tn_with_capacity, seqM, check.
  destruct (checked_len_cases (sh_default ty)) as [F|E]; [|rewrite E; exact HB].
  rewrite checked_len_fits by auto. destruct (Z.eqb_spec (prodZ (sh_default ty)) 0) as [E0|E0]; [|exact HB].
  destruct (_ || _); [|exact HB]. unfold from_parts. rewrite sh_len_prod, E0.
  change (@zlen T [] =? 0) with true. cbn iota. cbn [opost tn_mem]. rewrite app_nil_r. split; auto.
  constructor; cbn [tn_dims tn_ty tn_mem tn_cap]; auto; try (apply default_typed); cbn; try lia.
  destruct (Z.eqb_spec cap 0); lia.
Qed.

(** ** zip_with *)

Lemma zip_loop_spec {T Y C} (f : T * Y -> C -> call T C) ys k (z : zipping T C) :
  z_index z = Z.of_nat k -> (k + length ys <= length (z_mem z))%nat ->
  zip_loop f (combine (map Z.of_nat (seq k (length ys))) ys) z =
  let '(rs, c, b) := gives (map f (combine (skipn k (z_mem z)) ys)) (w_clo (z_w z)) in
  let j := (k + length rs)%nat in
  let extra := if b then 0%nat else 1%nat in
  finish b tt (mkZip (firstn k (z_mem z) ++ rs ++ skipn j (z_mem z)) (Z.of_nat (j + extra))
    (mkWorld c (w_made (z_w z) ++ rs) (w_used (z_w z) ++ firstn (length rs + extra) (skipn k (z_mem z))) (w_dropped (z_w z)))).
Proof.
  revert k z. induction ys as [|y ys IH]; intros k z Hk Hl.
  - cbn [length seq map combine zip_loop ret]. destruct (skipn k (z_mem z)); cbn [combine map gives length finish];
      rewrite !Nat.add_0_r, <- Hk; cbn [app]; rewrite firstn_skipn; cbn; rewrite !app_nil_r; destruct z as [? ? []]; reflexivity.
  - cbn [length seq map combine zip_loop]. rewrite Nat2Z.id. cbn [length] in Hl.
    destruct (nth_error (z_mem z) k) as [x|] eqn:E; [|apply nth_error_None in E; lia].
    destruct (nth_error_split _ _ E) as (l1 & l2 & EP & EL). rewrite EP. subst k. clear E.
    assert (F3 : forall (z : T), skipn (length l1) (l1 ++ z :: l2) = z :: l2)
      by (intros; rewrite skipn_app, skipn_all, Nat.sub_diag; reflexivity).
    assert (F4 : forall (z : T), skipn (S (length l1)) (l1 ++ z :: l2) = l2).
    { intros u. rewrite skipn_app, skipn_all2 by lia. replace (S (length l1) - length l1)%nat with 1%nat by lia. reflexivity. }
    assert (F1 : forall (z : T), firstn (S (length l1)) (l1 ++ z :: l2) = l1 ++ [z]).
    { intros u. rewrite firstn_app. replace (S (length l1) - length l1)%nat with 1%nat by lia. rewrite firstn_all2 by lia. reflexivity. }
    assert (F5 : forall (z : T), firstn (length l1) (l1 ++ z :: l2) = l1).
    { intros u. rewrite firstn_app, firstn_all, Nat.sub_diag. cbn. now rewrite app_nil_r. }
    rewrite F3. cbn [combine map gives]. change (w_clo (w_use x (z_w z))) with (w_clo (z_w z)).
    destruct (f (x, y) (w_clo (z_w z))) as [r c|c].
    + assert (EU : upd (l1 ++ x :: l2) (length l1) r = l1 ++ r :: l2).
      { clear. induction l1 as [|u l1 IH]; cbn; auto. now rewrite IH. }
      rewrite EU. rewrite IH; cbn [z_mem z_index z_w]; [|lia|].
      2:{ rewrite EP in Hl. rewrite app_length in *. cbn [length] in *. lia. }
      rewrite F4. change (w_clo (w_make c r (w_use x (z_w z)))) with c.
      destruct (gives (map f (combine l2 ys)) c) as [[rs c'] b]. cbn [length].
      assert (FS : forall (u : T) j, skipn (S (length l1) + j) (l1 ++ u :: l2) = skipn j l2).
      { intros u j. rewrite skipn_app, skipn_all2 by lia. replace (S (length l1) + j - length l1)%nat with (S j) by lia. reflexivity. }
      replace (length l1 + S (length rs))%nat with (S (length l1) + length rs)%nat by lia.
      rewrite !FS, F1, F5. unfold w_make, w_use. cbn [w_made w_used w_dropped firstn Nat.add].
      rewrite <- !app_assoc. reflexivity.
    + cbn [length finish]. rewrite Nat.add_0_r, F3, F5. cbn [app firstn Nat.add].
      unfold w_set, w_use. cbn [w_clo w_made w_used w_dropped]. rewrite app_nil_r, Hk, <- EP. do 2 f_equal. lia.
Qed.

Lemma zip_with_refused {T Y C} (e : expression Y) (f : T * Y -> C -> call T C) t w :
  tensor_ok t -> e_zip (e_view (zlen (tn_mem t)) false (whole (tn_ty t) (tn_dims t))) e = Panic ->
  tn_zip_with e f t w = Unwound (w_drop (tn_mem t) w).
Proof.
  intros Ht E. unfold tn_zip_with. rewrite (to_vec_ok Ht), E. unfold zip_guard. cbn [z_mem z_index z_w].
  rewrite Z.sub_0_r. destruct (Z.leb_spec 0 (zlen (tn_mem t))); [|unfold zlen in *; lia]. reflexivity.
Qed.

Lemma combine_seq {Y} n (ys : list Y) : (length ys <= Z.to_nat n)%nat ->
  combine (zrange n) ys = combine (map Z.of_nat (seq 0 (length ys))) ys.
Proof.
  intros H. unfold zrange. replace (Z.to_nat n) with (length ys + (Z.to_nat n - length ys))%nat by lia.
  rewrite seq_app, map_app. generalize (map Z.of_nat (seq (0 + length ys) (Z.to_nat n - length ys))). intros l2.
  assert (EL : length (map Z.of_nat (seq 0 (length ys))) = length ys) by now rewrite map_length, seq_length.
  revert EL. generalize (map Z.of_nat (seq 0 (length ys))). clear. revert l2.
  induction ys as [|y ys IH]; intros l2 [|z l1] E; cbn in *; try lia.
  - now destruct l2.
  - now rewrite IH by lia.
Qed.

Lemma zip_guard_eq {T C} (rs mem : list T) extra (w : world T C) :
  (length rs + extra <= length mem)%nat -> (extra <= 1)%nat ->
  zip_guard (mkZip (rs ++ skipn (length rs) mem) (Z.of_nat (length rs + extra)) w) =
  Unwound (w_drop (match extra with O => removelast rs | _ => rs end ++ skipn (length rs + extra) mem) w).
Proof.
  intros H1 H2. unfold zip_guard. cbn [z_mem z_index z_w].
  assert (EZ : zlen (rs ++ skipn (length rs) mem) = zlen mem).
  { unfold zlen. rewrite app_length, skipn_length. lia. }
  rewrite EZ. destruct (Z.leb_spec 0 (zlen mem - Z.of_nat (length rs + extra))); [|unfold zlen in *; lia].
  rewrite Nat2Z.id. rewrite skipn_app, (skipn_all2 rs) by lia. rewrite skipn_skipn'. cbn [app].
  replace (length rs + (length rs + extra - length rs))%nat with (length rs + extra)%nat by lia.
  assert (ED : forall a b, w_drop b (w_drop a w) = w_drop (a ++ b) w) by (intros; unfold w_drop; cbn; now rewrite app_assoc).
  assert (EF : firstn (Z.to_nat (Z.of_nat (length rs + extra) - 1)) (rs ++ skipn (length rs) mem) =
               match extra with O => removelast rs | _ => rs end).
  { replace (Z.to_nat (Z.of_nat (length rs + extra) - 1)) with (length rs + extra - 1)%nat by lia.
    rewrite firstn_app. replace (length rs + extra - 1 - length rs)%nat with 0%nat by lia. cbn [firstn]. rewrite app_nil_r.
    destruct extra as [|[|]]; [|rewrite firstn_all2 by lia; reflexivity|lia]. rewrite removelast_firstn_len. f_equal. lia. }
  destruct (Z.ltb_spec 1 (Z.of_nat (length rs + extra))) as [L|L].
  - now rewrite EF, ED.
  - replace (Z.to_nat (Z.of_nat (length rs + extra) - 1)) with 0%nat in EF by lia. cbn [firstn] in EF. rewrite <- EF. reflexivity.
Qed.

Lemma gives_short {T C} (fs : list (C -> call T C)) c xs c' b :
  gives fs c = (xs, c', b) -> b = false -> (length xs < length fs)%nat.
Proof.
  revert c xs. induction fs as [|f fs IH]; intros c xs; cbn.
  - intros [= <- <- <-]. discriminate.
  - destruct (f c) as [x c1|c1].
    + destruct (gives fs c1) as [[ys c2] b2] eqn:E. intros [= <- <- <-] Hb. specialize (IH _ _ E Hb). cbn. lia.
    + intros [= <- <- <-] _. cbn. lia.
Qed.

(** The outcome of [zip_with]; [ys] are the items of the operand. *)
Lemma zip_with_items {T Y C} (e : expression Y) (f : T * Y -> C -> call T C) (t : tensor T) w z ys o :
  tensor_ok t -> e_zip (e_view (zlen (tn_mem t)) false (whole (tn_ty t) (tn_dims t))) e = Ok z ->
  e_trace z = (combine (zrange (zlen (tn_mem t))) ys, o) -> (length ys <= length (tn_mem t))%nat ->
  (o = Ok tt -> length ys = length (tn_mem t)) ->
  tn_zip_with e f t w =
  let '(rs, c, b) := gives (map f (combine (tn_mem t) ys)) (w_clo w) in
  let made := w_made w ++ rs in
  let world n := mkWorld c made (w_used w ++ firstn n (tn_mem t)) (w_dropped w) in
  if b
  then match o with
       | Ok _ => Done (mkTensor (tn_ty t) (tn_dims t) rs (tn_cap t)) (world (length rs))
       | Panic => Unwound (w_drop (removelast rs ++ skipn (length rs) (tn_mem t)) (world (length rs)))
       | _ => Fault
       end
  else Unwound (w_drop (rs ++ skipn (S (length rs)) (tn_mem t)) (world (S (length rs)))).
Proof.
  intros Ht EZ ET HL HO. unfold tn_zip_with. rewrite (to_vec_ok Ht), EZ, ET. cbn [fst snd].
  rewrite combine_seq by (unfold zlen; lia). unfold seqM. rewrite zip_loop_spec by (cbn [z_index z_mem]; auto; lia).
  cbn [z_mem z_w skipn].
  destruct (gives _ _) as [[rs c] b] eqn:EG. pose proof (gives_length EG) as HG. pose proof (gives_short EG) as HS.
  rewrite map_length, combine_length in HG, HS. cbn [Nat.add firstn app].
  destruct b; cbn [finish].
  - assert (ER : length rs = length ys) by (destruct HG as [_ HG]; rewrite HG by auto; lia).
    rewrite !Nat.add_0_r. unfold lift. destruct o as [[]| | |]; cbn [z_mem z_w].
    + specialize (HO eq_refl). rewrite skipn_all2 by lia. rewrite app_nil_r.
      unfold from_parts. rewrite sh_len_prod. unfold zlen. rewrite ER, HO, (to_len Ht), Z.eqb_refl. reflexivity.
    + replace (Z.of_nat (length rs)) with (Z.of_nat (length rs + 0)) by (f_equal; lia).
      rewrite zip_guard_eq by lia. rewrite Nat.add_0_r. reflexivity.
    + reflexivity.
    + reflexivity.
  - specialize (HS eq_refl).
    rewrite zip_guard_eq by lia. rewrite Nat.add_1_r. reflexivity.
Qed.

Lemma zip_with_post {T Y C} (e : expression Y) (f : T * Y -> C -> call T C) (t : tensor T) w S0 R :
  tensor_ok t -> zips t e -> balanced S0 (R ++ tn_mem t) w ->
  exists leak, (length leak <= 1)%nat /\
    match tn_zip_with e f t w with
    | Done t' w' => tensor_ok t' /\ tn_ty t' = tn_ty t /\ tn_dims t' = tn_dims t /\ balanced S0 (R ++ tn_mem t') w' /\ leak = []
    | Unwound w' => balanced S0 (R ++ leak) w'
    | _ => False
    end.
Proof.
  intros Ht HZ HB. destruct HZ as [E|z ys o EZ ET HL HO].
  - exists []. split; [cbn; lia|]. rewrite zip_with_refused by auto. rewrite app_nil_r. eapply balanced_drop; [exact HB|reflexivity].
  - rewrite (zip_with_items f w Ht EZ ET HL) by (intros E; destruct HO as [HO|HO]; [apply HO|congruence]).
    destruct (gives _ _) as [[rs c] b] eqn:EG. pose proof (gives_length EG) as HG. pose proof (gives_short EG) as HS.
    rewrite map_length, combine_length in HG, HS. unfold balanced in *. cbn [w_made w_used w_dropped].
    assert (HP : forall k, Permutation (S0 ++ w_made w ++ rs) (R ++ firstn k (tn_mem t) ++ skipn k (tn_mem t) ++ w_used w ++ w_dropped w ++ rs)).
    { intros k. rewrite (app_assoc (firstn k _)), firstn_skipn. rewrite app_assoc.
      transitivity ((R ++ tn_mem t ++ w_used w ++ w_dropped w) ++ rs).
      - apply Permutation_app_tail. rewrite HB. now rewrite <- app_assoc.
      - now rewrite <- !app_assoc. }
    destruct b.
    + destruct HG as [_ HG]. specialize (HG eq_refl). destruct HO as [[-> HO]|HO].
      * exists []. split; [cbn; lia|]. cbn [tn_dims tn_ty tn_mem]. split; [|split; [reflexivity|split; [reflexivity|split; [|reflexivity]]]].
        { destruct Ht. constructor; cbn [tn_dims tn_ty tn_mem tn_cap]; auto; lia. }
        cbn [w_made w_used w_dropped]. rewrite (HP (length rs)). rewrite skipn_all2 by lia. cbn [app]. perm.
      * rewrite HO. exists (match rev rs with [] => [] | x :: _ => [x] end).
        split; [destruct (rev rs); cbn; lia|]. unfold w_drop. cbn [w_made w_used w_dropped]. rewrite (HP (length rs)).
        assert (ER : Permutation rs (removelast rs ++ match rev rs with [] => [] | x :: _ => [x] end)).
        { destruct rs as [|x l _] using rev_ind; [reflexivity|]. rewrite removelast_last, rev_app_distr. reflexivity. }
        set (hd := match rev rs with [] => [] | x :: _ => [x] end) in *.
        transitivity (R ++ firstn (length rs) (tn_mem t) ++ skipn (length rs) (tn_mem t) ++ w_used w ++ w_dropped w ++ removelast rs ++ hd).
        { do 5 apply Permutation_app_head. exact ER. }
        perm.
    + exists []. split; [cbn; lia|]. unfold w_drop. cbn [w_made w_used w_dropped]. rewrite (HP (S (length rs))). perm.
Qed.
