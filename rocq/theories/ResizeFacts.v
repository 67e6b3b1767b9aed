(** [resize_with] and [copy_dim]. *)
From Verif Require Import Base Spec SpecFacts Shape Mapping Index View Wf MappingFacts MapOps ReshapeFacts.
From Verif Require Import Expr ExprSpec ExprFacts Tensor TensorSpec TraceFacts TensorFacts.
Unset Strict Implicit.

(** ** Filling in missing values *)

Definition missing {I T} (known : I -> option T) (l : list I) : nat :=
  length (filter (fun i => match known i with None => true | Some _ => false end) l).

Lemma fill_app {I T} (known : I -> option T) l1 l2 v1 v2 :
  length v1 = missing known l1 ->
  fill_missing known (l1 ++ l2) (v1 ++ v2) = fill_missing known l1 v1 ++ fill_missing known l2 v2.
Proof.
  unfold missing. revert v1. induction l1 as [|i l1 IH]; intros v1; cbn [app filter length fill_missing].
  - intros H. destruct v1; [reflexivity|discriminate].
  - destruct (known i); cbn [length]; intros H.
    + cbn [app]. f_equal. now apply IH.
    + destruct v1 as [|v v1]; [discriminate|]. cbn [app]. f_equal. apply IH. cbn in H. lia.
Qed.

Lemma fill_ext {I T} (k1 k2 : I -> option T) l vals :
  (forall i, In i l -> k1 i = k2 i) -> fill_missing k1 l vals = fill_missing k2 l vals.
Proof.
  revert vals. induction l as [|i l IH]; intros vals H; cbn; auto.
  rewrite H by (left; auto). destruct (k2 i); [|destruct vals; auto]; f_equal; apply IH; intros; apply H; right; auto.
Qed.

Lemma fill_map {I J T} (known : I -> option T) (g : J -> I) l vals :
  fill_missing known (map g l) vals = fill_missing (fun j => known (g j)) l vals.
Proof.
  revert vals. induction l as [|j l IH]; intros vals; cbn; auto.
  destruct (known (g j)); [|destruct vals; auto]; f_equal; apply IH.
Qed.

Lemma missing_ext {I T U} (k1 : I -> option T) (k2 : I -> option U) l :
  (forall i, In i l -> (k1 i = None <-> k2 i = None)) -> missing k1 l = missing k2 l.
Proof.
  unfold missing. intros H. f_equal. apply filter_ext_in. intros i Hi. specialize (H i Hi).
  destruct (k1 i), (k2 i); auto; destruct H as [H1 H2]; [specialize (H2 eq_refl)|specialize (H1 eq_refl)]; discriminate.
Qed.

Lemma missing_map {I J T} (known : I -> option T) (g : J -> I) l :
  missing known (map g l) = missing (fun j => known (g j)) l.
Proof. unfold missing. induction l as [|j l IH]; cbn; auto. destruct (known (g j)); cbn; auto. Qed.

Lemma missing_app {I T} (known : I -> option T) l1 l2 : missing known (l1 ++ l2) = (missing known l1 + missing known l2)%nat.
Proof. unfold missing. now rewrite filter_app, app_length. Qed.

Lemma fill_none {I T} (known : I -> option T) l vals :
  (forall i, In i l -> known i = None) -> length vals = length l -> fill_missing known l vals = vals.
Proof.
  revert vals. induction l as [|i l IH]; intros [|v vals] H HL; cbn in *; try discriminate; auto.
  rewrite H by auto. f_equal. apply IH; auto.
Qed.

Lemma missing_none {I T} (known : I -> option T) l :
  (forall i, In i l -> known i = None) -> missing known l = length l.
Proof.
  unfold missing. induction l as [|i l IH]; intros H; cbn; auto.
  rewrite H by (left; auto). cbn. rewrite IH; auto. intros; apply H; right; auto.
Qed.

Lemma fill_length {I T} (known : I -> option T) l vals :
  length vals = missing known l -> length (fill_missing known l vals) = length l.
Proof.
  unfold missing. revert vals. induction l as [|i l IH]; intros vals; cbn; auto.
  destruct (known i); cbn; intros H; [now rewrite IH|]. destruct vals as [|v vals]; [discriminate|].
  cbn in *. now rewrite IH by lia.
Qed.

Lemma inside_spec dims idx : inside dims idx = true <-> in_bounds dims idx.
Proof.
  revert idx. induction dims as [|d ds IH]; intros [|i is]; cbn; split; intros H; try discriminate; try (now constructor);
    try (inversion H; fail).
  - apply andb_prop in H as [H1 H2]. apply andb_prop in H1 as [H0 H1]. apply in_bounds_cons. split; [lia|now apply IH].
  - apply in_bounds_cons in H as [H1 H2]. apply IH in H2. rewrite H2, andb_true_r. lia.
Qed.

Lemma inside_false dims idx : inside dims idx = false <-> ~ in_bounds dims idx.
Proof. rewrite <- inside_spec. destruct (inside dims idx); split; congruence. Qed.

Lemma elem_at_in {T} dims (l : list T) idx :
  in_bounds dims idx -> zlen l = prodZ dims -> elem_at dims l idx <> None.
Proof.
  intros B HL. unfold elem_at. rewrite (proj2 (inside_spec _ _) B). apply nth_error_Some.
  pose proof (flat_bounds B). unfold zlen in HL. lia.
Qed.

Lemma elem_at_out {T} dims (l : list T) idx : ~ in_bounds dims idx -> elem_at dims l idx = None.
Proof. intros H. unfold elem_at. now rewrite (proj2 (inside_false _ _) H). Qed.

Lemma fresh_missing {T} dims (l : list T) new :
  zlen l = prodZ dims -> fresh dims new = missing (elem_at dims l) (indices new).
Proof.
  intros HL. unfold fresh, missing. f_equal. apply filter_ext_in. intros idx _.
  destruct (inside dims idx) eqn:E.
  - apply inside_spec in E. pose proof (elem_at_in E HL). destruct (elem_at dims l idx); [reflexivity|congruence].
  - apply inside_false in E. now rewrite elem_at_out.
Qed.

(** ** Row by row *)

Section Rows.
  Variables (T : Type) (ot nt : list Z).
  Let P := prodZ ot.
  Let F := fresh ot nt.

  Fixpoint rows_fill (k : nat) (a vs : list T) : list T :=
    match k with
    | O => []
    | S k => fill_missing (elem_at ot (firstn (Z.to_nat P) a)) (indices nt) (firstn F vs)
             ++ rows_fill k (skipn (Z.to_nat P) a) (skipn F vs)
    end.

  Fixpoint rows_lost (k : nat) (a : list T) : list T :=
    match k with
    | O => []
    | S k => lost ot (firstn (Z.to_nat P) a) nt ++ rows_lost k (skipn (Z.to_nat P) a)
    end.

  Definition row_of (i : Z) : list (list Z) := map (cons i) (indices nt).
  Definition old_row_of (i : Z) : list (list Z) := map (cons i) (indices ot).

  Hypothesis Hot : nonneg ot.

  Lemma row_elem o (A : list T) j is :
    0 <= j < o -> zlen A = o * P ->
    elem_at (o :: ot) A (j :: is) = elem_at ot (firstn (Z.to_nat P) (skipn (Z.to_nat (j * P)) A)) is.
  Proof.
    intros Hj HA. unfold elem_at. cbn [inside flat]. fold P.
    destruct (Z.leb_spec 0 j); [|lia]. destruct (Z.ltb_spec j o); [|lia]. cbn [andb].
    destruct (inside ot is) eqn:E; auto. apply inside_spec in E. pose proof (flat_bounds E) as FB. fold P in FB.
    pose proof (prodZ_nonneg Hot) as HP. fold P in HP.
    replace (Z.to_nat (j * P + flat ot is)) with (Z.to_nat (j * P) + Z.to_nat (flat ot is))%nat by nia.
    rewrite nth_error_firstn'. destruct (Nat.ltb_spec (Z.to_nat (flat ot is)) (Z.to_nat P)); [|lia].
    now rewrite nth_error_skipn'.
  Qed.

  Lemma row_fresh o (A : list T) j :
    0 <= j < o -> zlen A = o * P -> missing (elem_at (o :: ot) A) (row_of j) = F.
  Proof.
    intros Hj HA. unfold row_of. rewrite missing_map. unfold F.
    pose proof (prodZ_nonneg Hot) as HP. fold P in HP.
    rewrite (@fresh_missing _ ot (firstn (Z.to_nat P) (skipn (Z.to_nat (j * P)) A)) nt).
    - apply missing_ext. intros is _. rewrite row_elem by auto. tauto.
    - apply zlen_firstn. rewrite zlen_skipn; nia.
  Qed.

  Lemma rows_fill_spec o (A : list T) k j vs :
    0 <= j -> j + Z.of_nat k <= o -> zlen A = o * P -> length vs = (k * F)%nat ->
    fill_missing (elem_at (o :: ot) A) (flat_map row_of (positions j (j + Z.of_nat k))) vs =
    rows_fill k (skipn (Z.to_nat (j * P)) A) vs.
  Proof.
    intros Hj Hk HA. revert j vs Hj Hk. induction k as [|k IH]; intros j vs Hj Hk Hvs.
    - rewrite positions_nil by lia. reflexivity.
    - rewrite positions_cons by lia. cbn [flat_map rows_fill].
      pose proof (prodZ_nonneg Hot) as HP. fold P in HP.
      rewrite <- (firstn_skipn F vs) at 1. rewrite fill_app.
      + f_equal.
        * unfold row_of. rewrite fill_map. apply fill_ext. intros is _. apply row_elem; auto. lia.
        * replace (j + Z.of_nat (S k)) with (j + 1 + Z.of_nat k) by lia. rewrite IH; try lia.
          -- f_equal. rewrite skipn_skipn'. f_equal. nia.
          -- rewrite skipn_length. nia.
      + rewrite row_fresh by (auto; lia). rewrite firstn_length. nia.
  Qed.

  Lemma rows_lost_spec o n (A : list T) k j :
    0 <= j -> j + Z.of_nat k <= Z.min o n -> zlen A = o * P ->
    flat_map (fun idx => if inside (n :: nt) idx then []
                         else match elem_at (o :: ot) A idx with Some x => [x] | None => [] end)
      (flat_map old_row_of (positions j (j + Z.of_nat k))) =
    rows_lost k (skipn (Z.to_nat (j * P)) A).
  Proof.
    intros Hj Hk HA. revert j Hj Hk. induction k as [|k IH]; intros j Hj Hk.
    - rewrite positions_nil by lia. reflexivity.
    - rewrite positions_cons by lia. cbn [flat_map rows_lost]. rewrite flat_map_app.
      pose proof (prodZ_nonneg Hot) as HP. fold P in HP. f_equal.
      + unfold old_row_of, lost. rewrite !flat_map_concat_map, map_map. f_equal. apply map_ext. intros is.
        rewrite row_elem by (auto; lia). cbn [inside].
        destruct (Z.leb_spec 0 j); [|lia]. destruct (Z.ltb_spec j n); [|lia]. reflexivity.
      + replace (j + Z.of_nat (S k)) with (j + 1 + Z.of_nat k) by lia. rewrite IH by lia.
        f_equal. rewrite skipn_skipn'. f_equal. nia.
  Qed.

End Rows.

Lemma rows_fill_nil {T} k (a vs : list T) : (k <= length a)%nat -> rows_fill [] [] k a vs = firstn k a.
Proof.
  revert a vs. induction k as [|k IH]; intros [|x a] vs H; cbn in *; auto; try lia.
  change (Pos.to_nat 1) with 1%nat. cbn [firstn skipn nth_error app]. f_equal. apply IH. lia.
Qed.

Lemma rows_lost_nil {T} k (a : list T) : rows_lost [] [] k a = [].
Proof. revert a. induction k as [|k IH]; intros a; cbn; auto. Qed.

Lemma rows_fill_firstn {T} ot nt k (a vs : list T) m :
  nonneg ot -> Z.of_nat k <= m -> rows_fill ot nt k a vs = rows_fill ot nt k (firstn (Z.to_nat (m * prodZ ot)) a) vs.
Proof.
  intros Hot. pose proof (prodZ_nonneg Hot) as HP. revert a vs m. induction k as [|k IH]; intros a vs m Hk; cbn [rows_fill]; auto.
  rewrite firstn_firstn. f_equal.
  - do 3 f_equal. nia.
  - rewrite (IH _ _ (m - 1)) by lia. f_equal. rewrite skipn_firstn_comm. f_equal. nia.
Qed.

Lemma rows_lost_firstn {T} ot nt k (a : list T) m :
  nonneg ot -> Z.of_nat k <= m -> rows_lost ot nt k a = rows_lost ot nt k (firstn (Z.to_nat (m * prodZ ot)) a).
Proof.
  intros Hot. pose proof (prodZ_nonneg Hot) as HP. revert a m. induction k as [|k IH]; intros a m Hk; cbn [rows_lost]; auto.
  rewrite firstn_firstn. f_equal.
  - do 2 f_equal. nia.
  - rewrite (IH _ (m - 1)) by lia. f_equal. rewrite skipn_firstn_comm. f_equal. nia.
Qed.

Lemma flat_map_row nt m n : 0 <= m <= n ->
  indices (n :: nt) = flat_map (row_of nt) (positions 0 m) ++ flat_map (row_of nt) (positions m n).
Proof.
  intros H. cbn [indices]. change (fun i : Z => map (cons i) (indices nt)) with (row_of nt).
  rewrite <- positions_zrange, (@positions_app 0 m n) by lia. apply flat_map_app.
Qed.

Lemma flat_map_const_length {A B} (f : A -> list B) l n : (forall x, length (f x) = n) -> length (flat_map f l) = (length l * n)%nat.
Proof. intros H. induction l as [|x l IH]; cbn; auto. now rewrite app_length, IH, H. Qed.

Lemma rows_length nt a b : nonneg nt -> length (flat_map (row_of nt) (positions a b)) = (Z.to_nat (b - a) * Z.to_nat (prodZ nt))%nat.
Proof.
  intros H. rewrite (@flat_map_const_length _ _ (row_of nt) _ (Z.to_nat (prodZ nt))).
  - unfold positions. now rewrite map_length, zrange_length.
  - intros x. unfold row_of. now rewrite map_length, indices_length.
Qed.

(** The number of new elements. *)
Lemma fresh_cons o ot n nt :
  nonneg ot -> nonneg nt -> 0 <= o -> 0 <= n ->
  fresh (o :: ot) (n :: nt) =
  (Z.to_nat (Z.min o n) * fresh ot nt + Z.to_nat ((n - Z.min o n) * prodZ nt))%nat.
Proof.
  intros Hot Hnt Ho Hn.
  pose proof (prodZ_nonneg Hot) as HP. pose proof (prodZ_nonneg Hnt) as HQ.
  set (A := repeat 0 (Z.to_nat (o * prodZ ot))).
  assert (HA : zlen A = o * prodZ ot) by (unfold zlen, A; rewrite repeat_length; nia).
  rewrite (@fresh_missing _ (o :: ot) A) by (cbn [prodZ fold_right]; exact HA).
  rewrite (@flat_map_row nt (Z.min o n) n) by lia. rewrite missing_app. f_equal.
  - assert (G : forall k j, 0 <= j -> j + Z.of_nat k <= o ->
      missing (elem_at (o :: ot) A) (flat_map (row_of nt) (positions j (j + Z.of_nat k))) = (k * fresh ot nt)%nat).
    { induction k as [|k IH]; intros j Hj Hk.
      - rewrite positions_nil by lia. reflexivity.
      - rewrite positions_cons by lia. cbn [flat_map]. rewrite missing_app, row_fresh by (auto; lia).
        replace (j + Z.of_nat (S k)) with (j + 1 + Z.of_nat k) by lia. rewrite IH by lia. lia. }
    specialize (G (Z.to_nat (Z.min o n)) 0 ltac:(lia) ltac:(lia)).
    replace (0 + Z.of_nat (Z.to_nat (Z.min o n))) with (Z.min o n) in G by lia. exact G.
  - rewrite missing_none.
    + rewrite rows_length by auto. nia.
    + intros idx Hin. apply in_flat_map in Hin as (i & Hi & Hin). apply in_positions in Hi.
      unfold row_of in Hin. apply in_map_iff in Hin as (is & <- & _).
      apply elem_at_out. intros B. apply in_bounds_cons in B as [B _]. lia.
Qed.

(** All of the new array: the common rows, then new values. *)
Lemma fill_cons {T} o ot n nt (A vs1 vs2 : list T) :
  nonneg ot -> nonneg nt -> 0 <= o -> 0 <= n -> zlen A = o * prodZ ot ->
  length vs1 = (Z.to_nat (Z.min o n) * fresh ot nt)%nat ->
  length vs2 = Z.to_nat ((n - Z.min o n) * prodZ nt) ->
  fill_missing (elem_at (o :: ot) A) (indices (n :: nt)) (vs1 ++ vs2) =
  rows_fill ot nt (Z.to_nat (Z.min o n)) A vs1 ++ vs2.
Proof.
  intros Hot Hnt Ho Hn HA H1 H2.
  pose proof (prodZ_nonneg Hot) as HP. pose proof (prodZ_nonneg Hnt) as HQ.
  assert (E1 : 0 + Z.of_nat (Z.to_nat (Z.min o n)) = Z.min o n) by lia.
  assert (HM : missing (elem_at (o :: ot) A) (flat_map (row_of nt) (positions (Z.min o n) n)) = length vs2).
  { rewrite missing_none.
    - rewrite rows_length by auto. nia.
    - intros idx Hin. apply in_flat_map in Hin as (i & Hi & Hin). apply in_positions in Hi.
      unfold row_of in Hin. apply in_map_iff in Hin as (is & <- & _).
      apply elem_at_out. intros B. apply in_bounds_cons in B as [B _]. lia. }
  rewrite (@flat_map_row nt (Z.min o n) n) by lia. rewrite fill_app.
  - f_equal.
    + rewrite <- E1 at 1. rewrite rows_fill_spec; auto; lia.
    + apply fill_none.
      * intros idx Hin. apply in_flat_map in Hin as (i & Hi & Hin). apply in_positions in Hi.
        unfold row_of in Hin. apply in_map_iff in Hin as (is & <- & _).
        apply elem_at_out. intros B. apply in_bounds_cons in B as [B _]. lia.
      * rewrite rows_length by auto. nia.
  - pose proof (fresh_cons Hot Hnt Ho Hn) as HF. rewrite (@fresh_missing _ (o :: ot) A) in HF by (exact HA).
    rewrite (@flat_map_row nt (Z.min o n) n), missing_app, HM in HF by lia. lia.
Qed.

Lemma lost_cons {T} o ot n nt (A : list T) :
  nonneg ot -> nonneg nt -> 0 <= o -> 0 <= n -> zlen A = o * prodZ ot ->
  lost (o :: ot) A (n :: nt) =
  rows_lost ot nt (Z.to_nat (Z.min o n)) A ++ skipn (Z.to_nat (Z.min o n * prodZ ot)) A.
Proof.
  intros Hot Hnt Ho Hn HA. unfold lost.
  pose proof (prodZ_nonneg Hot) as HP.
  rewrite (@flat_map_row ot (Z.min o n) o) by lia. rewrite flat_map_app. f_equal.
  - assert (E1 : 0 + Z.of_nat (Z.to_nat (Z.min o n)) = Z.min o n) by lia.
    rewrite <- E1 at 1. change (row_of ot) with (old_row_of ot). rewrite rows_lost_spec; auto; lia.
  - assert (G : forall k j, Z.min o n <= j -> j + Z.of_nat k = o ->
      flat_map (fun idx => if inside (n :: nt) idx then []
                           else match elem_at (o :: ot) A idx with Some x => [x] | None => [] end)
        (flat_map (row_of ot) (positions j o)) = skipn (Z.to_nat (j * prodZ ot)) A).
    { induction k as [|k IH]; intros j Hj Hk.
      - rewrite positions_nil by lia. cbn. symmetry. apply skipn_all2. unfold zlen in HA. nia.
      - rewrite positions_cons by lia. cbn [flat_map]. rewrite flat_map_app, IH by lia.
        assert (E : forall l : list T, zlen l = prodZ ot -> flat_map (fun is => match elem_at ot l is with Some x => [x] | None => [] end) (indices ot) = l).
        { clear - Hot. intros l Hl. rewrite indices_unflat by auto. rewrite flat_map_concat_map, map_map.
          rewrite (map_ext_in _ (fun k => match nth_error l (Z.to_nat k) with Some x => [x] | None => [] end)).
          - rewrite <- Hl. clear. unfold zrange, zlen. rewrite Nat2Z.id, map_map.
            rewrite (map_ext _ (fun k => match nth_error l k with Some x => [x] | None => [] end)) by (intros; now rewrite Nat2Z.id).
            induction l as [|x l IH]; cbn; auto. f_equal. rewrite <- seq_shift, map_map. exact IH.
          - intros k Hk. apply in_zrange in Hk. unfold elem_at.
            rewrite (proj2 (inside_spec _ _) (unflat_in_bounds Hot Hk)). now rewrite flat_unflat. }
        unfold row_of at 1. rewrite flat_map_concat_map, map_map.
        rewrite (map_ext_in _ (fun is => match elem_at ot (firstn (Z.to_nat (prodZ ot)) (skipn (Z.to_nat (j * prodZ ot)) A)) is with Some x => [x] | None => [] end)).
        + rewrite <- flat_map_concat_map, E.
          * replace (Z.to_nat ((j + 1) * prodZ ot)) with (Z.to_nat (j * prodZ ot) + Z.to_nat (prodZ ot))%nat by nia.
            rewrite <- skipn_skipn'. apply firstn_skipn.
          * apply zlen_firstn. rewrite zlen_skipn; nia.
        + intros is _. rewrite row_elem by (auto; lia).
          assert (inside (n :: nt) (j :: is) = false) as -> by (cbn; lia). reflexivity. }
    apply (G (Z.to_nat (o - Z.min o n))); lia.
Qed.

(** ** [copy_dim] *)

Definition copied {T C} (c : C) (rest vs xs ds : list T) (s : copying T C) : copying T C :=
  mkCopy rest (c_new s ++ xs) (c_cap s) (after c vs ds (c_w s)).

Lemma copy_new_spec {T C} (f : C -> call T C) n s :
  zlen (c_new s) + Z.of_nat n <= c_cap s ->
  timesM n (copy_new f) s =
  let '(vs, c, b) := gives (repeat f n) (w_clo (c_w s)) in finish b tt (copied c (c_old s) vs vs [] s).
Proof.
  revert s. induction n as [|n IH]; intros s H; cbn [timesM repeat gives].
  - cbn. unfold copied. rewrite after_nil, app_nil_r. now destruct s.
  - unfold seqM. unfold copy_new at 1. destruct (f (w_clo (c_w s))) as [x c|c].
    + destruct (Z.ltb_spec (zlen (c_new s)) (c_cap s)); [|lia]. rewrite IH; cbn [c_new c_cap c_old c_w w_make w_clo].
      * destruct (gives (repeat f n) c) as [[vs c'] b]. unfold copied. cbn [c_new c_cap c_old c_w].
        unfold w_make, after. cbn [w_made w_used w_dropped]. rewrite <- !app_assoc. reflexivity.
      * rewrite zlen_app. unfold zlen at 2. cbn. lia.
    + unfold finish, copied, after, w_set. rewrite !app_nil_r. reflexivity.
Qed.

(** The whole of it: with enough old elements and enough room, it either completes, having moved the
    common elements and dropped the lost ones, or unwinds from the closure. *)
Definition copy_post {T C} (f : C -> call T C) (k : nat) (rest : list T) (xs : list T -> list T) (ds : list T)
    (s : copying T C) (r : result (copying T C) unit) : Prop :=
  let '(vs, c, b) := gives (repeat f k) (w_clo (c_w s)) in
  if b then r = Done tt (copied c rest vs (xs vs) ds s)
  else exists rest' xs' ds', r = Unwound (copied c rest' vs xs' ds' s).

Lemma times_copy_post {T C} (f : C -> call T C) ot nt :
  nonneg ot -> nonneg nt ->
  (forall a rest s, zlen a = prodZ ot -> c_old s = a ++ rest -> zlen (c_new s) + prodZ nt <= c_cap s ->
     copy_post f (fresh ot nt) rest (fill_missing (elem_at ot a) (indices nt)) (lost ot a nt) s (copy_dim f ot nt s)) ->
  forall k a rest s,
    zlen a = Z.of_nat k * prodZ ot -> c_old s = a ++ rest -> zlen (c_new s) + Z.of_nat k * prodZ nt <= c_cap s ->
    copy_post f (k * fresh ot nt) rest (rows_fill ot nt k a) (rows_lost ot nt k a) s
      (timesM k (copy_dim f ot nt) s).
Proof.
  intros Hot Hnt HC. pose proof (prodZ_nonneg Hot) as HP. pose proof (prodZ_nonneg Hnt) as HQ.
  induction k as [|k IH]; intros a rest s Ha Ho Hc.
  - cbn [Nat.mul]. unfold copy_post. cbn. destruct a; [|discriminate]. cbn in Ho. unfold copied.
    rewrite after_nil, app_nil_r, <- Ho. now destruct s.
  - cbn [timesM Nat.mul]. unfold copy_post. rewrite repeat_app, gives_app.
    set (a1 := firstn (Z.to_nat (prodZ ot)) a). set (a2 := skipn (Z.to_nat (prodZ ot)) a).
    assert (L1 : zlen a1 = prodZ ot) by (apply zlen_firstn; nia).
    assert (L2 : zlen a2 = Z.of_nat k * prodZ ot) by (unfold a2; rewrite zlen_skipn; nia).
    assert (Ho' : c_old s = a1 ++ (a2 ++ rest)) by (rewrite app_assoc; unfold a1, a2; now rewrite firstn_skipn).
    specialize (HC a1 (a2 ++ rest) s L1 Ho' ltac:(nia)). unfold copy_post in HC.
    unfold seqM. destruct (gives (repeat f (fresh ot nt)) (w_clo (c_w s))) as [[v1 c1] b1] eqn:E1.
    destruct (gives_length E1) as [G1 G2]. rewrite repeat_length in *.
    destruct b1.
    2:{ destruct HC as (r' & x' & d' & ->). exists r', x', d'. reflexivity. }
    rewrite HC. specialize (G2 eq_refl).
    specialize (IH a2 rest (copied c1 (a2 ++ rest) v1 (fill_missing (elem_at ot a1) (indices nt) v1) (lost ot a1 nt) s) L2 eq_refl).
    assert (Hc' : zlen (c_new (copied c1 (a2 ++ rest) v1 (fill_missing (elem_at ot a1) (indices nt) v1) (lost ot a1 nt) s)) +
                  Z.of_nat k * prodZ nt <=
                  c_cap (copied c1 (a2 ++ rest) v1 (fill_missing (elem_at ot a1) (indices nt) v1) (lost ot a1 nt) s)).
    { cbn [copied c_new c_cap]. rewrite zlen_app. unfold zlen at 2. rewrite fill_length.
      - rewrite indices_length by auto. nia.
      - rewrite <- fresh_missing; auto. }
    specialize (IH Hc'). unfold copy_post in IH. cbn [copied c_w after w_clo] in IH.
    destruct (gives (repeat f (k * fresh ot nt)) c1) as [[v2 c2] b2] eqn:E2.
    destruct b2.
    + rewrite IH. cbn [rows_fill rows_lost]. fold a1 a2.
      rewrite firstn_app, skipn_app. rewrite <- G2, Nat.sub_diag, firstn_all, skipn_all.
      cbn [firstn skipn]. rewrite app_nil_r. cbn [app].
      unfold copied. cbn [c_new c_cap c_w]. rewrite after_after, <- app_assoc. reflexivity.
    + destruct IH as (r' & x' & d' & ->). eexists _, _, _. unfold copied. cbn [c_new c_cap c_w].
      rewrite after_after, <- app_assoc. reflexivity.
Qed.

Theorem copy_dim_spec {T C} (f : C -> call T C) old new a rest s :
  nonneg old -> nonneg new -> length old = length new -> old <> [] ->
  zlen a = prodZ old -> c_old s = a ++ rest -> zlen (c_new s) + prodZ new <= c_cap s ->
  copy_post f (fresh old new) rest (fill_missing (elem_at old a) (indices new)) (lost old a new) s
    (copy_dim f old new s).
Proof.
  revert new a rest s. induction old as [|o ot IH]; intros [|n nt] a rest s Hold Hnew HL HN Ha Ho Hc; try easy.
  clear HN. inversion Hold as [|? ? Ho0 Hot]; subst. inversion Hnew as [|? ? Hn0 Hnt]; subst.
  pose proof (prodZ_nonneg Hot) as HP. pose proof (prodZ_nonneg Hnt) as HQ.
  rewrite prodZ_cons in Ha, Hc. injection HL as HL.
  cbn [copy_dim]. rewrite !sh_len_prod. set (m := Z.min o n) in *.
  unfold copy_post. rewrite fresh_cons by auto. fold m. rewrite repeat_app, gives_app.
  set (a1 := firstn (Z.to_nat (m * prodZ ot)) a). set (a2 := skipn (Z.to_nat (m * prodZ ot)) a).
  assert (L1 : zlen a1 = m * prodZ ot) by (apply zlen_firstn; nia).
  assert (L2 : zlen a2 = (o - m) * prodZ ot) by (unfold a2; rewrite zlen_skipn; nia).
  assert (Ho' : c_old s = a1 ++ (a2 ++ rest)) by (rewrite app_assoc; unfold a1, a2; now rewrite firstn_skipn).
  (* the common rows *)
  assert (H1 : copy_post f (Z.to_nat m * fresh ot nt) (a2 ++ rest) (rows_fill ot nt (Z.to_nat m) a1)
                 (rows_lost ot nt (Z.to_nat m) a1) s
                 (match ot with [] => copy_move m | _ :: _ => timesM (Z.to_nat m) (copy_dim f ot nt) end s)).
  { destruct ot as [|o1 ot].
    - destruct nt; [|discriminate]. change (fresh [] []) with 0%nat. rewrite Nat.mul_0_r.
      unfold copy_post. cbn [repeat gives]. unfold copy_move. rewrite Ho'. cbn [prodZ fold_right] in *.
      rewrite Z.mul_1_r in *. rewrite zlen_app. rewrite L1. pose proof (@zlen_nonneg _ (a2 ++ rest)).
      destruct (Z.leb_spec m (m + zlen (a2 ++ rest))); [|lia].
      destruct (Z.leb_spec (zlen (c_new s) + m) (c_cap s)); [|lia]. cbn [andb].
      assert (E1 : length a1 = Z.to_nat m) by (unfold zlen in L1; lia).
      rewrite <- E1, skipn_app, firstn_app, Nat.sub_diag, skipn_all, firstn_all. cbn [skipn firstn app].
      rewrite rows_fill_nil, rows_lost_nil, firstn_all, app_nil_r by lia. unfold copied. now rewrite after_nil.
    - destruct nt as [|n1 nt]; [discriminate|].
      apply times_copy_post; auto; try nia. intros. apply IH; auto. discriminate. }
  unfold copy_post in H1. unfold seqM.
  destruct (gives (repeat f (Z.to_nat m * fresh ot nt)) (w_clo (c_w s))) as [[v1 c1] b1] eqn:E1.
  destruct (gives_length E1) as [G1 G2]. rewrite repeat_length in *.
  destruct b1.
  2:{ destruct H1 as (r' & x' & d' & E). exists r', x', d'.
      destruct ot; (rewrite E || (cbn in E |- *; rewrite E)); reflexivity. }
  specialize (G2 eq_refl).
  assert (EQ : (match ot with [] => copy_move m s | _ :: _ => timesM (Z.to_nat m) (copy_dim f ot nt) s end) =
               Done tt (copied c1 (a2 ++ rest) v1 (rows_fill ot nt (Z.to_nat m) a1 v1) (rows_lost ot nt (Z.to_nat m) a1) s))
    by (rewrite <- H1; destruct ot; reflexivity).
  assert (EM : (match ot with [] => copy_move m | _ :: _ => timesM (Z.to_nat m) (copy_dim f ot nt) end) s =
               (match ot with [] => copy_move m s | _ :: _ => timesM (Z.to_nat m) (copy_dim f ot nt) s end))
    by (destruct ot; reflexivity).
  rewrite EM, EQ. clear EM EQ H1.
  set (s1 := copied c1 (a2 ++ rest) v1 (rows_fill ot nt (Z.to_nat m) a1 v1) (rows_lost ot nt (Z.to_nat m) a1) s).
  (* the rows that disappear *)
  assert (H2 : (if m <? o then copy_drop ((o - m) * prodZ ot) else ret tt) s1 =
               Done tt (mkCopy rest (c_new s1) (c_cap s1) (w_drop a2 (c_w s1)))).
  { destruct (Z.ltb_spec m o) as [Hlt|Hge].
    - unfold copy_drop. cbn [s1 copied c_old]. rewrite zlen_app, L2. pose proof (@zlen_nonneg _ rest).
      destruct (Z.leb_spec ((o - m) * prodZ ot) ((o - m) * prodZ ot + zlen rest)); [|lia].
      assert (E : Z.to_nat ((o - m) * prodZ ot) = length a2) by (unfold zlen in L2; lia).
      rewrite E, skipn_app, firstn_app, Nat.sub_diag, skipn_all, firstn_all. cbn [skipn firstn app].
      now rewrite app_nil_r.
    - assert (a2 = []) as E by (destruct a2; auto; unfold zlen in L2; cbn [length] in L2; nia).
      unfold s1, ret, w_drop, copied, after. rewrite E.
      cbn [app c_new c_cap c_w w_clo w_made w_used w_dropped]. rewrite app_nil_r. reflexivity. }
  rewrite H2. clear H2.
  assert (Lnew : zlen (rows_fill ot nt (Z.to_nat m) a1 v1) = m * prodZ nt).
  { pose proof (@fill_cons T m ot m nt a1 v1 [] Hot Hnt) as FC.
    rewrite Z.min_id, app_nil_r in FC. rewrite app_nil_r in FC.
    rewrite <- FC; try lia; try (cbn; nia). unfold zlen. rewrite fill_length.
    - rewrite indices_length by (constructor; auto; lia). rewrite prodZ_cons. nia.
    - rewrite <- (@fresh_missing _ (m :: ot)) by (rewrite prodZ_cons; exact L1).
      rewrite fresh_cons, Z.min_id by (auto; lia). nia. }
  rewrite copy_new_spec.
  2:{ cbn [c_new c_cap s1 copied]. rewrite zlen_app, Lnew. nia. }
  cbn [c_w w_drop w_clo s1 copied after c_old c_new c_cap].
  destruct (gives (repeat f (Z.to_nat ((n - m) * prodZ nt))) c1) as [[v2 c2] b2] eqn:E2.
  destruct (gives_length E2) as [G3 G4]. rewrite repeat_length in *.
  destruct b2; cbn [finish].
  - specialize (G4 eq_refl). rewrite fill_cons; auto; try (fold m; lia). rewrite lost_cons; auto. fold m a2.
    assert (EF : rows_fill ot nt (Z.to_nat m) a v1 = rows_fill ot nt (Z.to_nat m) a1 v1) by (apply rows_fill_firstn; auto; lia).
    assert (EL : rows_lost ot nt (Z.to_nat m) a = rows_lost ot nt (Z.to_nat m) a1) by (apply rows_lost_firstn; auto; lia).
    rewrite EF, EL. unfold copied, w_drop, after. cbn [c_new c_cap c_w w_made w_used w_dropped w_clo].
    rewrite <- !app_assoc, ?app_nil_r. reflexivity.
  - eexists _, _, _. unfold copied, w_drop, after. cbn [c_new c_cap c_w w_made w_used w_dropped w_clo].
    rewrite <- !app_assoc. reflexivity.
Qed.
