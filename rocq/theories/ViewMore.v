(** Consequences of the view facts in the form used by the property files. *)
From Verif Require Import Base Spec SpecFacts Shape Mapping Index View Wf MappingFacts MapOps
  ReshapeFacts IndexFacts ViewFacts.
Unset Strict Implicit.

Lemma shows_reads_lemma T (mem : list T) v v' f idx :
  shows v v' f -> in_bounds (v_dims v') idx ->
  in_bounds (v_dims v) (f idx) /\ v_get mem v' idx = v_get mem v (f idx).
Proof. intros HS HI. split; [now apply HS|]. eapply v_get_shows; eauto. Qed.

Lemma dense_addr p ty dims idx :
  in_bounds dims idx -> v_addr (mkView p (DenseM ty dims)) idx = p + flat dims idx.
Proof.
  intros H. pose proof (@whole_addr ty dims idx H) as E. unfold v_addr, whole in *.
  cbn [v_ptr v_map] in *. lia.
Qed.

Lemma dense_get T (mem : list T) ty dims p idx :
  nonneg dims -> typed ty dims -> ty_wf ty ->
  0 <= p -> p + prodZ dims <= Z.of_nat (length mem) -> in_bounds dims idx ->
  exists x, v_get mem (mkView p (DenseM ty dims)) idx = Ok x /\
            nth_error mem (Z.to_nat (p + flat dims idx)) = Some x.
Proof.
  intros HN HT HW Hp Hl HI. rewrite v_get_in by exact HI. rewrite dense_addr by auto.
  apply read_ok. apply flat_bounds in HI. lia.
Qed.

Lemma flat_bijection dims :
  nonneg dims ->
  (forall idx, in_bounds dims idx -> 0 <= flat dims idx < prodZ dims) /\
  (forall i j, in_bounds dims i -> in_bounds dims j -> flat dims i = flat dims j -> i = j) /\
  (forall k, 0 <= k < prodZ dims -> exists idx, in_bounds dims idx /\ flat dims idx = k) /\
  map (flat dims) (indices dims) = zrange (prodZ dims).
Proof.
  intros HN. split; [intros; now apply flat_bounds|]. split; [intros; eapply flat_inj; eauto|].
  split.
  - intros k Hk. exists (unflat dims k). split; [now apply unflat_in_bounds|now apply flat_unflat].
  - rewrite indices_unflat by auto. rewrite map_map. rewrite <- (map_id (zrange (prodZ dims))) at 2.
    apply map_ext_in. intros k Hk. apply in_zrange in Hk. now apply flat_unflat.
Qed.

Lemma linear_get T (mem : list T) v k :
  wf_map (v_map v) -> 0 <= k < prodZ (v_dims v) ->
  v_get_linear mem v k = v_get mem v (nth (Z.to_nat k) (indices (v_dims v)) []).
Proof.
  intros Hw Hk. pose proof (wf_nonneg Hw) as HN. fold (v_dims v) in HN.
  rewrite v_get_linear_spec by (auto; lia). destruct (Z.ltb_spec k (prodZ (v_dims v))); [|lia].
  rewrite indices_nth by (auto; lia). now rewrite Z2Nat.id by lia.
Qed.

Lemma checked_get T (mem : list T) v :
  valid_view (Z.of_nat (length mem)) v ->
  (forall idx, in_bounds (v_dims v) idx -> exists x, v_get mem v idx = Ok x) /\
  (forall idx, Forall (fun i => 0 <= i) idx -> ~ in_bounds (v_dims v) idx -> v_get mem v idx = Panic) /\
  (forall k, 0 <= k < prodZ (v_dims v) -> exists x, v_get_linear mem v k = Ok x) /\
  (forall k, prodZ (v_dims v) <= k -> v_get_linear mem v k = Panic).
Proof.
  intros Hv. pose proof (vv_wf Hv) as Hw. pose proof (wf_nonneg Hw) as HN. fold (v_dims v) in HN.
  assert (G : forall idx, in_bounds (v_dims v) idx -> exists x, v_get mem v idx = Ok x).
  { intros idx HI. rewrite v_get_in by auto. destruct (read_ok (vv_range Hv HI)) as (x & E & _). eauto. }
  split; [exact G|]. split; [intros; now apply v_get_out|]. split.
  - intros k Hk. rewrite v_get_linear_spec by (auto; lia).
    destruct (Z.ltb_spec k (prodZ (v_dims v))); [|lia]. apply G. now apply unflat_in_bounds.
  - intros k Hk. pose proof (@prodZ_nonneg _ HN). rewrite v_get_linear_spec by (auto; lia).
    destruct (Z.ltb_spec k (prodZ (v_dims v))); [lia|reflexivity].
Qed.

Lemma view_ok v xs :
  wf_map (v_map v) -> Forall ix_arg xs -> Forall (fun d => d <= usize_max) (v_dims v) ->
  length xs = length (v_dims v) -> Forall2 ix_ok (v_dims v) xs ->
  exists v', v_view v xs = Ok v' /\ v_dims v' = sub_dims (v_dims v) xs /\
    wf_map (v_map v') /\ shows v v' (sub_index (v_dims v) xs).
Proof.
  intros Hw HA HS HL HO. destruct (v_view_ok Hw HA HS HL HO) as (v' & E & Hd & _ & _ & Hw' & HSh).
  exists v'. auto.
Qed.

Lemma view_panic_iff v xs :
  wf_map (v_map v) -> Forall ix_arg xs -> Forall (fun d => d <= usize_max) (v_dims v) ->
  length xs = length (v_dims v) ->
  (v_view v xs = Panic <-> ~ Forall2 ix_ok (v_dims v) xs) /\
  ((exists v', v_view v xs = Ok v') <-> Forall2 ix_ok (v_dims v) xs).
Proof.
  intros Hw HA HS HL. destruct (ix_ok_dec (v_dims v) xs) as [HO|HO].
  - destruct (v_view_ok Hw HA HS HL HO) as (v' & E & _). rewrite E. split; split; intros; auto.
    + discriminate.
    + contradiction.
    + eauto.
  - rewrite v_view_panic by auto. split; split; intros; auto.
    + destruct H as [? H]. discriminate.
    + contradiction.
Qed.

Lemma step_positions d lo hi s :
  ix_ok d (IxStep lo hi s) -> bound_arg lo -> bound_arg hi ->
  let a := range_lo lo in let b := range_hi d hi in
  let ps := ix_positions d (IxStep lo hi s) in
  let n := (b - a + Z.abs s - 1) / Z.abs s in
  Z.of_nat (length ps) = n /\
  (forall k, 0 <= k < n ->
     nth (Z.to_nat k) ps 0 = (if s >? 0 then a + k * s else b - 1 + k * s) /\
     a <= nth (Z.to_nat k) ps 0 < b) /\
  (s > 0 -> forall p, In p ps <-> a <= p < b /\ (p - a) mod s = 0) /\
  (s < 0 -> forall p, In p ps <-> a <= p < b /\ (b - 1 - p) mod (- s) = 0).
Proof.
  intros HO HL HH a b ps n. pose proof HO as [Hr Hs].
  assert (Ha : 0 <= range_lo lo) by (destruct lo; unfold bound_arg, usize in HL; simpl; lia).
  assert (Hd : 0 <= d) by lia.
  assert (HP : forall p, In p (positions a b) <-> a <= p < b).
  { intros p. unfold positions. rewrite in_map_iff. split.
    - intros (q & <- & Hq). apply in_zrange in Hq. lia.
    - intros Hp. exists (p - a). split; [lia|]. apply in_zrange. lia. }
  assert (HIp : s > 0 -> forall p, In p ps <-> a <= p < b /\ (p - a) mod s = 0).
  { intros S p. unfold ps. cbn [ix_positions]. destruct (Z.gtb_spec s 0); [|lia]. fold a b.
    rewrite filter_In, HP, Z.eqb_eq. tauto. }
  assert (HIn : s < 0 -> forall p, In p ps <-> a <= p < b /\ (b - 1 - p) mod (- s) = 0).
  { intros S p. unfold ps. cbn [ix_positions]. destruct (Z.gtb_spec s 0); [lia|]. fold a b.
    rewrite filter_In, <- in_rev, HP, Z.eqb_eq. tauto. }
  assert (HC : Z.of_nat (length ps) = n) by (apply (ix_positions_length Hd HO)).
  split; [exact HC|]. split; [|split; auto].
  intros k Hk. split.
  - unfold ps. rewrite (ix_positions_nth Hd HO) by exact Hk. cbn [ix_first ix_step]. fold a b.
    destruct (Z.gtb_spec s 0), (Z.ltb_spec s 0); try lia; simpl; [lia|].
    destruct (Z.leb_spec b a); simpl; [|lia]. exfalso.
    unfold n in Hk. assert (b = a) by (unfold a, b; lia). rewrite H2 in Hk.
    rewrite Z.div_small in Hk by lia. lia.
  - assert (I : In (nth (Z.to_nat k) ps 0) ps) by (apply nth_In; lia).
    destruct (Z.lt_trichotomy s 0) as [S|[S|S]]; [|lia|].
    + now apply HIn in I.
    + apply HIp in I; [tauto|lia].
Qed.

Lemma axis_at_ok v a i k :
  wf_map (v_map v) -> is_axis a (length (v_dims v)) i -> 0 <= k < nth i (v_dims v) 0 ->
  exists v', v_axis_at v a k = Ok v' /\ v_dims v' = remove_at i (v_dims v) /\
    wf_map (v_map v') /\ shows v v' (fun idx => insert_at i k idx).
Proof.
  intros Hw HA Hk. destruct (v_axis_at_ok Hw HA Hk) as (v' & E & Hd & _ & _ & Hw' & HS). exists v'. auto.
Qed.

Lemma is_axis_unique a r i j : is_axis a r i -> is_axis a r j -> i = j.
Proof. intros H1 H2. apply ax_index_ok in H1. apply ax_index_ok in H2. congruence. Qed.

Lemma axis_at_panic_iff v a k :
  wf_map (v_map v) -> 0 <= k ->
  (v_axis_at v a k = Panic <->
   ~ exists i, is_axis a (length (v_dims v)) i /\ k < nth i (v_dims v) 0).
Proof.
  intros Hw Hk. split.
  - intros HP (i & HA & Hi). destruct (v_axis_at_ok Hw HA (conj Hk Hi)) as (v' & E & _). congruence.
  - intros HN. apply v_axis_at_panic; auto. intros i HA. apply Z.nlt_ge. intros C. apply HN. eauto.
Qed.

Lemma split_ok v a i mid :
  wf_map (v_map v) -> is_axis a (length (v_dims v)) i -> 0 <= mid <= nth i (v_dims v) 0 ->
  exists v1 v2, v_split_axis_at v a mid = Ok (v1, v2) /\
    v_dims v1 = upd (v_dims v) i mid /\ v_dims v2 = upd (v_dims v) i (nth i (v_dims v) 0 - mid) /\
    wf_map (v_map v1) /\ wf_map (v_map v2) /\
    shows v v1 (fun idx => idx) /\ shows v v2 (fun idx => upd idx i (nth i idx 0 + mid)).
Proof.
  intros Hw HA Hm.
  destruct (v_split_ok Hw HA Hm) as (v1 & v2 & E & H1 & H2 & _ & _ & _ & _ & W1 & W2 & S1 & S2).
  exists v1, v2. do 6 (split; [auto|]). exact S2.
Qed.

Lemma split_panic_iff v a mid :
  wf_map (v_map v) -> 0 <= mid ->
  (v_split_axis_at v a mid = Panic <->
   ~ exists i, is_axis a (length (v_dims v)) i /\ mid <= nth i (v_dims v) 0).
Proof.
  intros Hw Hk. split.
  - intros HP (i & HA & Hi). destruct (v_split_ok Hw HA (conj Hk Hi)) as (v1 & v2 & E & _). congruence.
  - intros HN. apply v_split_panic; auto. intros i HA. apply Z.nle_gt. intros C. apply HN. eauto.
Qed.

Lemma in_bounds_upd dims idx i d x :
  in_bounds dims idx -> 0 <= x < d -> in_bounds (upd dims i d) (upd idx i x).
Proof.
  intros H. revert i. induction H; intros [|i] Hx; simpl; try constructor; auto.
  now apply IHForall2.
Qed.

Lemma in_bounds_nth dims idx i :
  in_bounds dims idx -> (i < length dims)%nat -> 0 <= nth i idx 0 < nth i dims 0.
Proof. intros H. revert i. induction H; intros [|i] Hi; simpl in *; try lia. apply IHForall2. lia. Qed.

Lemma split_partition n v a i mid v1 v2 :
  valid_view n v -> is_axis a (length (v_dims v)) i -> 0 <= mid ->
  v_split_axis_at v a mid = Ok (v1, v2) ->
  (forall idx, in_bounds (v_dims v) idx ->
     (in_bounds (v_dims v1) idx /\ nth i idx 0 < mid) \/
     (in_bounds (v_dims v2) (upd idx i (nth i idx 0 - mid)) /\ mid <= nth i idx 0)) /\
  (forall i1 i2, in_bounds (v_dims v1) i1 -> in_bounds (v_dims v2) i2 -> v_addr v1 i1 <> v_addr v2 i2).
Proof.
  intros Hv HA Hm H. pose proof (vv_wf Hv) as Hw. assert (Hi : (i < length (v_dims v))%nat) by apply HA.
  destruct (Z.le_gt_cases mid (nth i (v_dims v) 0)) as [Hle|Hgt].
  2:{ rewrite v_split_panic in H; auto; [discriminate|]. intros j HJ.
      rewrite (is_axis_unique HJ HA). lia. }
  destruct (split_ok Hw HA (conj Hm Hle)) as (w1 & w2 & E & H1 & H2 & W1 & W2 & S1 & S2).
  rewrite H in E. injection E as <- <-. split.
  - intros idx HI. pose proof (in_bounds_nth HI Hi) as B.
    assert (HL : (i < length idx)%nat) by (apply in_bounds_length in HI; lia).
    destruct (Z.lt_ge_cases (nth i idx 0) mid); [left|right]; (split; [|auto]).
    + rewrite H1. rewrite <- (@upd_same Z idx i 0) by lia. apply in_bounds_upd; auto. lia.
    + rewrite H2. apply in_bounds_upd; auto. lia.
  - intros i1 i2 I1 I2 E. destruct (S1 _ I1) as [B1 A1]. destruct (S2 _ I2) as [B2 A2].
    rewrite A1, A2 in E. apply (vv_inj Hv) in E; auto.
    rewrite H1 in I1. rewrite H2 in I2.
    assert (L1 : (i < length (upd (v_dims v) i mid))%nat) by (rewrite upd_length; lia).
    assert (L2 : (i < length (upd (v_dims v) i (nth i (v_dims v) 0 - mid)%Z))%nat) by (rewrite upd_length; lia).
    pose proof (in_bounds_nth I1 L1) as C1. pose proof (in_bounds_nth I2 L2) as C2.
    rewrite upd_nth_same in C1 by lia. rewrite upd_nth_same in C2 by lia.
    apply in_bounds_length in I2. rewrite upd_length in I2.
    apply (f_equal (fun l => nth i l 0)) in E. rewrite upd_nth_same in E by lia. lia.
Qed.

Lemma permute_ok v p perm :
  wf_map (v_map v) -> (length (v_dims v) < 64)%nat -> perm_matches p perm ->
  perm_of (length (v_dims v)) perm ->
  exists v' f, v_permute v p perm = Ok v' /\ v_dims v' = pick perm (v_dims v) /\
    wf_map (v_map v') /\ shows v v' f /\
    (forall idx, in_bounds (v_dims v') idx -> pick perm (f idx) = idx).
Proof.
  intros Hw Hr HM HP. destruct (v_permute_ok Hw Hr HM HP) as (v' & E & Hd & _ & _ & Hw' & HS).
  exists v', (unpick perm). do 4 (split; [auto|]). intros idx HI. eapply pick_unpick; eauto.
  apply in_bounds_length in HI. rewrite Hd, pick_length in HI. rewrite HI. now apply perm_of_length.
Qed.

Lemma permute_panic_iff v p perm :
  wf_map (v_map v) -> (length (v_dims v) < 64)%nat -> Forall (fun q => 0 <= q) perm ->
  perm_matches p perm ->
  (v_permute v p perm = Panic <-> ~ perm_of (length (v_dims v)) perm).
Proof.
  intros Hw Hr HF HM. split.
  - intros H HP. destruct (v_permute_ok Hw Hr HM HP) as (v' & E & _). congruence.
  - intros. now apply v_permute_panic.
Qed.

Lemma constant_permutation xs perm n l :
  perm_matches (PermTuple xs) perm -> perm_of n perm -> Forall (fun x => x <> PDyn) xs ->
  (perm_arg_layout (PermTuple xs) l = l <-> l = Strided \/ perm = map Z.of_nat (seq 0 n)) /\
  (perm_arg_layout (PermTuple xs) l = l \/ perm_arg_layout (PermTuple xs) l = Strided).
Proof.
  intros HM HP HC. cbn [perm_arg_layout].
  assert (G : perm_layout xs l = l \/ perm_layout xs l = Strided).
  { destruct xs as [|x [|y xs]]; cbn [perm_layout]; auto.
    unfold sh_layout. destruct (perm_init _) as [|[|]]; auto. }
  split; [|exact G]. split.
  - intros E. destruct l; [right|now left].
    destruct (perm_dense_identity HM HP E) as [_ ->]. reflexivity.
  - intros [->|E]; [destruct G; auto|]. eapply perm_identity_dense; eauto.
Qed.

Lemma reorder_ok v :
  wf_map (v_map v) ->
  exists v', v_reorder v = Ok v' /\ v_dims v' = rev (v_dims v) /\
    wf_map (v_map v') /\ shows v v' (fun idx => rev idx).
Proof. intros Hw. destruct (v_reorder_ok Hw) as (v' & E & Hd & _ & _ & Hw' & HS). exists v'. auto. Qed.

Lemma usize_nonneg l : Forall usize l -> nonneg l.
Proof. apply Forall_impl. intros x [H _]. exact H. Qed.

Lemma reshape_sound T (mem : list T) v ty req v' :
  wf_map (v_map v) -> Forall usize req -> ty_of_len ty (length req) ->
  v_reshape v ty req = Ok v' ->
  prodZ (v_dims v') = prodZ (v_dims v) /\ wf_map (v_map v') /\
  (forall k, 0 <= k < prodZ (v_dims v) -> v_get_linear mem v' k = v_get_linear mem v k) /\
  shows v v' (fun idx => unflat (v_dims v) (flat (v_dims v') idx)).
Proof.
  intros Hw HU [HW HR] H.
  destruct (v_reshape_sound Hw (usize_nonneg HU) HW HR H) as (E & _ & _ & Hw' & HP & HS).
  do 2 (split; [auto|]). split; [|exact HS]. intros k Hk.
  pose proof (wf_nonneg Hw') as HN'. fold (v_dims v') in HN'.
  rewrite !v_get_linear_spec by (auto; lia). rewrite HP.
  destruct (Z.ltb_spec k (prodZ (v_dims v))); [|lia].
  rewrite (v_get_shows mem HS) by (apply unflat_in_bounds; auto; lia).
  rewrite flat_unflat by (auto; lia). reflexivity.
Qed.

Lemma reshape_view_dims v ty req v' :
  wf_map (v_map v) -> Forall usize req -> ty_of_len ty (length req) ->
  v_reshape v ty req = Ok v' -> sh_reshape (v_dims v) ty req = Ok (v_dims v') /\
  prodZ (v_dims v') = prodZ (v_dims v).
Proof.
  intros Hw HU [HW HR] H.
  destruct (v_reshape_sound Hw (usize_nonneg HU) HW HR H) as (E & _ & _ & Hw' & HP & HS). auto.
Qed.

Lemma dense_reshape T (mem : list T) p ty0 dims ty req nd :
  nonneg dims -> typed ty0 dims -> ty_wf ty0 -> Forall usize req -> ty_of_len ty (length req) ->
  sh_reshape dims ty req = Ok nd ->
  exists v', v_reshape (mkView p (DenseM ty0 dims)) ty req = Ok v' /\ v_dims v' = nd /\
    v_layout v' = Dense /\ wf_map (v_map v') /\
    (forall k, 0 <= k < prodZ dims ->
       v_get_linear mem v' k = v_get_linear mem (mkView p (DenseM ty0 dims)) k).
Proof.
  intros HN HT HW HU HL H.
  assert (E : v_reshape (mkView p (DenseM ty0 dims)) ty req = Ok (mkView p (DenseM ty nd))).
  { unfold v_reshape. cbn [v_map m_reshape]. rewrite H. reflexivity. }
  eexists. split; [exact E|].
  destruct (@reshape_sound T mem (mkView p (DenseM ty0 dims)) ty req (mkView p (DenseM ty nd)))
    as (_ & Hw' & HG & _); auto.
  now apply wf_whole.
Qed.

Lemma linear_offset_0 m : m_linear_offset m 0 = 0.
Proof.
  destruct m as [|ty dims strides]; cbn [m_linear_offset]; auto.
  assert (G : forall n, linear_loop n dims strides 0 0 = 0); [|apply G].
  induction n; cbn [linear_loop]; auto.
  replace (0 + nth n strides 0 * (0 mod nth n dims 0)) with 0.
  2:{ destruct (Z.eq_dec (nth n dims 0) 0) as [->|]; [rewrite Zmod_0_r|rewrite Z.mod_0_l by auto]; lia. }
  replace (0 / nth n dims 0) with 0; auto.
Qed.

Lemma reshape_complete v ty req nd p2 m2 :
  wf_map (v_map v) -> ~ In 1 (v_dims v) -> Forall usize req -> ty_of_len ty (length req) ->
  sh_reshape (v_dims v) ty req = Ok nd ->
  wf_map m2 -> m_dims m2 = nd ->
  (forall k, 0 <= k < prodZ (v_dims v) ->
     p2 + m_linear_offset m2 k = v_ptr v + m_linear_offset (v_map v) k) ->
  exists v', v_reshape v ty req = Ok v'.
Proof.
  intros Hw H1 HU [HW HR] HS Hw2 HD HC.
  edestruct (@sh_reshape_sound) as (L & N & T & P);
    [exact (wf_nonneg Hw)|exact (usize_nonneg HU)|exact HR|exact HS|].
  destruct (@m_reshape_complete (v_map v) ty req nd m2) as [m' E]; auto.
  2:{ exists (mkView (v_ptr v) m'). unfold v_reshape. rewrite E. reflexivity. }
  intros k Hk. unfold m_len in Hk. rewrite sh_len_prod in Hk. fold (v_dims v) in Hk.
  pose proof (HC 0 ltac:(lia)) as H0. rewrite !linear_offset_0 in H0. specialize (HC k Hk). lia.
Qed.

Lemma reshape_exact v ty req nd :
  wf_map (v_map v) -> 0 < prodZ (v_dims v) -> Forall usize req -> ty_of_len ty (length req) ->
  sh_reshape (v_dims v) ty req = Ok nd ->
  ((exists v', v_reshape v ty req = Ok v') <->
   ((exists p2 m2, wf_map m2 /\ m_dims m2 = nd /\
       forall k, 0 <= k < prodZ (v_dims v) ->
         p2 + m_linear_offset m2 k = v_ptr v + m_linear_offset (v_map v) k) /\
    forall i, (S i < length (v_dims v))%nat -> nth i (v_dims v) 0 = 1 ->
      (exists j, (j <= length nd)%nat /\ prodZ (skipn j nd) = prodZ (skipn (S i) (v_dims v))) \/
      nth i (m_strides (v_map v)) 0 = nth (S i) (m_strides (v_map v)) 0 * nth (S i) (v_dims v) 0)).
Proof.
  intros Hw HPos HU [HW HR] HS.
  edestruct (@sh_reshape_sound) as (L & N & T & P);
    [exact (wf_nonneg Hw)|exact (usize_nonneg HU)|exact HR|exact HS|].
  pose proof (@m_reshape_exact (v_map v) ty req nd Hw HPos (usize_nonneg HU) HW HR HS T N P) as X.
  unfold one_ok in X. fold (v_dims v) in X.
  assert (LN : m_len (v_map v) = prodZ (v_dims v)) by (unfold m_len; apply sh_len_prod).
  rewrite LN in X. split.
  - intros [v' E]. unfold v_reshape in E. destruct (m_reshape (v_map v) ty req) as [m'| | |] eqn:EM; try discriminate E.
    destruct (proj1 X) as [(m2 & A & B & C) D]; [eauto|]. split; [|exact D].
    exists (v_ptr v), m2. split; [auto|split; [auto|]]. intros k Hk. now rewrite C.
  - intros [(p2 & m2 & A & B & C) D]. destruct (proj2 X) as [m' E].
    + split; [|exact D]. exists m2. split; [auto|split; [auto|]]. intros k Hk.
      pose proof (C 0 ltac:(lia)) as H0. rewrite !linear_offset_0 in H0. specialize (C k Hk). lia.
    + exists (mkView (v_ptr v) m'). unfold v_reshape. rewrite E. reflexivity.
Qed.

Lemma reshape_empty v ty req nd :
  wf_map (v_map v) -> prodZ (v_dims v) = 0 -> Forall usize req -> ty_of_len ty (length req) ->
  sh_reshape (v_dims v) ty req = Ok nd ->
  exists v', v_reshape v ty req = Ok v'.
Proof.
  intros Hw H0 HU [HW HR] HS.
  edestruct (@sh_reshape_sound) as (L & N & T & P);
    [exact (wf_nonneg Hw)|exact (usize_nonneg HU)|exact HR|exact HS|].
  destruct (@m_reshape_empty (v_map v) ty req nd) as [m' E]; auto; [now rewrite P|].
  exists (mkView (v_ptr v) m'). unfold v_reshape. rewrite E. reflexivity.
Qed.

Lemma reshape_incomplete : exists v m2,
  wf_map (v_map v) /\ valid_view 6 v /\ wf_map m2 /\ m_dims m2 = [6] /\
  (exists w, v_permute (whole (STuple [DDyn; DDyn; DDyn]) [1; 2; 3]) PermDyn [1; 0; 2] = Ok w /\ v = w) /\
  (forall k, 0 <= k < 6 -> m_linear_offset m2 k = v_ptr v + m_linear_offset (v_map v) k) /\
  v_flatten v = Panic.
Proof.
  assert (VW : valid_view 6 (whole (STuple [DDyn; DDyn; DDyn]) [1; 2; 3])).
  { apply whole_valid; repeat constructor; simpl; lia. }
  eexists (mkView 0 (StridedM (STuple [DDyn; DDyn; DDyn]) [2; 1; 3] [3; 6; 1])), (DenseM (STuple [DDyn]) [6]).
  split; [repeat constructor; simpl; lia|]. split.
  { apply (@v_step_inv 6 (whole (STuple [DDyn; DDyn; DDyn]) [1; 2; 3]) (whole (STuple [DDyn; DDyn; DDyn]) [1; 2; 3])
             (OpPermute PermDyn [1; 0; 2])); [unfold usize_max; lia| | |vm_compute; reflexivity].
    - constructor; auto; [repeat constructor; vm_compute; discriminate|].
      exists (fun idx => idx). intros idx H. auto.
    - split; [repeat constructor; vm_compute; discriminate|exact I]. }
  split; [repeat constructor; simpl; lia|]. split; [reflexivity|].
  split; [eexists; split; [vm_compute; reflexivity|reflexivity]|]. split; [|vm_compute; reflexivity].
  intros k Hk. assert (H : In k (zrange 6)) by (now apply in_zrange). clear Hk.
  change (In k [0; 1; 2; 3; 4; 5]) in H. simpl in H. repeat (destruct H as [<-|H]; [reflexivity|]). contradiction.
Qed.

Lemma reshape_same v :
  wf_map (v_map v) -> fits (v_dims v) -> ~ In usize_max (v_dims v) ->
  exists v', v_reshape v (v_ty v) (v_dims v) = Ok v' /\ v_dims v' = v_dims v /\
    v_ty v' = v_ty v /\ shows v v' (fun idx => idx).
Proof.
  intros Hw HF HM. destruct (@m_reshape_same (v_map v) (v_ty v) Hw (wf_typed Hw) HF HM) as (m' & E & ED & ET & EL).
  assert (ER : v_reshape v (v_ty v) (v_dims v) = Ok (mkView (v_ptr v) m')).
  { unfold v_reshape. change (v_dims v) with (m_dims (v_map v)). rewrite E. reflexivity. }
  exists (mkView (v_ptr v) m'). split; [exact ER|]. split; [exact ED|]. split; [exact ET|].
  assert (HR : match sh_rank (v_ty v) with Some k => length (v_dims v) = k | None => True end).
  { pose proof (wf_typed Hw) as HT. unfold v_ty, v_dims. destruct (m_ty (v_map v)); simpl; auto.
    simpl in HT. now apply Forall2_len in HT. }
  destruct (v_reshape_sound Hw (wf_nonneg Hw) (wf_ty Hw) HR ER) as (_ & _ & _ & Hw' & _ & HS).
  intros idx Hidx. destruct (HS idx Hidx) as [Hb EA].
  change (in_bounds (m_dims m') idx) in Hidx. rewrite ED in Hidx.
  replace (unflat (v_dims v) (flat (v_dims (mkView (v_ptr v) m')) idx)) with idx in *; auto.
  change (v_dims (mkView (v_ptr v) m')) with (m_dims m'). unfold v_dims. rewrite ED.
  symmetry. now apply unflat_flat.
Qed.

(** ... and only then, for views of fewer than [usize::MAX] elements. *)
Lemma reshape_same_exact v :
  wf_map (v_map v) -> const_small (v_ty v) -> prodZ (v_dims v) < usize_max ->
  (fits (v_dims v) /\ ~ In usize_max (v_dims v)) \/ v_reshape v (v_ty v) (v_dims v) = Panic.
Proof.
  intros Hw HC HP. destruct (@sh_reshape_iff (v_dims v) (v_ty v) (v_dims v) (wf_typed Hw) HC) as [HI HO].
  destruct HO as [EP|(d & ED)].
  - right. unfold v_reshape, v_dims, v_ty in *. destruct (v_map v) as [ty dims|ty dims strides]; cbn [m_reshape m_dims m_ty] in *; now rewrite EP.
  - left. apply HI in ED. destruct ED as [F [(H0 & _)|(H1 & _ & HK & _)]].
    + assert (N : ~ In usize_max (v_dims v)) by (apply (count_occ_not_In Z.eq_dec); exact H0).
      split; [|exact N]. rewrite known_no in F; auto.
    + exfalso. destruct (request_cases (v_dims v)) as [[Hno Hc]|(a & b & E & Ha & [[Hb Hc]|[Hb Hc]])]; try (unfold v_dims in *; lia).
      rewrite E, known_one in HK by auto. rewrite E, prodZ_app, prodZ_cons in HP. rewrite prodZ_app in HK.
      pose proof (wf_nonneg Hw) as HN. unfold v_dims in E. rewrite E in HN. apply nonneg_app in HN. destruct HN as [Na Nb].
      inversion Nb as [|? ? _ Nb2]; subst. pose proof (prodZ_nonneg Na). pose proof (prodZ_nonneg Nb2).
      assert (0 < usize_max) by reflexivity. nia.
Qed.

Lemma reshape_same_fails : exists v,
  valid_view 0 v /\ v_dims v = [usize_max; 0] /\ v_reshape v (v_ty v) (v_dims v) = Panic /\
  v_row v 0 = Panic.
Proof.
  exists (whole (STuple [DDyn; DDyn]) [usize_max; 0]). split.
  { apply whole_valid; repeat constructor; simpl; try (vm_compute; discriminate); lia. }
  split; [reflexivity|]. split; vm_compute; reflexivity.
Qed.

Lemma remap_strided v ty :
  wf_map (v_map v) -> typed ty (v_dims v) -> ty_wf ty ->
  exists v', v_remap v Strided ty = Ok v' /\ v_dims v' = v_dims v /\ v_layout v' = Strided /\
    wf_map (v_map v') /\ shows v v' (fun idx => idx).
Proof.
  intros Hw HT HW. destruct (v_remap_strided Hw HT HW) as (v' & E & Hd & _ & L & Hw' & HS). exists v'. auto.
Qed.

Lemma remap_dense v ty :
  wf_map (v_map v) -> typed ty (v_dims v) -> ty_wf ty ->
  (is_contiguous (v_map v) = true ->
   exists v', v_remap v Dense ty = Ok v' /\ v_dims v' = v_dims v /\ v_layout v' = Dense /\
     wf_map (v_map v') /\ shows v v' (fun idx => idx)) /\
  (is_contiguous (v_map v) = false -> v_remap v Dense ty = Panic).
Proof.
  intros Hw HT HW. destruct (v_remap_dense Hw HT HW) as [H1 H2]. pose proof (is_contiguous_iff Hw) as HC. split.
  - intros C. apply HC in C. destruct (H1 C) as (v' & E & Hd & _ & L & Hw' & HS). exists v'. auto.
  - intros C. apply H2. intros E. apply HC in E. congruence.
Qed.

Lemma contiguous_addr v :
  wf_map (v_map v) -> is_contiguous (v_map v) = true ->
  forall idx, in_bounds (v_dims v) idx -> v_addr v idx = v_ptr v + flat (v_dims v) idx.
Proof.
  intros Hw HC idx HI. apply (is_contiguous_iff Hw) in HC. apply in_bounds_length in HI.
  rewrite v_addr_dot by auto. rewrite HC. unfold v_dims. now rewrite dot_row_major.
Qed.

Lemma dot_ext dims s r :
  Forall (fun d => 2 <= d) dims -> length s = length dims -> length r = length dims ->
  (forall idx, in_bounds dims idx -> dot s idx = dot r idx) -> s = r.
Proof.
  intros HD. revert s r. induction HD as [|d ds Hd HD IH]; intros [|x s] [|y r] Hs Hr H; simpl in *; try lia; auto.
  assert (Z0 : in_bounds ds (repeat 0 (length ds))).
  { clear - HD. unfold in_bounds. induction HD; simpl; constructor; auto. lia. }
  assert (D0 : forall l n, dot l (repeat 0 n) = 0).
  { induction l; intros [|n]; simpl; auto. rewrite IHl. lia. }
  f_equal.
  - specialize (H (1 :: repeat 0 (length ds))). simpl in H. rewrite !D0 in H.
    enough (x * 1 + 0 = y * 1 + 0) by lia. apply H. constructor; auto. lia.
  - apply IH; try lia. intros idx HI. specialize (H (0 :: idx)). simpl in H.
    enough (x * 0 + dot s idx = y * 0 + dot r idx) by lia. apply H. constructor; auto. lia.
Qed.

Lemma contiguous_complete v :
  wf_map (v_map v) -> Forall (fun d => 2 <= d) (v_dims v) ->
  (forall idx, in_bounds (v_dims v) idx -> v_addr v idx = v_ptr v + flat (v_dims v) idx) ->
  is_contiguous (v_map v) = true.
Proof.
  intros Hw HD H. apply (is_contiguous_iff Hw). apply dot_ext with (dims := v_dims v); auto.
  - apply (wf_strides Hw).
  - apply row_major_length.
  - intros idx HI. specialize (H idx HI). apply in_bounds_length in HI. rewrite v_addr_dot in H by auto.
    unfold v_dims in *. rewrite dot_row_major by auto. lia.
Qed.

Lemma into_diag_spec v d0 d1 k :
  wf_map (v_map v) -> v_dims v = [d0; d1] ->
  (- d0 <= k <= d1 ->
   exists v', v_into_diag v k = Ok v' /\
     v_dims v' = [if k >=? 0 then Z.min d0 (d1 - k) else Z.min d1 (d0 + k)] /\ wf_map (v_map v') /\
     shows v v' (fun idx => if k >=? 0 then [hd 0 idx; hd 0 idx + k] else [hd 0 idx - k; hd 0 idx])) /\
  (k < - d0 \/ d1 < k -> v_into_diag v k = Panic).
Proof.
  intros Hw Hd. split.
  - intros Hk. destruct (v_into_diag_ok Hw Hd Hk) as (v' & E & Hd' & Hw' & _ & HS). exists v'. auto.
  - intros Hk. apply v_into_diag_panic; auto. intros e0 e1 E. rewrite Hd in E. injection E as <- <-. exact Hk.
Qed.

Lemma diag_spec v d0 d1 k :
  wf_map (v_map v) -> v_dims v = [d0; d1] ->
  d0 < usize_max -> d1 < usize_max -> d0 * d1 <= usize_max ->
  (- d0 <= k <= d1 ->
   exists v', v_diag v k = Ok v' /\
     v_dims v' = [if k >=? 0 then Z.min d0 (d1 - k) else Z.min d1 (d0 + k)] /\ wf_map (v_map v') /\
     shows v v' (fun idx => if k >=? 0 then [hd 0 idx; hd 0 idx + k] else [hd 0 idx - k; hd 0 idx])) /\
  (k < - d0 \/ d1 < k -> v_diag v k = Panic).
Proof.
  intros Hw Hd H0 H1 HP. destruct (@v_diag_reduces v d0 d1 k Hw Hd H0 H1 HP) as (r & -> & Hr & Hwr & HSr).
  destruct (@into_diag_spec r d0 d1 k Hwr Hr) as [HO HN]. split; [|exact HN].
  intros Hk. destruct (HO Hk) as (v' & E & Hd' & Hw' & HS). exists v'. do 3 (split; [auto|]).
  exact (shows_trans HSr HS).
Qed.

Lemma row_col_spec v d0 d1 i :
  wf_map (v_map v) -> v_dims v = [d0; d1] ->
  d0 < usize_max -> d1 < usize_max -> d0 * d1 <= usize_max -> usize i ->
  (i < d0 -> exists v', v_row v i = Ok v' /\ v_dims v' = [d1] /\ wf_map (v_map v') /\
     shows v v' (fun idx => [i; hd 0 idx])) /\
  (d0 <= i -> v_row v i = Panic) /\
  (i < d1 -> exists v', v_col v i = Ok v' /\ v_dims v' = [d0] /\ wf_map (v_map v') /\
     shows v v' (fun idx => [hd 0 idx; i])) /\
  (d1 <= i -> v_col v i = Panic).
Proof.
  intros Hw Hd H0 H1 HP [Hi Hu]. split; [|split; [|split]]; intros H.
  - apply (v_row_ok Hw Hd); auto.
  - apply (v_row_panic Hw Hd); auto.
  - apply (v_col_ok Hw Hd); auto.
  - apply (v_col_panic Hw Hd); auto.
Qed.

Lemma rank2_only v k :
  length (v_dims v) <> 2%nat -> v_diag v k = Panic /\ v_row v k = Panic /\ v_col v k = Panic.
Proof.
  intros H. unfold v_diag, v_row, v_col.
  change (STuple [sh_head (v_ty v); sh_head (sh_tail (v_ty v))]) with (mat_ty (v_ty v)).
  repeat split; now apply mat_not2.
Qed.

(** ** No view operation has undefined behaviour *)

Definition fine {A} (o : outcome A) : Prop := match o with Ok _ | Panic => True | _ => False end.

Lemma fine_bind A B (m : outcome A) (k : A -> outcome B) :
  fine m -> (forall a, m = Ok a -> fine (k a)) -> fine (bind m k).
Proof. destruct m; simpl; auto. Qed.

Lemma fine_assert b : fine (assert b).
Proof. now destruct b. Qed.

Ltac fine_tac :=
  repeat first
    [ exact I
    | apply fine_assert
    | apply fine_bind; [|intros]
    | match goal with
      | |- fine (match ?x with _ => _ end) => destruct x
      | |- fine (if ?x then _ else _) => destruct x
      | |- fine (let (_, _) := ?x in _) => destruct x
      end ].

Lemma fine_get_nth A (l : list A) i : fine (get_nth l i).
Proof. unfold get_nth. fine_tac. Qed.
Lemma fine_from_sizes ds dims : fine (from_sizes ds dims).
Proof.
  revert dims. induction ds; intros [|n dims]; simpl; auto. apply fine_bind; auto.
  unfold from_size. fine_tac.
Qed.
Lemma fine_store ty dims : fine (sh_store ty dims).
Proof. unfold sh_store. destruct ty; simpl; auto. apply fine_bind; [apply fine_from_sizes|simpl; auto]. Qed.
Lemma fine_new ty r : fine (sh_new ty r).
Proof. unfold sh_new. fine_tac. Qed.
Lemma fine_dims_new ty r : fine (dims_new ty r).
Proof. unfold dims_new. fine_tac. Qed.

#[local] Hint Resolve fine_get_nth fine_store fine_new fine_dims_new fine_assert : fine.
Ltac fine_auto := repeat first [solve [eauto with fine] | progress fine_tac | progress cbv zeta].

Lemma fine_dim l i : fine (sh_dim l i).
Proof. unfold sh_dim. fine_auto. Qed.
Lemma fine_m_dim m i : fine (m_dim m i).
Proof. apply fine_dim. Qed.
Lemma fine_m_stride m i : fine (m_stride m i).
Proof. unfold m_stride. destruct m; fine_auto. Qed.
Lemma fine_from_dims ty d : fine (sh_from_dims ty d).
Proof. unfold sh_from_dims. fine_auto. Qed.
Lemma fine_ax_index a r : fine (ax_index a r).
Proof. unfold ax_index. fine_auto. Qed.
#[local] Hint Resolve fine_dim fine_m_dim fine_m_stride fine_from_dims fine_ax_index : fine.
Lemma fine_prepend l ty m a b : fine (m_prepend_dim l ty m a b).
Proof. unfold m_prepend_dim, sh_prepend_dim. fine_auto. Qed.
Lemma fine_remap l ty m : fine (m_remap l ty m).
Proof. unfold m_remap. fine_auto. Qed.
Lemma fine_mask r p acc : fine (mask_loop r p acc).
Proof. revert acc. induction p; intros; simpl; fine_auto. Qed.
#[local] Hint Resolve fine_prepend fine_remap fine_mask : fine.
Lemma fine_permute l ty m p : fine (m_permute l ty m p).
Proof. unfold m_permute. fine_auto. Qed.
Lemma fine_remove l ty m i : fine (m_remove_dim l ty m i).
Proof. unfold m_remove_dim, sh_remove_dim. fine_auto. Qed.
Lemma fine_resize l ty m i s : fine (m_resize_dim l ty m i s).
Proof. unfold m_resize_dim, sh_resize_dim. fine_auto. Qed.
Lemma fine_reorder l m : fine (m_reorder l m).
Proof. unfold m_reorder, sh_reverse_dims. fine_auto. Qed.
Lemma fine_infer i o d : fine (infer_loop i o d).
Proof. revert i o. induction d; intros; simpl; fine_auto. Qed.
#[local] Hint Resolve fine_permute fine_remove fine_resize fine_reorder fine_infer : fine.
Lemma fine_sh_reshape d ty r : fine (sh_reshape d ty r).
Proof. unfold sh_reshape. fine_auto. Qed.
#[local] Hint Resolve fine_sh_reshape : fine.
Lemma fine_reshape m ty r : fine (m_reshape m ty r).
Proof. unfold m_reshape. destruct m; fine_auto. Qed.
Lemma fine_ix_range lo hi n : fine (ix_range lo hi n).
Proof. unfold ix_range. fine_auto. Qed.
Lemma fine_div_ceil a b : fine (div_ceil a b).
Proof. unfold div_ceil. fine_auto. Qed.
#[local] Hint Resolve fine_reshape fine_ix_range fine_div_ceil : fine.
Lemma fine_view_index xs s m : fine (view_index xs s m).
Proof. revert s. induction xs; intros; simpl; fine_auto. Qed.
#[local] Hint Resolve fine_view_index : fine.
Lemma fine_v_view v xs : fine (v_view v xs).
Proof. unfold v_view. fine_auto. Qed.
Lemma fine_v_reshape v ty d : fine (v_reshape v ty d).
Proof. unfold v_reshape. fine_auto. Qed.
Lemma fine_v_into_diag v k : fine (v_into_diag v k).
Proof. unfold v_into_diag, strided_new. fine_auto. Qed.
Lemma fine_ax_remove_map a m : fine (ax_remove_map a m).
Proof. unfold ax_remove_map. fine_auto. Qed.
Lemma fine_ax_resize_map a m s : fine (ax_resize_map a m s).
Proof. unfold ax_resize_map. fine_auto. Qed.
#[local] Hint Resolve fine_v_view fine_v_reshape fine_v_into_diag fine_ax_remove_map fine_ax_resize_map : fine.
Lemma fine_step v o : fine (v_step v o).
Proof.
  destruct o; cbn [v_step]; unfold v_axis_at, v_split_axis_at, v_permute, v_reorder, v_flatten, v_remap, v_col, v_row, v_diag;
    fine_auto; try apply fine_from_sizes; unfold from_size; fine_auto.
Qed.

Lemma fine_run v os : fine (v_run v os).
Proof. revert v. induction os; intros; simpl; [exact I|]. apply fine_bind; auto using fine_step. Qed.

Lemma step_valid n v o v' :
  0 <= n <= usize_max -> valid_view n v -> Forall (fun d => d <= usize_max) (v_dims v) ->
  op_arg v o -> v_step v o = Ok v' ->
  valid_view n v' /\ Forall (fun d => d <= usize_max) (v_dims v') /\ exists f, shows v v' f.
Proof.
  intros Hn Hv HS HA H.
  assert (CI : chain_inv n v v).
  { constructor; auto. exists (fun idx => idx). intros idx HI. auto. }
  destruct (v_step_inv Hn CI HA H). auto.
Qed.

Lemma chain_safe T (mem : list T) ty dims os :
  nonneg dims -> typed ty dims -> ty_wf ty -> Forall (fun d => d <= usize_max) dims ->
  prodZ dims = Z.of_nat (length mem) -> Z.of_nat (length mem) <= usize_max ->
  run_args (whole ty dims) os ->
  v_run (whole ty dims) os = Panic \/
  exists v', v_run (whole ty dims) os = Ok v' /\
    (forall idx, in_bounds (v_dims v') idx -> exists x, v_get mem v' idx = Ok x) /\
    (forall i j, in_bounds (v_dims v') i -> in_bounds (v_dims v') j ->
                 v_addr v' i = v_addr v' j -> i = j) /\
    (exists f, shows (whole ty dims) v' f).
Proof.
  intros HN HT HW HS HL HM HA. pose proof (fine_run (whole ty dims) os) as F.
  destruct (v_run (whole ty dims) os) as [v'| | |] eqn:E; try contradiction; [right|now left].
  assert (CI : chain_inv (Z.of_nat (length mem)) (whole ty dims) (whole ty dims)).
  { constructor; auto.
    - apply whole_valid; auto. lia.
    - exists (fun idx => idx). intros idx HI. auto. }
  assert (Hn : 0 <= Z.of_nat (length mem) <= usize_max) by lia.
  destruct (v_run_inv Hn CI HA E) as [Hv' _ HF]. exists v'. split; [auto|].
  split; [apply (checked_get Hv')|]. split; [apply (vv_inj Hv')|exact HF].
Qed.

(** ** Types *)

Lemma remove_types a s dims i :
  typed s dims -> ty_wf s -> is_axis a (length dims) i ->
  typed (ax_remove a s) (remove_at i dims) /\ ty_wf (ax_remove a s).
Proof. intros. split; [now apply ax_remove_typed|now apply ax_remove_wf]. Qed.

Lemma resize_types a s dims i n :
  typed s dims -> ty_wf s -> is_axis a (length dims) i ->
  typed (ax_resize_ty a s) (upd dims i n) /\ ty_wf (ax_resize_ty a s).
Proof. intros. split; [now apply ax_resize_typed|now apply ax_resize_wf]. Qed.

Lemma view_types xs s dims :
  nonneg dims -> typed s dims -> length xs = length dims ->
  typed (vi_shape xs s) (sub_dims dims xs) /\ ty_wf (vi_shape xs s).
Proof. intros. split; [now apply vi_shape_typed|now apply vi_shape_wf]. Qed.

Lemma permute_types p s dims perm :
  typed s dims -> ty_wf s -> perm_of (length dims) perm -> perm_matches p perm ->
  typed (perm_arg_shape p s) (pick perm dims) /\ ty_wf (perm_arg_shape p s).
Proof. intros. eapply perm_arg_typed; eauto. Qed.

Lemma reverse_types s dims :
  typed s dims -> ty_wf s -> typed (sh_reverse s) (rev dims) /\ ty_wf (sh_reverse s).
Proof. intros. split; [now apply typed_rev|now apply ty_wf_reverse]. Qed.
