(** Conversions from and to nested arrays. *)
From Verif Require Import Base Spec SpecFacts Shape Mapping Index View Wf MappingFacts MapOps ReshapeFacts ViewFacts ViewMore
  Expr ExprSpec ExprFacts SourceFacts ExprTree ExprMore Tensor TraceFacts TensorSpec TensorFacts TensorOps DrainFacts OwnFacts ZipFacts OwnMore Ops OpsFacts SerdeMore Nested NestedSpec.
From Coq Require Import Permutation.
Unset Strict Implicit.

Lemma firstn_plus {A} n m (l : list A) : firstn (n + m) l = firstn n l ++ firstn m (skipn n l).
Proof. revert l. induction n as [|n IH]; intros [|x l]; cbn; rewrite ?firstn_nil; auto. now rewrite IH. Qed.

Lemma skipn_twice {A} n m (l : list A) : skipn n (skipn m l) = skipn (n + m) l.
Proof. revert l. induction m as [|m IH]; intros l; [now rewrite Nat.add_0_r|]. rewrite Nat.add_succ_r. destruct l; cbn; [apply skipn_nil|apply IH]. Qed.

Lemma flatten_len {T} cs : forall n : nested T, shaped cs n -> zlen (flatten n) = prodZ cs.
Proof.
  induction cs as [|c cs IH]; intros n H; cbn [shaped] in H.
  - destruct H as [x ->]. reflexivity.
  - destruct H as (l & -> & HL & HF). cbn [flatten prodZ fold_right]. fold (prodZ cs). rewrite <- HL. clear HL.
    induction HF as [|m l H HF IHl]; [reflexivity|]. cbn [flat_map]. unfold zlen in *. rewrite app_length, Nat2Z.inj_add, IHl, (IH m H).
    cbn [length]. lia.
Qed.

(** The position of an element. *)
Lemma flatten_at {T} cs : forall (n : nested T) idx, shaped cs n -> in_bounds cs idx ->
  exists x, n_at n idx = Some x /\ nth_error (flatten n) (Z.to_nat (flat cs idx)) = Some x.
Proof.
  induction cs as [|c cs IH]; intros n idx H B; inversion B as [|? i ? is B1 B2]; subst; cbn [shaped] in H.
  - destruct H as [x ->]. exists x. auto.
  - destruct H as (l & -> & HL & HF). cbn [n_at flatten flat].
    assert (X : forall k (l : list (nested T)), Forall (shaped cs) l -> (k < length l)%nat ->
      exists m x, nth_error l k = Some m /\ n_at m is = Some x /\
        nth_error (flat_map flatten l) (k * Z.to_nat (prodZ cs) + Z.to_nat (flat cs is)) = Some x).
    { clear - IH B2. pose proof (flat_bounds B2) as FB. induction k as [|k IHk]; intros l HF HK; destruct l as [|m l]; cbn [length] in HK; try lia;
        inversion HF as [|? ? H1 H2]; subst; cbn [nth_error flat_map].
      - destruct (IH m is H1 B2) as (x & E1 & E2). exists m, x. repeat split; auto.
        rewrite nth_error_app1; [exact E2|]. apply nth_error_Some. cbn in E2 |- *. congruence.
      - destruct (IHk l H2) as (m' & x & E1 & E2 & E3); [lia|]. exists m', x. repeat split; auto.
        pose proof (flatten_len H1) as L. unfold zlen in L. rewrite nth_error_app2 by lia.
        replace (S k * Z.to_nat (prodZ cs) + Z.to_nat (flat cs is) - length (flatten m))%nat
          with (k * Z.to_nat (prodZ cs) + Z.to_nat (flat cs is))%nat by lia. exact E3. }
    destruct (X (Z.to_nat i) l HF) as (m & x & E1 & E2 & E3); [unfold zlen in HL; lia|].
    exists x. rewrite E1. split; [exact E2|].
    pose proof (flat_bounds B2) as FB. rewrite Z2Nat.inj_add, Z2Nat.inj_mul by nia. exact E3.
Qed.

Lemma read_in {T} (a : list T) x b : read (a ++ x :: b) (zlen a) = Ok x.
Proof.
  unfold read, zlen. destruct (Z.ltb_spec (Z.of_nat (length a)) 0); [lia|]. rewrite Nat2Z.id, nth_error_app2, Nat.sub_diag by lia. reflexivity.
Qed.

(** Reading gives back what was written. *)
Lemma read_flatten {T} cs : forall (n : nested T) a b, shaped cs n -> read_nested (a ++ flatten n ++ b) (zlen a) cs = Ok n.
Proof.
  induction cs as [|c cs IH]; intros n a b H; cbn [shaped] in H.
  - destruct H as [x ->]. cbn [read_nested flatten app]. rewrite read_in. reflexivity.
  - destruct H as (l & -> & HL & HF). cbn [read_nested flatten]. 
    assert (X : forall l (pre : list (nested T)), Forall (shaped cs) l -> forall a, zlen a = zlen pre * prodZ cs -> forall q,
      eachM (fun k => read_nested (q ++ a ++ flat_map flatten l ++ b) (zlen q + k * prodZ cs) cs)
        (map Z.of_nat (seq (length pre) (length l))) = Ok l).
    { clear - IH. induction l as [|m l IHl]; intros pre HF a HA q; [reflexivity|]. inversion HF as [|? ? H1 H2]; subst.
      cbn [length seq map eachM flat_map].
      replace (zlen q + Z.of_nat (length pre) * prodZ cs) with (zlen (q ++ a)) by (unfold zlen in *; rewrite app_length; lia).
      replace (q ++ a ++ (flatten m ++ flat_map flatten l) ++ b) with ((q ++ a) ++ flatten m ++ (flat_map flatten l ++ b)) by now rewrite <- !app_assoc.
      rewrite IH by exact H1. cbn [bind].
      specialize (IHl (pre ++ [m]) H2 (a ++ flatten m)). rewrite app_length, Nat.add_1_r in IHl.
      replace ((q ++ a) ++ flatten m ++ flat_map flatten l ++ b) with (q ++ (a ++ flatten m) ++ flat_map flatten l ++ b) by now rewrite <- !app_assoc.
      rewrite IHl; [reflexivity|]. pose proof (flatten_len H1) as L. unfold zlen in *. rewrite !app_length. cbn [length]. lia. }
    specialize (X l [] HF [] eq_refl a). cbn [length app] in X. unfold zrange. rewrite <- HL. unfold zlen at 2. rewrite Nat2Z.id, X. reflexivity.
Qed.

Lemma shaped_eq {T} cs (n1 n2 : nested T) : shaped cs n1 -> shaped cs n2 -> flatten n1 = flatten n2 -> n1 = n2.
Proof.
  intros H1 H2 E. pose proof (read_flatten [] [] H1) as R1. pose proof (read_flatten [] [] H2) as R2. rewrite E in R1. congruence.
Qed.

(** Reading cells that exist. *)
Lemma read_ok {T} cs : forall (mem : list T) p, nonneg cs -> prodZ cs = 0 \/ (0 <= p /\ p + prodZ cs <= zlen mem) ->
  exists n, read_nested mem p cs = Ok n /\ shaped cs n /\ flatten n = firstn (Z.to_nat (prodZ cs)) (skipn (Z.to_nat p) mem).
Proof.
  induction cs as [|c cs IH]; intros mem p N HP.
  - cbn [prodZ fold_right] in HP. destruct HP as [HP|HP]; [discriminate|]. cbn [read_nested shaped].
    destruct (nth_error mem (Z.to_nat p)) as [x|] eqn:E1.
    + exists (NItem x). unfold read. destruct (Z.ltb_spec p 0); [lia|]. rewrite E1. cbn [bind flatten prodZ fold_right].
      split; [reflexivity|]. split; [eauto|]. apply nth_error_split in E1. destruct E1 as (a & b & -> & <-).
      rewrite skipn_app, skipn_all, Nat.sub_diag. reflexivity.
    + exfalso. apply nth_error_None in E1. unfold zlen in HP. lia.
  - inversion N as [|? ? N1 N2]; subst. cbn [read_nested shaped]. pose proof (prodZ_nonneg N2) as PN.
    assert (X : forall ks start, ks = map Z.of_nat (seq start (length ks)) -> Z.of_nat (start + length ks) <= c ->
      exists l, eachM (fun k => read_nested mem (p + k * prodZ cs) cs) ks = Ok l /\ length l = length ks /\ Forall (shaped cs) l /\
        flat_map flatten l = firstn (length ks * Z.to_nat (prodZ cs)) (skipn (Z.to_nat (p + Z.of_nat start * prodZ cs)) mem)).
    { induction ks as [|k ks IHk]; intros start E HS.
      - exists []. repeat split; auto.
      - cbn [length seq map] in E. injection E as -> E. cbn [length] in HS. destruct (IHk (S start) E) as (l & E1 & E2 & E3 & E4); [lia|].
        destruct (IH mem (p + Z.of_nat start * prodZ cs) N2) as (m & M1 & M2 & M3).
        { cbn [prodZ fold_right] in HP. fold (prodZ cs) in HP. destruct (Z.eq_dec (prodZ cs) 0) as [Z0|Z0]; [now left|right].
          destruct HP as [HP|HP]; [nia|]. nia. }
        exists (m :: l). cbn [eachM]. rewrite M1. cbn [bind]. rewrite E1. cbn [bind length flat_map]. repeat split; auto.
        rewrite M3, E4. destruct (Z.eq_dec (prodZ cs) 0) as [Z0|Z0]; [rewrite Z0; cbn; now rewrite !Nat.mul_0_r|].
        cbn [prodZ fold_right] in HP. fold (prodZ cs) in HP. destruct HP as [HP|HP]; [nia|].
        replace (Z.to_nat (p + Z.of_nat (S start) * prodZ cs)) with (Z.to_nat (prodZ cs) + Z.to_nat (p + Z.of_nat start * prodZ cs))%nat by nia.
        rewrite <- skipn_twice. rewrite Nat.mul_succ_l, Nat.add_comm.
        rewrite firstn_plus. reflexivity. }
    destruct (X (zrange c) 0%nat) as (l & E1 & E2 & E3 & E4).
    + unfold zrange. rewrite map_length, seq_length. reflexivity.
    + rewrite zrange_length. lia.
    + exists (NArr l). rewrite E1. cbn [bind flatten]. split; [reflexivity|]. split.
      * exists l. split; [reflexivity|]. split; [|exact E3]. unfold zlen. rewrite E2, zrange_length. lia.
      * rewrite E4, zrange_length. cbn [prodZ fold_right]. fold (prodZ cs). rewrite Z2Nat.inj_mul by lia. f_equal. f_equal. f_equal. lia.
Qed.

(** ** Tensors *)

Lemma tn_from_nested_done {T C} ds cs (n : nested T) (w : world T C) :
  typed (STuple ds) cs -> nonneg cs -> ty_wf (STuple ds) -> shaped cs n -> fits cs ->
  tn_from_nested ds cs n w = Done (mkTensor (STuple ds) cs (flatten n) (prodZ cs)) w /\
  tensor_ok (mkTensor (STuple ds) cs (flatten n) (prodZ cs)).
Proof.
  intros TY N W S F. pose proof (flatten_len S) as L. unfold tn_from_nested. rewrite checked_len_fits by exact F.
  unfold from_parts. rewrite sh_len_prod, L, Z.eqb_refl. split; [reflexivity|].
  unfold zlen in L. constructor; cbn [tn_dims tn_ty tn_mem tn_cap]; auto. lia.
Qed.

Lemma tn_from_nested_unfit {T C} ds cs (n : nested T) (w : world T C) :
  ~ fits cs -> tn_from_nested ds cs n w = Unwound (w_drop (flatten n) w).
Proof.
  intros F. unfold tn_from_nested. destruct (checked_len_cases cs) as [H| ->]; [contradiction|reflexivity].
Qed.

Lemma tn_try_into_nested_ok {T C} cs (t : tensor T) (w : world T C) :
  tensor_ok t ->
  (tn_dims t = cs -> exists n, tn_try_into_nested cs t w = Done (inl n) w /\ shaped cs n /\ flatten n = tn_mem t) /\
  (tn_dims t <> cs -> tn_try_into_nested cs t w = Done (inr t) w).
Proof.
  intros OK. unfold tn_try_into_nested. split; intros H.
  - rewrite (proj2 (slice_eqb_iff _ _) H). unfold seqM. rewrite into_vec_done by exact OK. cbn [fst].
    pose proof (to_len OK) as L. rewrite H in L. pose proof (to_nonneg OK) as N. rewrite H in N.
    destruct (@read_ok T cs (tn_mem t) 0 N) as (n & E & S & F); [right; unfold zlen; lia|].
    exists n. rewrite E. cbn [lift ret]. split; [reflexivity|]. split; [exact S|]. rewrite F. cbn [Z.to_nat skipn].
    apply firstn_all2. lia.
  - destruct (slice_eqb (tn_dims t) cs) eqn:E; [|reflexivity]. apply slice_eqb_iff in E. contradiction.
Qed.

(** ** Views *)

Lemma v_from_nested_ok {T} ds cs (n : nested T) :
  typed (STuple ds) cs -> nonneg cs -> ty_wf (STuple ds) -> shaped cs n -> fits cs ->
  v_from_nested ds cs = Ok (whole (STuple ds) cs) /\ valid_view (zlen (flatten n)) (whole (STuple ds) cs) /\
  forall idx, in_bounds cs idx -> exists x, n_at n idx = Some x /\ v_get (flatten n) (whole (STuple ds) cs) idx = Ok x.
Proof.
  intros TY N W S F. pose proof (flatten_len S) as L. unfold v_from_nested. rewrite checked_len_fits by exact F.
  split; [reflexivity|]. split; [apply whole_valid; auto; lia|]. intros idx B. destruct (flatten_at S B) as (x & E1 & E2).
  exists x. split; [exact E1|]. rewrite v_get_in by exact B. rewrite whole_addr by exact B. unfold read.
  pose proof (flat_bounds B). destruct (Z.ltb_spec (flat cs idx) 0); [lia|]. now rewrite E2.
Qed.

Lemma dense_read {T} (mem : list T) v n idx : v_layout v = Dense -> valid_view (zlen mem) v ->
  shaped (v_dims v) n -> flatten n = firstn (Z.to_nat (prodZ (v_dims v))) (skipn (Z.to_nat (v_ptr v)) mem) ->
  0 <= v_ptr v -> in_bounds (v_dims v) idx ->
  exists x, n_at n idx = Some x /\ v_get mem v idx = Ok x.
Proof.
  intros D V S F P B. destruct (flatten_at S B) as (x & E1 & E2). exists x. split; [exact E1|].
  rewrite v_get_in by exact B. unfold v_addr. rewrite m_offset_dot by (auto using in_bounds_length; apply V).
  unfold v_layout in D. destruct (v_map v) as [ty dims|ty dims st] eqn:EM; [|discriminate].
  change (v_dims v) with (m_dims (v_map v)) in *. rewrite EM in *. cbn [m_dims m_strides] in *.
  rewrite dot_row_major by (now apply in_bounds_length). pose proof (flat_bounds B) as FB.
  unfold read. destruct (Z.ltb_spec (v_ptr v + flat dims idx) 0); [lia|].
  rewrite F in E2. rewrite nth_error_firstn' in E2. destruct (Nat.ltb_spec (Z.to_nat (flat dims idx)) (Z.to_nat (prodZ dims))); [|lia]. rewrite nth_error_skipn' in E2.
  replace (Z.to_nat (v_ptr v + flat dims idx)) with (Z.to_nat (v_ptr v) + Z.to_nat (flat dims idx))%nat by lia. now rewrite E2.
Qed.

Lemma dense_range {T} (mem : list T) v : v_layout v = Dense -> valid_view (zlen mem) v -> 0 < prodZ (v_dims v) ->
  0 <= v_ptr v /\ v_ptr v + prodZ (v_dims v) <= zlen mem.
Proof.
  intros D V P. pose proof (wf_nonneg (vv_wf V)) as N. fold (v_dims v) in N.
  assert (A : forall k, 0 <= k < prodZ (v_dims v) -> v_addr v (unflat (v_dims v) k) = v_ptr v + k).
  { intros k K. pose proof (unflat_in_bounds N K) as B. unfold v_addr. rewrite m_offset_dot by (auto using in_bounds_length; apply V).
    unfold v_layout in D. destruct (v_map v) as [ty dims|ty dims st] eqn:EM; [|discriminate].
    change (v_dims v) with (m_dims (v_map v)) in *. rewrite EM in *. cbn [m_dims m_strides] in *.
    rewrite dot_row_major by (now apply in_bounds_length). rewrite flat_unflat by auto. reflexivity. }
  pose proof (vv_range V (unflat_in_bounds N (conj (Z.le_refl 0) P))) as R0. rewrite A in R0 by lia.
  assert (K : 0 <= prodZ (v_dims v) - 1 < prodZ (v_dims v)) by lia.
  pose proof (vv_range V (unflat_in_bounds N K)) as R1. rewrite A in R1 by lia. lia.
Qed.

Lemma view_read {T} (mem : list T) v : v_layout v = Dense -> valid_view (zlen mem) v ->
  exists n, read_nested mem (v_ptr v) (v_dims v) = Ok n /\ shaped (v_dims v) n /\
    forall idx, in_bounds (v_dims v) idx -> exists x, n_at n idx = Some x /\ v_get mem v idx = Ok x.
Proof.
  intros D V. pose proof (wf_nonneg (vv_wf V)) as N. fold (v_dims v) in N. pose proof (prodZ_nonneg N) as P.
  destruct (Z.eq_dec (prodZ (v_dims v)) 0) as [Z0|Z0].
  - destruct (@read_ok T (v_dims v) mem (v_ptr v) N (or_introl Z0)) as (n & E & S & F). exists n. split; [exact E|]. split; [exact S|].
    intros idx B. apply flat_bounds in B. lia.
  - destruct (dense_range D V) as [R1 R2]; [lia|].
    destruct (@read_ok T (v_dims v) mem (v_ptr v) N (or_intror (conj R1 R2))) as (n & E & S & F). exists n. split; [exact E|]. split; [exact S|].
    intros idx B. eapply dense_read; eauto.
Qed.

Lemma v_try_into_nested_ok {T} cs (mem : list T) v : v_layout v = Dense -> valid_view (zlen mem) v ->
  (v_dims v = cs -> exists n, v_try_into_nested cs mem v = Ok (inl n) /\ shaped cs n /\
     forall idx, in_bounds cs idx -> exists x, n_at n idx = Some x /\ v_get mem v idx = Ok x) /\
  (v_dims v <> cs -> v_try_into_nested cs mem v = Ok (inr v)).
Proof.
  intros D V. unfold v_try_into_nested. split; intros H.
  - rewrite (proj2 (slice_eqb_iff _ _) H). subst cs. destruct (view_read D V) as (n & E & S & G). exists n. rewrite E. auto.
  - destruct (slice_eqb (v_dims v) cs) eqn:E; [|reflexivity]. apply slice_eqb_iff in E. contradiction.
Qed.

(** ** References *)

Lemma produce_clones {T F} (cl : T -> F -> outcome (T * F)) (act : action T (unit * F)) is : forall (l : list T) s,
  Forall2 (fun idx x => forall s, act idx (tt, s) = let* (y, s') := cl x s in Ok (y, (tt, s'))) is l ->
  produce act is (tt, s) = let (ys, o) := clones cl l s in (ys, let* s' := o in Ok (tt, s')).
Proof.
  induction is as [|i is IH]; intros l s H; inversion H as [|? x ? l' HX HR]; subst; cbn [produce clones]; [reflexivity|].
  rewrite HX. destruct (cl x s) as [[y s']| | |]; cbn [bind]; try reflexivity.
  rewrite (IH l' s' HR). destruct (clones cl l' s') as [ys o]. reflexivity.
Qed.

Lemma Forall2_nth {A B} (P : A -> B -> Prop) (l : list A) : forall (m : list B),
  length l = length m -> (forall k a b, nth_error l k = Some a -> nth_error m k = Some b -> P a b) -> Forall2 P l m.
Proof.
  induction l as [|a l IH]; intros [|b m] L H; try discriminate; constructor.
  - exact (H 0%nat a b eq_refl eq_refl).
  - apply IH; [now injection L|]. intros k. exact (H (S k)).
Qed.

Lemma tn_from_nested_ref_ok {T C F} al (cl : T -> F -> outcome (T * F)) f0 ds cs (n : nested T) (w : world T C) xs o :
  (forall k, al_ok al k = true) -> (forall x s, proper (cl x s)) ->
  typed (STuple ds) cs -> nonneg cs -> ty_wf (STuple ds) -> shaped cs n -> fits cs ->
  clones cl (flatten n) f0 = (xs, o) ->
  match o with
  | Ok _ => exists cap, zlen xs = prodZ cs /\ zlen xs <= cap /\
      tn_from_nested_ref al cl f0 ds cs n w = Done (mkTensor (STuple ds) cs xs cap) (after (w_clo w) xs [] w)
  | _ => tn_from_nested_ref al cl f0 ds cs n w = Unwound (after (w_clo w) xs xs w)
  end.
Proof.
  intros HA HC TY N W S FI HX. destruct (v_from_nested_ok TY N W S FI) as (EV & V & G).
  unfold tn_from_nested_ref, seqM. rewrite EV. cbn [lift].
  set (v := whole (STuple ds) cs) in *. pose proof (flatten_len S) as L.
  set (fn := fun addr s => let* x := read (flatten n) addr in cl x s).
  set (tr := TCloned fn f0 (TView (zlen (flatten n)) true v)).
  assert (RD : forall idx, in_bounds cs idx -> exists x, n_at n idx = Some x /\
      nth_error (flatten n) (Z.to_nat (flat cs idx)) = Some x /\ read (flatten n) (v_addr v idx) = Ok x).
  { intros idx B. destruct (flatten_at S B) as (x & E1 & E2). exists x. split; [exact E1|]. split; [exact E2|].
    unfold v. rewrite whole_addr by exact B. unfold read. pose proof (flat_bounds B).
    destruct (Z.ltb_spec (flat cs idx) 0); [lia|]. now rewrite E2. }
  assert (HS : t_safe tr).
  { intros idx [[] s] B. cbn [t_act tr]. unfold map_action, pure_action. cbn [fst snd bind]. unfold fn.
    destruct (RD idx B) as (x & _ & _ & ->). cbn [bind]. specialize (HC x s). destruct (cl x s) as [[y s']| | |]; auto; exact I. }
  assert (HP : produce (t_act tr) (indices (t_dims tr)) (t_init tr) = (xs, let* s' := o in Ok (tt, s'))).
  { cbn [t_act t_dims t_init tr]. change (v_dims v) with cs.
    rewrite (@produce_clones T F cl _ (indices cs) (flatten n) f0); [now rewrite HX|].
    apply Forall2_nth.
    - rewrite indices_length by exact N. unfold zlen in L. lia.
    - intros k idx x E1 E2 s. pose proof (nth_error_In _ _ E1) as I1. apply in_indices in I1.
      destruct (RD idx I1) as (y & _ & E3 & E4). unfold map_action, pure_action. cbn [fst snd bind]. unfold fn. rewrite E4. cbn [bind].
      assert (k = Z.to_nat (flat cs idx)).
      { pose proof (indices_at I1) as E5. eapply (NoDup_nth_error (indices cs)); [now apply indices_NoDup| |congruence].
        apply nth_error_Some. congruence. }
      subst k. rewrite E3 in E2. injection E2 as ->. destruct (cl x s) as [[y' s']| | |]; reflexivity. }
  assert (VF : view_fine v) by (left; reflexivity).
  assert (HL : t_leaves tr) by exact V.
  pose proof (@eval_tree T tr (e_cloned fn f0 (e_view (zlen (flatten n)) true v)) HL eq_refl
    (@view_tree_fine 0 true v (vv_wf V) VF) HS C al w _ _ HA HP) as R.
  destruct o as [s'| | |]; cbn [bind] in R; try exact R.
  destruct R as (cap & R1 & R2 & R3 & R4). exists cap. auto.
Qed.

(** ** Clone of a nested array *)

Definition cloned_ok {T C} (clone : T -> C -> call T C) cs (n : nested T) (w : world T C) (pre : list T) (r : result (world T C) (nested T)) : Prop :=
  let '(xs, c, b) := gives (map clone (flatten n)) (w_clo w) in
  if b then exists n', r = Done n' (after c xs [] w) /\ shaped cs n' /\ flatten n' = xs
  else exists ds, r = Unwound (after c xs ds w) /\ Permutation ds (pre ++ xs).

Lemma gives_app {T C} (f1 f2 : list (C -> call T C)) c :
  gives (f1 ++ f2) c =
  let '(xs, c1, b) := gives f1 c in
  if b then let '(ys, c2, b') := gives f2 c1 in (xs ++ ys, c2, b') else (xs, c1, false).
Proof.
  revert c. induction f1 as [|f f1 IH]; intros c; cbn [app gives].
  - destruct (gives f2 c) as [[ys c2] b]. reflexivity.
  - destruct (f c) as [x c'|c']; [|reflexivity]. rewrite IH. destruct (gives f1 c') as [[xs c1] [|]]; [|reflexivity].
    destruct (gives f2 c1) as [[ys c2] b]. reflexivity.
Qed.

Lemma after_after {T C} c1 c2 (xs ys ds es : list T) (w : world T C) :
  after c2 ys es (after c1 xs ds w) = after c2 (xs ++ ys) (ds ++ es) w.
Proof. unfold after. cbn [w_made w_used w_dropped w_clo]. now rewrite !app_assoc. Qed.

Lemma clone_nested_ok {T C} (clone : T -> C -> call T C) cs : forall (n : nested T) (w : world T C),
  shaped cs n -> cloned_ok clone cs n w [] (clone_nested clone n w).
Proof.
  induction cs as [|c cs IH]; intros n w S; cbn [shaped] in S.
  - destruct S as [x ->]. unfold cloned_ok. cbn [flatten map gives clone_nested]. destruct (clone x (w_clo w)) as [y c'|c'].
    + exists (NItem y). unfold w_make, after. rewrite app_nil_r. repeat split. now exists y.
    + exists []. unfold w_set, after. rewrite !app_nil_r. split; [reflexivity|constructor].
  - destruct S as (l & -> & L & A). cbn [clone_nested].
    match goal with |- context [?g [] l w] => set (go := g) end.
    assert (G : forall l done w, Forall (shaped cs) l -> Forall (shaped cs) done -> zlen (done ++ l) = c ->
      let '(xs, cc, b) := gives (map clone (flat_map flatten l)) (w_clo w) in
      if b then exists n', go done l w = Done n' (after cc xs [] w) /\ shaped (c :: cs) n' /\ flatten n' = flat_map flatten done ++ xs
      else exists ds, go done l w = Unwound (after cc xs ds w) /\ Permutation ds (flat_map flatten done ++ xs)).
    { clear l w A L. induction l as [|x l IHl]; intros done w A D L.
      - cbn [flat_map map gives]. exists (NArr done). rewrite app_nil_r in L. split; [|split].
        + cbn. unfold ret, after. rewrite !app_nil_r. destruct w; reflexivity.
        + exists done. auto.
        + cbn [flatten]. now rewrite app_nil_r.
      - inversion A as [|? ? AX AL]; subst. cbn [flat_map]. rewrite map_app, gives_app.
        specialize (IH x w AX). unfold cloned_ok in IH.
        change (go done (x :: l) w) with ((y <- owning (flat_map flatten done) (clone_nested clone x) ;; go (done ++ [y]) l) w).
        unfold seqM, owning. destruct (gives (map clone (flatten x)) (w_clo w)) as [[xs c1] b]. destruct b.
        + destruct IH as (n' & -> & S' & FL).
          assert (D' : Forall (shaped cs) (done ++ [n'])) by (apply Forall_app; auto).
          specialize (IHl (done ++ [n']) (after c1 xs [] w) AL D'). unfold zlen in IHl. rewrite <- app_assoc in IHl.
          specialize (IHl ltac:(rewrite !app_length; cbn [length app]; reflexivity)).
          change (w_clo (after c1 xs [] w)) with c1 in IHl. rewrite flat_map_app in IHl. cbn [flat_map] in IHl. rewrite app_nil_r, FL in IHl.
          destruct (gives (map clone (flat_map flatten l)) c1) as [[ys c2] [|]].
          * destruct IHl as (m & -> & SM & FM). exists m. rewrite after_after. split; [reflexivity|]. split; [exact SM|]. now rewrite FM, <- app_assoc.
          * destruct IHl as (ds & -> & P). exists ds. rewrite after_after. split; [reflexivity|]. now rewrite <- app_assoc in P.
        + destruct IH as (ds & -> & P). exists (ds ++ flat_map flatten done). split.
          * unfold w_drop, after. cbn [w_clo w_made w_used w_dropped]. now rewrite app_assoc.
          * rewrite P. cbn [app]. apply Permutation_app_comm. }
    specialize (G l [] w A ltac:(constructor) L). unfold cloned_ok. cbn [flatten flat_map app] in *.
    destruct (gives (map clone (flat_map flatten l)) (w_clo w)) as [[xs cc] [|]]; exact G.
Qed.

(** ** Arrays *)

Lemma ar_into_nested_ok {T} ds (l : list T) : nonneg (map dim_default ds) -> zlen l = prodZ (map dim_default ds) ->
  exists n, ar_into_nested ds l = Ok n /\ shaped (map dim_default ds) n /\ flatten n = l.
Proof.
  intros N L. destruct (@read_ok T (map dim_default ds) l 0 N) as (n & E & S & F); [right; lia|]. exists n.
  split; [exact E|]. split; [exact S|]. rewrite F. cbn [Z.to_nat skipn]. apply firstn_all2. unfold zlen in L. lia.
Qed.

Lemma ar_into_shape_eq {T C} ds ds' (l : list T) (w : world T C) :
  fits (map dim_default ds) ->
  ar_into_shape ds ds' l w =
  if prodZ (map dim_default ds') =? prodZ (map dim_default ds) then Done l w else Unwound (w_drop l w).
Proof.
  intros F. unfold ar_into_shape, owning, seqM. rewrite ar_length_fits by exact F. cbn [lift]. rewrite sh_len_prod.
  unfold check. destruct (_ =? _); reflexivity.
Qed.

Lemma ar_into_shape_unfit {T C} ds ds' (l : list T) (w : world T C) :
  ~ fits (map dim_default ds) -> ar_into_shape ds ds' l w = Unwound (w_drop l w).
Proof.
  intros F. unfold ar_into_shape, owning, seqM. destruct (ar_length_cases ds) as [H| ->]; [contradiction|reflexivity].
Qed.

Lemma ar_into_scalar_eq {T C} ds (l : list T) (w : world T C) : zlen l = prodZ (map dim_default ds) -> fits (map dim_default ds) ->
  match l with
  | [x] => ar_into_scalar ds l w = Done x w
  | _ => ar_into_scalar ds l w = Unwound (w_drop l w)
  end.
Proof.
  intros L F. unfold ar_into_scalar, seqM at 1. unfold owning, seqM at 1. rewrite ar_length_fits by exact F. cbn [lift].
  unfold check. rewrite <- L. unfold zlen. destruct l as [|x [|y l]]; cbn [length].
  - reflexivity.
  - unfold lift, ret, seqM. change (Z.of_nat 1 =? 1) with true. cbv iota beta. rewrite (ar_into_shape_eq [] [x] w F). rewrite <- L. reflexivity.
  - unfold lift, seqM. cbv beta iota. destruct (Z.eqb_spec (Z.of_nat (S (S (length l)))) 1); [lia|reflexivity].
Qed.

Lemma tn_from_array_eq {T C} al ds (l : list T) (w : world T C) :
  (forall k, al_ok al k = true) -> zlen l = prodZ (map dim_default ds) -> fits (map dim_default ds) ->
  exists cap, zlen l <= cap /\ tn_from_array al ds l w = Done (mkTensor (STuple ds) (map dim_default ds) l cap) w.
Proof.
  intros HA L F. unfold tn_from_array. rewrite ar_length_fits by exact F. rewrite HA, orb_true_r. cbv zeta.
  set (cap := if prodZ (map dim_default ds) =? 0 then 0 else _).
  assert (HC : prodZ (map dim_default ds) <= cap) by (unfold cap; destruct (Z.eqb_spec (prodZ (map dim_default ds)) 0); lia).
  exists cap. split; [lia|]. rewrite into_trace by exact L. destruct (Z.leb_spec (zlen l) cap); [|lia].
  unfold from_parts. rewrite sh_len_prod, L, Z.eqb_refl. reflexivity.
Qed.

Lemma tn_from_array_unfit {T C} al ds (l : list T) (w : world T C) :
  ~ fits (map dim_default ds) -> tn_from_array al ds l w = Unwound (w_drop l w).
Proof. intros F. unfold tn_from_array. destruct (ar_length_cases ds) as [H| ->]; [contradiction|reflexivity]. Qed.

Lemma tn_from_array_refused {T C} al ds (l : list T) (w : world T C) :
  zlen l = prodZ (map dim_default ds) -> zlen l <> 0 -> al_ok al (zlen l) = false ->
  tn_from_array al ds l w = Unwound (w_drop l w).
Proof.
  intros L N A. unfold tn_from_array. destruct (ar_length_cases ds) as [H|H]; [|now rewrite H].
  rewrite (ar_length_fits H), <- L, A. destruct (Z.eqb_spec (zlen l) 0); [contradiction|reflexivity].
Qed.

Lemma tn_from_array_fine {T C} al ds (l : list T) (w : world T C) :
  zlen l = prodZ (map dim_default ds) -> fits (map dim_default ds) -> zlen l = 0 \/ al_ok al (zlen l) = true ->
  exists cap, zlen l <= cap /\ tn_from_array al ds l w = Done (mkTensor (STuple ds) (map dim_default ds) l cap) w.
Proof.
  intros L F A. destruct (@tn_from_array_eq T C (mkAlloc (fun _ => true) (al_grow al)) ds l w (fun _ => eq_refl) L F) as (cap & HC & E).
  exists cap. split; [exact HC|]. rewrite <- E. unfold tn_from_array. rewrite (ar_length_fits F), <- L.
  destruct A as [-> | ->]; [reflexivity|]. now rewrite !orb_true_r.
Qed.

(** ** Slices *)

Lemma v_from_slice_ok {T} (s : list T) :
  valid_view (zlen s) (v_from_slice s) /\ contents s (v_from_slice s) s.
Proof.
  assert (N : nonneg [zlen s]) by (constructor; [unfold zlen; lia|constructor]).
  split.
  - apply whole_valid; auto.
    + repeat constructor.
    + cbn. lia.
    + cbn. lia.
  - apply contents_whole; auto. cbn. lia.
Qed.

Lemma v_to_slice_ok {T} (mem : list T) v xs : v_layout v = Dense -> valid_view (zlen mem) v -> contents mem v xs ->
  v_to_slice mem v = Ok xs.
Proof.
  intros D V H. pose proof (wf_nonneg (vv_wf V)) as N. unfold v_to_slice, m_len. rewrite sh_len_prod.
  destruct v as [p m]. unfold v_layout in D. cbn [v_map v_ptr] in *. destruct m as [ty dims|ty dims st]; [|discriminate].
  cbn [m_dims] in *. eapply cells_contents; eauto.
Qed.
