(** Theorems for C63 and C64: the unsafe entry points within their contracts, and slices of dense arrays. *)
From Verif Require Import Base Spec SpecFacts Shape Mapping Index View Wf MappingFacts MapOps ReshapeFacts IndexFacts ViewFacts ViewMore.
From Verif Require Import Expr ExprSpec ExprFacts IterFacts SourceFacts ExprTree ExprMore PropsView PropsExpr.
From Verif Require Import Tensor TraceFacts TensorSpec TensorFacts ResizeFacts TensorOps OwnFacts ZipFacts OwnMore PropsTensor.
From Verif Require Import Ops OpsFacts PropsOps Machine MachineSpec MachineFacts PropsMachine Unsafe PropsMore.
Unset Strict Implicit.

(** ** C63: elements without bounds check *)

(** Within bounds, [get_unchecked] gives the element that indexing gives, in both kinds of builds. *)
Theorem c63_get : forall T dbg (mem : list T) v idx,
  valid_view (Z.of_nat (length mem)) v -> Z.of_nat (length mem) <= isize_max -> in_bounds (v_dims v) idx ->
  get_unchecked dbg mem v idx = v_get mem v idx /\ exists x, v_get mem v idx = Ok x.
Proof.
  intros T dbg mem v idx HV HM HI. unfold get_unchecked. rewrite (@c45_offset dbg _ v idx HV HM HI). cbn [bind].
  split; [|now apply (c03_checked HV)]. now rewrite v_get_in.
Qed.
Print Assumptions c63_get.

Theorem c63_get_linear : forall T dbg (mem : list T) v k,
  valid_view (Z.of_nat (length mem)) v -> Z.of_nat (length mem) <= isize_max -> 0 <= k < prodZ (v_dims v) ->
  get_unchecked_linear dbg mem v k = v_get_linear mem v k /\ exists x, v_get_linear mem v k = Ok x.
Proof.
  intros T dbg mem v k HV HM HI. unfold get_unchecked_linear. rewrite (@c45_linear_offset dbg _ v k HV HM HI). cbn [bind].
  split; [|now apply (c03_checked HV)]. unfold v_get_linear, slice_index_linear, m_len. rewrite sh_len_prod. fold (v_dims v).
  destruct (Z.geb_spec k (prodZ (v_dims v))); [lia|]. reflexivity.
Qed.
Print Assumptions c63_get_linear.

(** Outside, debug builds panic. *)
Theorem c63_get_debug : forall T (mem : list T) v,
  (forall idx, Forall (fun k => 0 <= k) idx -> ~ in_bounds (v_dims v) idx -> get_unchecked true mem v idx = Panic) /\
  (forall k, nonneg (v_dims v) -> prodZ (v_dims v) <= k -> get_unchecked_linear true mem v k = Panic).
Proof.
  intros T mem v. split.
  - intros idx HN HI. unfold get_unchecked. now rewrite c62_offset_debug.
  - intros k HN HK. unfold get_unchecked_linear. now rewrite c62_linear_debug.
Qed.
Print Assumptions c63_get_debug.

(** In other builds, anything may come out: here another element of the array, an element that does not
    belong to the view, and undefined behaviour. *)
Example c63_get_example :
  get_unchecked false ex_mem ex_whole [1; 2; 3] = Ok 123 /\ get_unchecked true ex_mem ex_whole [1; 2; 3] = Ok 123 /\
  get_unchecked false ex_mem ex_whole [0; 3; 0] = v_get ex_mem ex_whole [1; 0; 0] /\
  get_unchecked true ex_mem ex_whole [0; 3; 0] = Panic /\
  get_unchecked false ex_mem ex_whole [2; 0; 0] = UB /\ get_unchecked_linear false ex_mem ex_rev 7 = Ok 110.
Proof. vm_all. Qed.

(** ** C63: raw parts *)

Lemma init_app {T} (xs : list T) c : forall n, n = length xs -> initialized n (map Some xs ++ c) = Some xs.
Proof. intros n ->. induction xs as [|x xs IH]; cbn [length map app initialized]; [reflexivity|]. now rewrite IH. Qed.

Lemma init_iff {T} (c : list (option T)) : forall n xs,
  initialized n c = Some xs <-> (n <= length c)%nat /\ firstn n c = map Some xs.
Proof.
  induction c as [|[x|] c IH]; intros [|n] xs; cbn [initialized length firstn].
  - split; [intros [= <-]; auto|]. intros [_ H]. destruct xs; [auto|discriminate].
  - split; [discriminate|]. intros [H _]. lia.
  - split; [intros [= <-]; split; [lia|reflexivity]|]. intros [_ H]. destruct xs; [auto|discriminate].
  - destruct (initialized n c) as [ys|] eqn:E.
    + apply IH in E. destruct E as [E1 E2]. split.
      * intros [= <-]. cbn [map]. split; [lia|congruence].
      * intros [_ H]. destruct xs as [|y xs]; [discriminate|]. cbn [map] in H. injection H as -> H. f_equal. f_equal.
        apply (map_inj_in _ _ _ H) || (rewrite E2 in H; clear - H; revert xs H; induction ys; intros [|? ?] H; try discriminate; auto;
          cbn in H; injection H as -> H; f_equal; auto).
    + split; [discriminate|]. intros [H1 H2]. destruct xs as [|y xs]; [discriminate|]. cbn [map] in H2. injection H2 as -> H2.
      assert (HX : initialized n c = Some xs) by (apply IH; split; [lia|exact H2]). congruence.
  - split; [intros [= <-]; split; [lia|reflexivity]|]. intros [_ H]. destruct xs; [auto|discriminate].
  - split; [discriminate|]. intros [_ H]. destruct xs; discriminate.
Qed.

(** Taking a tensor apart and putting it together again changes nothing. *)
Theorem c63_round_trip : forall T (t : tensor T), tensor_ok t -> from_raw (into_raw t) = Ok t.
Proof.
  intros T t Ht. unfold from_raw, into_raw. cbn [rw_ty rw_dims rw_cells]. pose proof (to_len Ht) as HL. pose proof (to_cap Ht) as HC.
  rewrite init_app by (rewrite sh_len_prod; lia). f_equal.
  rewrite app_length, map_length, repeat_length. unfold tn_len. rewrite sh_len_prod. destruct t; cbn in *. f_equal. lia.
Qed.
Print Assumptions c63_round_trip.

(** Which mappings may be set: exactly those whose cells are all initialized; the elements are then those
    cells.  Nothing else changes, and nothing is dropped. *)
Theorem c63_usable : forall T (r r' : raw T) dims dbg,
  set_mapping dbg r dims = Ok r' ->
  r' = mkRaw (rw_ty r) dims (rw_cells r) /\
  ((exists t, from_raw r' = Ok t) <->
   Z.to_nat (prodZ dims) <= length (rw_cells r) /\ Forall (fun c => c <> None) (firstn (Z.to_nat (prodZ dims)) (rw_cells r)))%nat /\
  (forall t, from_raw r' = Ok t -> tn_dims t = dims /\ tn_ty t = rw_ty r /\ tn_cap t = Z.of_nat (length (rw_cells r)) /\
     map Some (tn_mem t) = firstn (Z.to_nat (prodZ dims)) (rw_cells r)).
Proof.
  intros T r r' dims dbg HS. unfold set_mapping in HS.
  destruct (dassert _ _); cbn [bind] in HS; try discriminate.
  destruct (if dbg then _ else _); cbn [bind] in HS; try discriminate. injection HS as <-.
  split; [reflexivity|]. unfold from_raw. cbn [rw_ty rw_dims rw_cells]. rewrite sh_len_prod.
  destruct (initialized (Z.to_nat (prodZ dims)) (rw_cells r)) as [xs|] eqn:E.
  - apply init_iff in E. destruct E as [E1 E2]. split.
    + split; [|eauto]. intros _. split; [exact E1|]. rewrite E2. apply Forall_forall. intros c Hc. apply in_map_iff in Hc.
      destruct Hc as (x & <- & _). discriminate.
    + intros t [= <-]. cbn [tn_dims tn_ty tn_cap tn_mem]. auto.
  - split; [|discriminate]. split; [intros [t H]; discriminate|]. intros [H1 H2]. exfalso.
    assert (exists xs, firstn (Z.to_nat (prodZ dims)) (rw_cells r) = map Some xs) as [xs HX].
    { revert H2. generalize (firstn (Z.to_nat (prodZ dims)) (rw_cells r)) as l. clear.
      induction l as [|[x|] l IH]; intros H; inversion H; subst; [exists []; reflexivity| |congruence].
      destruct (IH H3) as [xs ->]. exists (x :: xs). reflexivity. }
    assert (initialized (Z.to_nat (prodZ dims)) (rw_cells r) = Some xs) by (apply init_iff; auto). congruence.
Qed.
Print Assumptions c63_usable.

(** Debug builds refuse, with a panic, exactly the mappings that overflow or exceed the capacity. *)
Theorem c63_set_mapping : forall T dbg (r : raw T) dims,
  nonneg dims ->
  (dbg = true /\ ~ (fits dims /\ prodZ dims <= Z.of_nat (length (rw_cells r))) /\ set_mapping dbg r dims = Panic) \/
  ((dbg = true -> fits dims /\ prodZ dims <= Z.of_nat (length (rw_cells r))) /\
   set_mapping dbg r dims = Ok (mkRaw (rw_ty r) dims (rw_cells r))).
Proof.
  intros T dbg r dims HN. unfold set_mapping, dassert. destruct dbg; [|right; split; [discriminate|reflexivity]].
  destruct (checked_len_cases dims) as [F|E].
  - rewrite checked_len_fits by exact F. cbn [assert bind].
    assert (EX : x_len true dims = Ok (prodZ dims)).
    { unfold x_len. enough (H : forall ds a, nonneg ds -> 0 <= a -> (forall k, a * prodZ (firstn k ds) <= usize_max) ->
        x_prod true a ds = Ok (a * prodZ ds)).
      { rewrite H; auto; [f_equal; lia|lia|]. intros k. specialize (F k). lia. }
      clear. induction ds as [|d ds IH]; intros a HN Ha HF; cbn [x_prod].
      - f_equal. unfold prodZ. cbn [fold_right]. lia.
      - inversion HN; subst. unfold u_res. replace (u_fits (a * d)) with true.
        + cbn [bind]. rewrite IH; auto; [f_equal; rewrite prodZ_cons; lia|nia|].
          intros k. specialize (HF (S k)). cbn [firstn] in HF. rewrite prodZ_cons in HF. lia.
        + specialize (HF 1%nat). cbn [firstn] in HF. rewrite prodZ_cons in HF. unfold prodZ in HF. cbn [fold_right] in HF.
          symmetry. unfold u_fits. apply andb_true_iff. split; apply Z.leb_le; nia. }
    rewrite EX. cbn [bind]. destruct (Z.leb_spec (prodZ dims) (Z.of_nat (length (rw_cells r)))); cbn [assert bind].
    + right. auto.
    + left. split; [reflexivity|]. split; [intros [_ ?]; lia|reflexivity].
  - rewrite E. left. split; [reflexivity|]. split; [|reflexivity]. intros [F _]. rewrite checked_len_fits in E by auto. discriminate.
Qed.
Print Assumptions c63_set_mapping.

(** The documented use: fill the spare capacity of a tensor from its start with [xs], then set a mapping that
    covers both: the tensor has the old elements followed by [xs], in both kinds of builds. *)
Lemma fill_cells {T} (xs : list T) : forall r i, 0 <= i -> 0 <= sh_len (rw_dims r) -> i + zlen xs <= spare_len r ->
  exists c, spare_fill r i xs = Ok (mkRaw (rw_ty r) (rw_dims r) c) /\ length c = length (rw_cells r) /\
    let p := Z.to_nat (sh_len (rw_dims r) + i) in
    c = firstn p (rw_cells r) ++ map Some xs ++ skipn (p + length xs) (rw_cells r).
Proof.
  induction xs as [|x xs IH]; intros r i Hi HD HL; cbn [spare_fill].
  - exists (rw_cells r). split; [now destruct r|]. split; [reflexivity|]. cbn [length map app]. rewrite Nat.add_0_r.
    cbv zeta. now rewrite firstn_skipn.
  - unfold zlen in HL. cbn [length] in HL. unfold spare_write. destruct (Z.ltb_spec i (spare_len r)); [|lia]. cbn [assert bind].
    set (p := Z.to_nat (sh_len (rw_dims r) + i)).
    assert (Hp : (p < length (rw_cells r))%nat) by (unfold p, spare_len in *; lia).
    set (r1 := mkRaw (rw_ty r) (rw_dims r) (upd (rw_cells r) p (Some x))).
    destruct (IH r1 (i + 1)) as (c & E & EL & EC); auto with zarith.
    { unfold spare_len, r1 in *. cbn [rw_cells rw_dims]. rewrite upd_length. unfold zlen. lia. }
    rewrite E. exists c. split; [reflexivity|]. cbn [r1 rw_cells] in EL. rewrite upd_length in EL. split; [exact EL|].
    cbn [r1 rw_cells rw_dims] in EC. cbv zeta in EC. replace (Z.to_nat (sh_len (rw_dims r) + (i + 1))) with (S p) in EC by (unfold p; lia).
    cbv zeta. rewrite EC. cbn [map length app].
    assert (HU : upd (rw_cells r) p (Some x) = firstn p (rw_cells r) ++ Some x :: skipn (S p) (rw_cells r)).
    { revert Hp. generalize (rw_cells r) as l. generalize (Some x) as y. clear. induction p as [|p IH]; intros y [|a l] H; cbn in *; try lia; auto.
      f_equal. apply IH. lia. }
    rewrite HU. remember (skipn (S p) (rw_cells r)) as tl eqn:Etl. assert (HF : length (firstn p (rw_cells r)) = p) by (rewrite firstn_length; lia).
    rewrite firstn_app, skipn_app, !HF. rewrite firstn_all2 by lia. rewrite (skipn_all2 (firstn p (rw_cells r))) by lia.
    replace (S p - p)%nat with 1%nat by lia. replace (S p + length xs - p)%nat with (S (length xs)) by lia.
    cbn [firstn skipn app]. rewrite <- app_assoc. cbn [app]. do 3 f_equal. rewrite Etl, skipn_skipn'. f_equal. lia.
Qed.

Theorem c63_fill : forall T dbg (t : tensor T) (xs : list T) dims,
  tensor_ok t -> nonneg dims -> fits dims ->
  prodZ dims = prodZ (tn_dims t) + zlen xs -> prodZ dims <= tn_cap t ->
  exists r r', spare_fill (into_raw t) 0 xs = Ok r /\ set_mapping dbg r dims = Ok r' /\
    from_raw r' = Ok (mkTensor (tn_ty t) dims (tn_mem t ++ xs) (tn_cap t)).
Proof.
  intros T dbg t xs dims Ht HN HF HP HC. pose proof (to_len Ht) as HL. pose proof (to_cap Ht) as HC'.
  assert (HD : sh_len (tn_dims t) = prodZ (tn_dims t)) by apply sh_len_prod.
  assert (HLC : length (rw_cells (into_raw t)) = Z.to_nat (tn_cap t)).
  { unfold into_raw. cbn [rw_cells]. rewrite app_length, map_length, repeat_length. unfold tn_len. lia. }
  assert (HX : 0 <= zlen xs) by (unfold zlen; lia).
  destruct (@fill_cells T xs (into_raw t) 0) as (c & E & EL & EC); [lia|cbn [into_raw rw_dims]; lia| |].
  { unfold spare_len. rewrite HLC. cbn [into_raw rw_dims]. lia. }
  cbn [into_raw rw_ty rw_dims] in E. eexists. destruct (@c63_set_mapping T dbg (mkRaw (tn_ty t) (tn_dims t) c) dims HN) as [(_ & H & _)|[_ H]].
  { exfalso. apply H. split; [exact HF|]. cbn [rw_cells]. rewrite EL, HLC. lia. }
  eexists. split; [exact E|]. split; [exact H|]. cbn [rw_ty rw_dims rw_cells].
  unfold from_raw. cbn [rw_ty rw_dims rw_cells].
  cbn [into_raw rw_dims rw_cells] in EC. cbv zeta in EC. rewrite Z.add_0_r in EC.
  rewrite firstn_app, firstn_all2 in EC by (rewrite map_length; lia).
  rewrite map_length in EC. replace (Z.to_nat (sh_len (tn_dims t)) - length (tn_mem t))%nat with 0%nat in EC by lia.
  cbn [firstn] in EC. rewrite app_nil_r, app_assoc, <- map_app in EC. rewrite EC at 1.
  rewrite init_app by (rewrite sh_len_prod, app_length; unfold zlen in *; lia). do 2 f_equal. rewrite EL, HLC. lia.
Qed.
Print Assumptions c63_fill.

(** A mapping for fewer elements keeps the first ones and forgets the others without dropping them. *)
Theorem c63_shrink : forall T dbg (t : tensor T) dims,
  tensor_ok t -> nonneg dims -> fits dims -> prodZ dims <= prodZ (tn_dims t) ->
  exists r', set_mapping dbg (into_raw t) dims = Ok r' /\ rw_cells r' = rw_cells (into_raw t) /\
    from_raw r' = Ok (mkTensor (tn_ty t) dims (firstn (Z.to_nat (prodZ dims)) (tn_mem t)) (tn_cap t)).
Proof.
  intros T dbg t dims Ht HN HF HP. pose proof (to_len Ht) as HL. pose proof (to_cap Ht) as HC'. pose proof (prodZ_nonneg HN) as H0.
  assert (HD : sh_len (tn_dims t) = prodZ (tn_dims t)) by apply sh_len_prod.
  assert (HLC : length (rw_cells (into_raw t)) = Z.to_nat (tn_cap t)).
  { unfold into_raw. cbn [rw_cells]. rewrite app_length, map_length, repeat_length. unfold tn_len. lia. }
  destruct (@c63_set_mapping T dbg (into_raw t) dims HN) as [(_ & H & _)|[_ H]].
  { exfalso. apply H. split; [exact HF|]. rewrite HLC. lia. }
  eexists. split; [exact H|]. split; [reflexivity|]. unfold from_raw. cbn [rw_ty rw_dims rw_cells]. rewrite sh_len_prod, HLC.
  assert (E : initialized (Z.to_nat (prodZ dims)) (rw_cells (into_raw t)) = Some (firstn (Z.to_nat (prodZ dims)) (tn_mem t))).
  { apply init_iff. split; [lia|]. unfold into_raw. cbn [rw_cells]. rewrite firstn_app, map_length, <- firstn_map.
    replace (Z.to_nat (prodZ dims) - length (tn_mem t))%nat with 0%nat by lia. cbn [firstn]. apply app_nil_r. }
  rewrite E. cbn [into_raw rw_ty]. do 2 f_equal. lia.
Qed.
Print Assumptions c63_shrink.

Example c63_example :
  let t := mkTensor ty2 [1; 2] [1; 2] 7 in
  tensor_ok t /\ spare_len (into_raw t) = 5 /\
  (exists r, spare_fill (into_raw t) 0 [3; 4] = Ok r /\
     (exists r', set_mapping true r [2; 2] = Ok r' /\ from_raw r' = Ok (mkTensor ty2 [2; 2] [1; 2; 3; 4] 7)) /\
     (exists r', set_mapping true r [3; 2] = Ok r' /\ from_raw r' = UB) /\
     set_mapping true r [4; 2] = Panic /\
     (exists r', set_mapping false r [4; 2] = Ok r' /\ from_raw r' = UB)) /\
  spare_fill (into_raw t) 0 [3; 4; 5; 6; 7; 8] = Panic.
Proof.
  cbv zeta. split; [constructor; wf_tac|]. split; [reflexivity|]. split; [|reflexivity].
  eexists. split; [vm_compute; reflexivity|]. split; [|split; [|split]]; try (eexists; split; vm_compute; reflexivity); vm_compute; reflexivity.
Qed.

(** ** C64: slices of dense arrays *)

Lemma flat_slice {T} (mem : list T) v xs :
  valid_view (Z.of_nat (length mem)) v -> Z.of_nat (length mem) <= usize_max -> v_layout v = Dense -> contents mem v xs ->
  exists f, v_flatten v = Ok f /\ v_ptr f = v_ptr v /\ m_len (v_map f) = prodZ (v_dims v) /\
    Ops.cells mem (v_ptr f) (m_len (v_map f)) = Ok xs /\ prodZ (v_dims v) <= usize_max.
Proof.
  intros HV HM HL HC. pose proof (valid_len (Nat2Z.is_nonneg _) HV) as HF. 
  destruct v as [p [ty dims|]]; [|discriminate HL]. change (prodZ dims <= Z.of_nat (length mem)) in HF.
  pose proof (vv_wf HV) as Hw. destruct Hw as [HN HT HWt _]. cbn [m_dims m_ty v_map] in *.
  unfold v_flatten, v_reshape. cbn [v_map v_ptr m_reshape]. unfold m_len. cbn [m_dims]. rewrite sh_len_prod.
  rewrite flatten_dims; auto.
  2:{ split; [now apply prodZ_nonneg|lia]. }
  cbn [bind v_ptr v_map m_dims]. eexists. split; [reflexivity|]. cbn [v_ptr v_map m_dims].
  rewrite sh_len_prod, prodZ_cons. replace (prodZ []) with 1 by reflexivity. rewrite Z.mul_1_r.
  split; [reflexivity|]. split; [reflexivity|]. split; [eapply cells_contents; eauto|]. unfold v_dims. cbn [v_map m_dims]. lia.
Qed.

(** [v[lo..hi]], with any kind of range, gives the elements at the linear indices of the range in order, and
    panics exactly when the range does not lie within the length. *)
Theorem c64_range : forall T (mem : list T) v lo hi,
  valid_view (Z.of_nat (length mem)) v -> Z.of_nat (length mem) <= usize_max -> v_layout v = Dense ->
  bound_arg lo -> bound_arg hi ->
  let n := prodZ (v_dims v) in let a := range_lo lo in let b := range_hi n hi in
  (a <= b <= n /\ exists s, get_slice mem v lo hi = Ok s /\ zlen s = b - a /\
     forall k, 0 <= k < b - a -> exists x, nth_error s (Z.to_nat k) = Some x /\ v_get_linear mem v (a + k) = Ok x) \/
  (~ a <= b <= n /\ get_slice mem v lo hi = Panic).
Proof.
  intros T mem v lo hi HV HM HL Hlo Hhi n a b. destruct (contents_exist HV) as [xs HC].
  destruct (flat_slice HV HM HL HC) as (f & E1 & _ & _ & E2 & HU). unfold get_slice. rewrite E1. cbn [bind]. rewrite E2. cbn [bind].
  pose proof (contents_length (vv_wf HV) HC) as HX. unfold zlen in HX. rewrite HX, ix_range_spec by auto. fold n a b.
  assert (Ha : 0 <= a) by (unfold a; destruct lo; cbn [range_lo bound_arg] in *; unfold usize in *; lia).
  destruct (Z.leb_spec a b); [|right; split; [lia|reflexivity]].
  destruct (Z.leb_spec b n); [|right; split; [lia|reflexivity]]. left. split; [lia|]. cbn [andb bind].
  eexists. split; [reflexivity|]. split.
  { unfold zlen. rewrite firstn_length, skipn_length. fold n in HX. lia. }
  intros k Hk. rewrite nth_error_firstn', nth_error_skipn'. destruct (Nat.ltb_spec (Z.to_nat k) (Z.to_nat (b - a))); [|lia].
  rewrite v_get_linear_spec; [|apply (vv_wf HV)|lia]. fold n. destruct (Z.ltb_spec (a + k) n); [|lia].
  assert (HI : in_bounds (v_dims v) (unflat (v_dims v) (a + k))) by (apply unflat_in_bounds; [apply (wf_nonneg (vv_wf HV))|fold n; lia]).
  destruct (contents_nth HC HI) as (x & EX & EG). exists x. split; [|exact EG].
  rewrite flat_unflat in EX; [|apply (wf_nonneg (vv_wf HV))|fold n; lia]. rewrite <- EX. f_equal. lia.
Qed.
Print Assumptions c64_range.

(** Without the check, a range within the length gives the same slice. *)
Theorem c64_unchecked : forall T (mem : list T) v a b,
  valid_view (Z.of_nat (length mem)) v -> Z.of_nat (length mem) <= usize_max -> v_layout v = Dense ->
  0 <= a <= b -> b <= prodZ (v_dims v) ->
  get_unchecked_slice mem v a b = get_slice mem v (Included a) (Excluded b) /\ exists s, get_slice mem v (Included a) (Excluded b) = Ok s.
Proof.
  intros T mem v a b HV HM HL Hab Hb. destruct (contents_exist HV) as [xs HC].
  destruct (flat_slice HV HM HL HC) as (f & E1 & _ & EN & E2 & HU). unfold get_slice, get_unchecked_slice. rewrite E1. cbn [bind]. rewrite E2. cbn [bind].
  pose proof (contents_length (vv_wf HV) HC) as HX. unfold zlen in HX. rewrite HX, EN.
  unfold ix_range. cbn [bind]. destruct (Z.leb_spec a b); [|lia]. destruct (Z.leb_spec b (prodZ (v_dims v))); [|lia]. cbn [andb assert bind].
  split; [|eauto]. revert E2. rewrite EN. unfold Ops.cells. destruct (Z.eqb_spec (b - a) 0) as [E|E].
  { intros _. rewrite E. reflexivity. }
  destruct (Z.eqb_spec (prodZ (v_dims v)) 0); [lia|].
  destruct (Z.leb_spec 0 (v_ptr f)); cbn [andb]; [|discriminate].
  destruct (Z.leb_spec (v_ptr f + prodZ (v_dims v)) (Z.of_nat (length mem))); [|discriminate]. intros [= <-].
  destruct (Z.leb_spec 0 (v_ptr f + a)); [|lia]. destruct (Z.leb_spec (v_ptr f + a + (b - a)) (Z.of_nat (length mem))); [|lia]. cbn [andb].
  f_equal. apply nth_error_same. intros i. rewrite !nth_error_firstn'. destruct (Nat.ltb_spec i (Z.to_nat (b - a))); [|reflexivity].
  rewrite !nth_error_skipn', nth_error_firstn'. destruct (Nat.ltb_spec (Z.to_nat a + i) (Z.to_nat (prodZ (v_dims v)))); [|lia].
  rewrite nth_error_skipn'. f_equal. lia.
Qed.
Print Assumptions c64_unchecked.

Example c64_example :
  valid_view (Z.of_nat (length ex_mem)) ex_whole /\ v_layout ex_whole = Dense /\
  get_slice ex_mem ex_whole (Included 3) (Excluded 6) = Ok [103; 104; 105] /\
  get_slice ex_mem ex_whole (Excluded 3) (Included 6) = Ok [104; 105; 106] /\
  get_slice ex_mem ex_whole (Included 22) Unbounded = Ok [122; 123] /\
  get_slice ex_mem ex_whole (Included 24) Unbounded = Ok [] /\ get_slice ex_mem ex_whole (Included 25) Unbounded = Panic /\
  get_slice ex_mem ex_whole (Included 3) (Excluded 2) = Panic /\ get_slice ex_mem ex_whole Unbounded (Included usize_max) = Panic /\
  get_unchecked_slice ex_mem ex_whole 3 6 = Ok [103; 104; 105] /\ get_unchecked_slice ex_mem ex_whole 23 25 = UB.
Proof. split; [exact ex_whole_valid|]. vm_all. Qed.
