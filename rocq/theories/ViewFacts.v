(** Facts about the view operations. *)
From Verif Require Import Base Spec SpecFacts Shape Mapping Index View Wf MappingFacts MapOps
  ReshapeFacts IndexFacts.

Unset Strict Implicit.

Lemma v_addr_dot v idx :
  wf_map (v_map v) -> length idx = length (v_dims v) ->
  v_addr v idx = v_ptr v + dot (m_strides (v_map v)) idx.
Proof. intros Hw HL. unfold v_addr. rewrite m_offset_dot; auto. apply (wf_strides Hw). Qed.

Lemma m_is_empty_spec m : m_is_empty m = (prodZ (m_dims m) =? 0).
Proof. unfold m_is_empty, sh_is_empty. now rewrite sh_len_prod. Qed.

Lemma not_empty_bounds m idx : in_bounds (m_dims m) idx -> m_is_empty m = false.
Proof.
  intros H. rewrite m_is_empty_spec. apply in_bounds_positive in H. apply prodZ_pos in H. lia.
Qed.

Lemma shows_valid n v v' f :
  valid_view n v -> wf_map (v_map v') -> shows v v' f ->
  (forall i j, in_bounds (v_dims v') i -> in_bounds (v_dims v') j -> f i = f j -> i = j) ->
  valid_view n v'.
Proof.
  intros Hv Hw HS HI. constructor; auto.
  - intros idx Hidx. destruct (HS idx Hidx) as [Hb ->]. now apply (vv_range Hv).
  - intros i j Hi Hj E. destruct (HS i Hi) as [Bi Ei]. destruct (HS j Hj) as [Bj Ej].
    apply HI; auto. apply (vv_inj Hv); auto. lia.
Qed.

Lemma shows_trans v1 v2 v3 f g :
  shows v1 v2 f -> shows v2 v3 g -> shows v1 v3 (fun idx => f (g idx)).
Proof.
  intros H1 H2 idx Hi. destruct (H2 idx Hi) as [B2 E2]. destruct (H1 _ B2) as [B1 E1].
  split; auto. lia.
Qed.

(** ** Element access *)

Lemma slice_index_multi_in m idx :
  in_bounds (m_dims m) idx -> slice_index_multi m idx = Ok (m_offset m idx).
Proof.
  intros H. unfold slice_index_multi. pose proof (in_bounds_length H) as HL.
  rewrite assert_true by (apply Nat.eqb_eq; exact HL). cbn [bind].
  assert (HF : Forall (fun i => 0 <= i) idx).
  { apply Forall_forall. intros x Hx. apply In_nth with (d := 0) in Hx as (k & Hk & <-).
    rewrite HL in Hk. pose proof (in_bounds_nth H Hk). lia. }
  destruct (@index_in_bounds_spec _ _ HL HF) as [[-> _]|[_ N]]; [reflexivity|contradiction].
Qed.

Lemma slice_index_multi_out m idx :
  Forall (fun i => 0 <= i) idx -> ~ in_bounds (m_dims m) idx -> slice_index_multi m idx = Panic.
Proof.
  intros HF HN. unfold slice_index_multi. unfold m_rank.
  destruct (Nat.eqb_spec (length idx) (length (m_dims m))) as [HL|]; [|reflexivity]. cbn [assert bind].
  destruct (@index_in_bounds_spec _ _ HL HF) as [[_ B]|[-> _]]; [contradiction|reflexivity].
Qed.

Lemma v_get_in T (mem : list T) v idx :
  in_bounds (v_dims v) idx -> v_get mem v idx = read mem (v_addr v idx).
Proof. intros H. unfold v_get. rewrite slice_index_multi_in by exact H. reflexivity. Qed.

Lemma v_get_out T (mem : list T) v idx :
  Forall (fun i => 0 <= i) idx -> ~ in_bounds (v_dims v) idx -> v_get mem v idx = Panic.
Proof. intros HF H. unfold v_get. rewrite slice_index_multi_out by auto. reflexivity. Qed.

Lemma read_ok T (mem : list T) a :
  0 <= a < Z.of_nat (length mem) -> exists x, read mem a = Ok x /\ nth_error mem (Z.to_nat a) = Some x.
Proof.
  intros H. unfold read. destruct (Z.ltb_spec a 0); [lia|].
  destruct (nth_error mem (Z.to_nat a)) eqn:E; [eauto|]. apply nth_error_None in E. lia.
Qed.

Lemma v_get_shows T (mem : list T) v v' f idx :
  shows v v' f -> in_bounds (v_dims v') idx -> v_get mem v' idx = v_get mem v (f idx).
Proof.
  intros HS Hi. destruct (HS idx Hi) as [Hb E]. rewrite !v_get_in by auto. now rewrite E.
Qed.

Lemma v_get_linear_spec T (mem : list T) v k :
  wf_map (v_map v) -> 0 <= k ->
  v_get_linear mem v k =
  if k <? prodZ (v_dims v) then v_get mem v (unflat (v_dims v) k) else Panic.
Proof.
  intros Hw Hk. unfold v_get_linear, slice_index_linear, m_len. rewrite sh_len_prod.
  destruct (Z.ltb_spec k (prodZ (v_dims v))) as [H|H]; unfold v_dims in *.
  - rewrite assert_true by lia. cbn [bind].
    rewrite v_get_in by (apply unflat_in_bounds; [apply (wf_nonneg Hw)|lia]).
    rewrite m_linear_offset_spec; auto. unfold m_len. rewrite sh_len_prod. lia.
  - rewrite assert_false by lia. reflexivity.
Qed.

(** ** Whole arrays *)

Lemma wf_whole ty dims : nonneg dims -> typed ty dims -> ty_wf ty -> wf_map (DenseM ty dims).
Proof. intros. constructor; simpl; auto. apply row_major_length. Qed.

Lemma whole_addr ty dims idx : in_bounds dims idx -> v_addr (whole ty dims) idx = flat dims idx.
Proof.
  intros H. unfold v_addr, whole. cbn [v_ptr v_map].
  rewrite m_offset_dot by (simpl; auto using row_major_length, in_bounds_length).
  cbn [m_strides]. rewrite dot_row_major by now apply in_bounds_length. lia.
Qed.

Lemma whole_valid ty dims n :
  nonneg dims -> typed ty dims -> ty_wf ty -> prodZ dims <= n -> valid_view n (whole ty dims).
Proof.
  intros HN HT HW Hn. constructor.
  - now apply wf_whole.
  - intros idx H. change (in_bounds dims idx) in H. rewrite whole_addr by auto.
    apply flat_bounds in H. lia.
  - intros i j Hi Hj E. change (in_bounds dims i) in Hi. change (in_bounds dims j) in Hj.
    rewrite !whole_addr in E by auto. eapply flat_inj; eauto.
Qed.

(** ** axis_at *)

Lemma v_axis_at_ok v a i k :
  wf_map (v_map v) -> is_axis a (length (v_dims v)) i -> 0 <= k < nth i (v_dims v) 0 ->
  exists v', v_axis_at v a k = Ok v' /\ v_dims v' = remove_at i (v_dims v) /\
    v_ty v' = ax_remove a (v_ty v) /\ v_layout v' = ax_split a (v_ty v) (v_layout v) /\
    wf_map (v_map v') /\ shows v v' (insert_at i k).
Proof.
  intros Hw HA Hk. unfold v_axis_at.
  assert (HA' : is_axis a (m_rank (v_map v)) i) by exact HA.
  assert (Hi : (i < m_rank (v_map v))%nat) by apply HA'.
  rewrite (ax_index_ok HA'). cbn [bind]. rewrite m_dim_ok by auto. cbn [bind].
  unfold v_dims in *. rewrite assert_true by lia. cbn [bind].
  destruct (ax_remove_map_ok Hw HA') as (m' & -> & Hd & Hs & Hty & Hl & Hw'). cbn [bind].
  rewrite m_stride_ok by (auto; apply (wf_strides Hw)). cbn [bind].
  eexists. split; [reflexivity|]. cbn [v_map v_dims v_ty v_layout]. repeat (split; [assumption|]).
  intros idx Hidx. unfold v_dims in *. cbn [v_map] in Hidx. rewrite Hd in Hidx.
  assert (Hb : in_bounds (m_dims (v_map v)) (insert_at i k idx)) by (apply in_bounds_insert; auto).
  split; auto.
  pose proof (in_bounds_length Hidx) as HL. rewrite remove_at_length in HL by auto.
  rewrite !v_addr_dot; auto; cbn [v_map v_ptr v_dims].
  - rewrite (@not_empty_bounds m' idx) by (rewrite Hd; auto).
    rewrite Hs, dot_remove; rewrite ?(wf_strides Hw); auto. lia.
  - unfold v_dims. now apply in_bounds_length.
  - unfold v_dims. cbn [v_map]. rewrite Hd, remove_at_length by auto. lia.
Qed.

Lemma v_axis_at_panic v a k :
  wf_map (v_map v) -> 0 <= k ->
  (forall i, is_axis a (length (v_dims v)) i -> nth i (v_dims v) 0 <= k) ->
  v_axis_at v a k = Panic.
Proof.
  intros Hw Hk H. unfold v_axis_at.
  destruct (ax_index_spec a (m_rank (v_map v))) as [(i & -> & HA)|[-> _]]; [|reflexivity].
  cbn [bind]. assert (Hi : (i < m_rank (v_map v))%nat) by apply HA.
  rewrite m_dim_ok by auto. cbn [bind]. specialize (H i HA). unfold v_dims in H.
  rewrite assert_false by lia. reflexivity.
Qed.

Lemma insert_at_inj {A} n (x : A) a b :
  (n <= length a)%nat -> (n <= length b)%nat -> insert_at n x a = insert_at n x b -> a = b.
Proof.
  intros Ha Hb E. rewrite <- (@remove_insert A n x a), <- (@remove_insert A n x b) by auto.
  now rewrite E.
Qed.

Lemma v_axis_at_valid n v a i k v' :
  valid_view n v -> is_axis a (length (v_dims v)) i -> 0 <= k < nth i (v_dims v) 0 ->
  v_axis_at v a k = Ok v' -> valid_view n v'.
Proof.
  intros Hv HA Hk H. destruct (v_axis_at_ok (vv_wf Hv) HA Hk) as (v2 & E & Hd & _ & _ & Hw & HS).
  rewrite H in E. injection E as <-.
  eapply shows_valid; eauto. intros x y Hx Hy.
  apply in_bounds_length in Hx. apply in_bounds_length in Hy. rewrite Hd in Hx, Hy.
  assert (Hi : (i < length (v_dims v))%nat) by apply HA.
  rewrite remove_at_length in Hx, Hy by auto. apply insert_at_inj; lia.
Qed.

(** ** split_axis_at *)

Definition shift (i : nat) (k : Z) (idx : list Z) : list Z := upd idx i (nth i idx 0 + k).

Lemma shift0 i idx : shift i 0 idx = idx.
Proof.
  unfold shift. rewrite Z.add_0_r. destruct (Nat.lt_ge_cases i (length idx)).
  - now apply upd_same.
  - now apply upd_out.
Qed.

Lemma in_bounds_upd dims idx i d x :
  in_bounds (upd dims i d) idx -> (i < length dims)%nat -> 0 <= x < nth i dims 0 ->
  in_bounds dims (upd idx i x).
Proof.
  intros H Hi Hx. pose proof (in_bounds_length H) as HL. rewrite upd_length in HL.
  apply in_bounds_intro; [now rewrite upd_length|]. intros j Hj.
  destruct (Nat.eq_dec i j) as [<-|NE].
  - rewrite upd_nth_same by lia. lia.
  - rewrite upd_nth_other by auto. assert (Hj' : (j < length (upd dims i d))%nat) by (rewrite upd_length; lia).
    pose proof (in_bounds_nth H Hj') as B. now rewrite upd_nth_other in B by auto.
Qed.

Lemma v_split_ok v a i mid :
  wf_map (v_map v) -> is_axis a (length (v_dims v)) i -> 0 <= mid <= nth i (v_dims v) 0 ->
  exists v1 v2, v_split_axis_at v a mid = Ok (v1, v2) /\
    v_dims v1 = upd (v_dims v) i mid /\ v_dims v2 = upd (v_dims v) i (nth i (v_dims v) 0 - mid) /\
    v_ty v1 = ax_resize_ty a (v_ty v) /\ v_ty v2 = ax_resize_ty a (v_ty v) /\
    v_layout v1 = ax_split a (v_ty v) (v_layout v) /\ v_layout v2 = ax_split a (v_ty v) (v_layout v) /\
    wf_map (v_map v1) /\ wf_map (v_map v2) /\
    shows v v1 (fun idx => idx) /\ shows v v2 (shift i mid).
Proof.
  intros Hw HA Hk. unfold v_split_axis_at.
  assert (HA' : is_axis a (m_rank (v_map v)) i) by exact HA.
  assert (Hi : (i < m_rank (v_map v))%nat) by apply HA'.
  rewrite (ax_index_ok HA'). cbn [bind]. rewrite m_dim_ok by auto. cbn [bind].
  unfold v_dims in *. rewrite assert_true by lia. cbn [bind].
  destruct (@ax_resize_map_ok a (v_map v) i mid Hw HA') as (m1 & -> & Hd1 & Hs1 & Hty1 & Hl1 & Hw1); [lia|].
  cbn [bind].
  destruct (@ax_resize_map_ok a (v_map v) i (nth i (m_dims (v_map v)) 0 - mid) Hw HA')
    as (m2 & -> & Hd2 & Hs2 & Hty2 & Hl2 & Hw2); [lia|].
  cbn [bind]. rewrite m_stride_ok by (auto; apply (wf_strides Hw)). cbn [bind].
  eexists _, _. split; [reflexivity|]. cbn [v_map v_dims v_ty v_layout]. repeat (split; [assumption|]).
  unfold m_rank in Hi.
  split; intros idx Hidx; unfold v_dims in *; cbn [v_map] in Hidx.
  - rewrite Hd1 in Hidx.
    pose proof (in_bounds_length Hidx) as HL. rewrite upd_length in HL.
    assert (Hi' : (i < length (upd (m_dims (v_map v)) i mid))%nat) by (rewrite upd_length; auto).
    pose proof (in_bounds_nth Hidx Hi') as B. rewrite upd_nth_same in B by auto.
    assert (Hb : in_bounds (m_dims (v_map v)) idx).
    { rewrite <- (@upd_same Z idx i 0) by lia. eapply in_bounds_upd; eauto. lia. }
    split; auto.
    rewrite !v_addr_dot; auto; cbn [v_map v_ptr v_dims].
    + now rewrite Hs1.
    + unfold v_dims. cbn [v_map]. rewrite Hd1, upd_length. exact HL.
  - rewrite Hd2 in Hidx.
    pose proof (in_bounds_length Hidx) as HL. rewrite upd_length in HL.
    assert (Hi' : (i < length (upd (m_dims (v_map v)) i (nth i (m_dims (v_map v)) 0%Z - mid)%Z))%nat)
      by (rewrite upd_length; auto).
    pose proof (in_bounds_nth Hidx Hi') as B. rewrite upd_nth_same in B by auto.
    assert (Hb : in_bounds (m_dims (v_map v)) (shift i mid idx)).
    { eapply in_bounds_upd; eauto. lia. }
    split; auto.
    rewrite !v_addr_dot; auto; cbn [v_map v_ptr v_dims].
    + rewrite (@not_empty_bounds m2 idx) by (rewrite Hd2; auto).
      rewrite Hs2. unfold shift. rewrite dot_upd; rewrite ?(wf_strides Hw); auto. lia.
    + unfold v_dims. rewrite (in_bounds_length Hb). reflexivity.
    + unfold v_dims. cbn [v_map]. rewrite Hd2, upd_length. exact HL.
Qed.

Lemma v_split_panic v a mid :
  wf_map (v_map v) -> 0 <= mid ->
  (forall i, is_axis a (length (v_dims v)) i -> nth i (v_dims v) 0 < mid) ->
  v_split_axis_at v a mid = Panic.
Proof.
  intros Hw Hk H. unfold v_split_axis_at.
  destruct (ax_index_spec a (m_rank (v_map v))) as [(i & -> & HA)|[-> _]]; [|reflexivity].
  cbn [bind]. assert (Hi : (i < m_rank (v_map v))%nat) by apply HA.
  rewrite m_dim_ok by auto. cbn [bind]. specialize (H i HA). unfold v_dims in H.
  rewrite assert_false by lia. reflexivity.
Qed.

Lemma shift_inj i k a b : length a = length b -> shift i k a = shift i k b -> a = b.
Proof.
  intros HL E. apply list_ext0; auto. intros j Hj.
  assert (En : nth j (shift i k a) 0 = nth j (shift i k b) 0) by now rewrite E.
  unfold shift in En. destruct (Nat.eq_dec i j) as [->|NE].
  - rewrite !upd_nth_same in En by lia. lia.
  - now rewrite !upd_nth_other in En by auto.
Qed.

(** ** view *)

Lemma v_view_ok v xs :
  wf_map (v_map v) -> Forall ix_arg xs -> Forall (fun d => d <= usize_max) (v_dims v) ->
  length xs = length (v_dims v) -> Forall2 ix_ok (v_dims v) xs ->
  exists v', v_view v xs = Ok v' /\ v_dims v' = sub_dims (v_dims v) xs /\
    v_ty v' = vi_shape xs (v_ty v) /\ v_layout v' = vi_layout xs (v_layout v) /\
    wf_map (v_map v') /\ shows v v' (sub_index (v_dims v) xs).
Proof.
  intros Hw HA HM HL HO. unfold v_view.
  assert (HR : (m_rank (v_map v) - length xs = 0)%nat) by (unfold m_rank, v_dims in *; lia).
  pose proof (@view_index_spec xs (v_ty v) (v_map v) Hw) as VS. cbv zeta in VS.
  rewrite HR in VS. cbn [skipn] in VS.
  destruct VS as [(_ & m' & E & Hty & Hl & Hd & Hs & Hw')|(N & _)];
    auto; [unfold m_rank, v_dims in *; lia|apply (wf_typed Hw)| |contradiction].
  rewrite E. cbn [bind].
  eexists. split; [reflexivity|]. cbn [v_map v_dims v_ty v_layout]. repeat (split; [assumption|]).
  unfold v_dims in *.
  intros idx Hidx. unfold v_dims in *; cbn [v_map] in Hidx. rewrite Hd in Hidx.
  pose proof (wf_nonneg Hw) as HN.
  pose proof (sub_index_bounds HN HA HO Hidx) as Hb. split; auto.
  rewrite !v_addr_dot; auto; cbn [v_map v_ptr v_dims].
  - rewrite (@not_empty_bounds m' idx) by (rewrite Hd; auto).
    rewrite Hs. rewrite <- (@sub_addr (m_dims (v_map v)) (m_strides (v_map v)) xs idx); auto; [lia|].
    apply (wf_strides Hw).
  - unfold v_dims. now apply in_bounds_length.
  - unfold v_dims. cbn [v_map]. rewrite Hd. now apply in_bounds_length.
Qed.

Lemma v_view_panic v xs :
  wf_map (v_map v) -> Forall ix_arg xs -> Forall (fun d => d <= usize_max) (v_dims v) ->
  length xs = length (v_dims v) -> ~ Forall2 ix_ok (v_dims v) xs -> v_view v xs = Panic.
Proof.
  intros Hw HA HM HL HO. unfold v_view.
  assert (HR : (m_rank (v_map v) - length xs = 0)%nat) by (unfold m_rank, v_dims in *; lia).
  pose proof (@view_index_spec xs (v_ty v) (v_map v) Hw) as VS. cbv zeta in VS.
  rewrite HR in VS. cbn [skipn] in VS.
  destruct VS as [(C & _)|(_ & ->)];
    auto; [unfold m_rank, v_dims in *; lia|apply (wf_typed Hw)|contradiction].
Qed.

(** ** permute *)

Lemma nth_error_Forall2 {A B} (R : A -> B -> Prop) a b i x d :
  Forall2 R a b -> nth_error a i = Some x -> R x (nth i b d) /\ (i < length b)%nat.
Proof.
  intros H. revert i. induction H as [|u w a b HR H IH]; intros [|i] E; simpl in *; try discriminate.
  - injection E as <-. split; auto. lia.
  - destruct (IH i E). split; auto. lia.
Qed.

Lemma perm_dense_identity xs l perm n :
  perm_matches (PermTuple xs) perm -> perm_of n perm -> perm_layout xs l = Dense ->
  l = Dense /\ perm = map Z.of_nat (seq 0 n).
Proof.
  intros [HM H6] HP HL. pose proof (perm_of_length HP) as HLp. pose proof (Forall2_len HM) as HLx.
  assert (HI : l = Dense /\ (xs = [] \/ (exists x, xs = [x]) \/ perm_init xs = STuple [])).
  { destruct xs as [|x [|y xs]]; cbn [perm_layout] in HL.
    - apply sh_layout_dense in HL as [_ ->]. auto.
    - eauto.
    - apply sh_layout_dense in HL as [E ->]. auto. }
  destruct HI as [-> HI]. split; auto.
  destruct HI as [->|[[x ->]|E]].
  - inversion HM; subst; simpl in *; subst; reflexivity.
  - inversion HM as [|? q ? ? ? HM2]; subst. inversion HM2; subst; simpl in *; subst.
    change [0] with (map Z.of_nat (seq 0 1)). apply perm_below_identity; auto. intros i Hi.
    destruct (perm_of_nth_bound HP Hi) as [H0 _]. lia.
  - apply rk_le_nil in E. destruct xs as [|x xs].
    + inversion HM; subst; simpl in *; subst; reflexivity.
    + rewrite rk_le_perm in E by (simpl in *; lia).
      apply perm_below_identity; auto. intros i Hi.
      destruct (nth_error (x :: xs) i) as [y|] eqn:Ey.
      2:{ apply nth_error_None in Ey. lia. }
      destruct (E i y Ey) as (k & -> & Hk).
      destruct (nth_error_Forall2 0 HM Ey) as [-> _]. lia.
Qed.

Lemma perm_identity_dense xs perm n l :
  perm_matches (PermTuple xs) perm -> Forall (fun x => x <> PDyn) xs ->
  perm = map Z.of_nat (seq 0 n) -> perm_layout xs l = l.
Proof.
  intros [HM H6] HC HP. pose proof (Forall2_len HM) as HLx. subst perm.
  rewrite map_length, seq_length in HLx.
  destruct xs as [|x [|y xs]]; try reflexivity. cbn [perm_layout].
  enough (E : perm_init (x :: y :: xs) = STuple []) by (rewrite E; reflexivity).
  apply rk_le_nil. apply rk_le_perm; [simpl in *; lia|simpl; lia|].
  intros i z Ez. destruct (nth_error_Forall2 0 HM Ez) as [Hz Hi].
  rewrite map_length, seq_length in Hi. rewrite nth_map_seq in Hz by auto.
  destruct z as [k|].
  - exists k. split; auto. lia.
  - exfalso. rewrite Forall_forall in HC. eapply HC; [|reflexivity]. eapply nth_error_In; eauto.
Qed.

Lemma pax_dim_ok x s dims q n :
  typed s dims -> length dims = n ->
  match x with PConst k => q = Z.of_nat k | PDyn => True end ->
  0 <= q < Z.of_nat n -> dim_ok (pax_dim x s) (nth (Z.to_nat q) dims 0).
Proof.
  intros HT HL HQ Hq. destruct x as [k|]; simpl; auto. subst q. rewrite Nat2Z.id.
  apply cdim_ok; auto. lia.
Qed.

Lemma perm_shape_typed xs s dims perm n :
  typed s dims -> length dims = n -> Forall (fun q => 0 <= q < Z.of_nat n) perm ->
  Forall2 (fun x q => match x with PConst k => q = Z.of_nat k | PDyn => True end) xs perm ->
  typed (perm_shape xs s) (pick perm dims).
Proof.
  intros HT HL HB HM. revert HB. induction HM as [|x q xs perm HQ HM IH]; intros HB.
  - constructor.
  - inversion HB; subst. pose proof (pax_dim_ok HT eq_refl HQ H1) as HD.
    assert (G : typed (sh_prepend (pax_dim x s) (perm_shape xs s)) (pick (q :: perm) dims)).
    { cbn [pick map]. apply typed_prepend; auto. }
    destruct xs as [|y xs]; [|exact G].
    inversion HM; subst. cbn. constructor; auto.
Qed.

Lemma perm_shape_wf xs s : ty_wf (perm_shape xs s).
Proof. destruct xs as [|x [|y xs]]; simpl; try lia. apply ty_wf_prepend. Qed.

Lemma perm_arg_typed p s dims perm n :
  typed s dims -> ty_wf s -> length dims = n -> perm_of n perm -> perm_matches p perm ->
  typed (perm_arg_shape p s) (pick perm dims) /\ ty_wf (perm_arg_shape p s).
Proof.
  intros HT HW HL HP HM. destruct p as [xs|]; cbn [perm_arg_shape].
  - split; [|apply perm_shape_wf]. destruct HM as [HM _].
    eapply perm_shape_typed; eauto. apply Forall_forall. intros q Hq. now apply (perm_of_in _ HP).
  - split; [|now apply ty_wf_dyn]. eapply typed_dyn; eauto. rewrite pick_length.
    rewrite (perm_of_length HP). auto.
Qed.

Lemma nth_map0 (h : Z -> Z) l i : (i < length l)%nat -> nth i (map h l) 0 = h (nth i l 0).
Proof. revert i. induction l; intros [|i] H; simpl in *; try lia; auto. apply IHl. lia. Qed.

Lemma dot_pick n perm s idx :
  perm_of n perm -> length s = n -> length idx = n -> dot (pick perm s) (pick perm idx) = dot s idx.
Proof.
  intros HP Hs Hi. pose proof (perm_of_length HP) as HL.
  rewrite !dot_sum; rewrite ?pick_length; try lia.
  transitivity (sumZ (map (fun q => nth (Z.to_nat q) s 0 * nth (Z.to_nat q) idx 0) perm)).
  - f_equal. apply list_ext0; [rewrite !map_length, seq_length; auto|].
    intros i Hi'. rewrite map_length, seq_length in Hi'. rewrite nth_map_seq by auto.
    rewrite !nth_pick by auto.
    now rewrite nth_map0 by auto.
  - rewrite (sumZ_perm (Permutation_map _ HP)). rewrite map_map. f_equal. rewrite Hs.
    apply map_ext. intros i. now rewrite Nat2Z.id.
Qed.

Lemma in_bounds_pick n perm dims idx :
  perm_of n perm -> length dims = n -> length idx = n ->
  (in_bounds (pick perm dims) (pick perm idx) <-> in_bounds dims idx).
Proof.
  intros HP Hd Hi. pose proof (perm_of_length HP) as HL. split; intros H.
  - apply in_bounds_intro; [lia|]. intros k Hk. rewrite Hd in Hk.
    destruct (perm_of_surj HP Hk) as (j & Hj & Ej).
    assert (Hj' : (j < length (pick perm dims))%nat) by (rewrite pick_length; lia).
    pose proof (in_bounds_nth H Hj') as B. rewrite !nth_pick, Ej, Nat2Z.id in B by lia. exact B.
  - apply in_bounds_intro; [rewrite !pick_length; lia|]. intros k Hk. rewrite pick_length in Hk.
    rewrite !nth_pick by auto. apply in_bounds_nth; auto. rewrite Hd.
    apply (perm_of_nth_bound HP). lia.
Qed.

(** Inverse of [pick perm]. *)
Definition unpick (perm idx : list Z) : list Z :=
  fold_left (fun acc i => upd acc (Z.to_nat (nth i perm 0)) (nth i idx 0))
    (seq 0 (length perm)) (repeat 0 (length perm)).

Lemma unpick_length perm idx : length (unpick perm idx) = length perm.
Proof. unfold unpick. rewrite (fold_upd_length (fun i => Z.to_nat (nth i perm 0))). apply repeat_length. Qed.

Lemma pick_unpick n perm idx : perm_of n perm -> length idx = n -> pick perm (unpick perm idx) = idx.
Proof.
  intros HP HL. pose proof (perm_of_length HP) as HLp.
  apply list_ext0; [rewrite pick_length; lia|]. intros i Hi. rewrite pick_length in Hi.
  rewrite nth_pick by auto. unfold unpick.
  rewrite (fold_upd_same (fun i => Z.to_nat (nth i perm 0)) (fun i => nth i idx 0)); auto.
  - apply NoDup_map_seq. intros a b Ha Hb E. rewrite HLp in *.
    pose proof (perm_of_nth_bound HP Ha). pose proof (perm_of_nth_bound HP Hb).
    apply (perm_of_nth_inj HP); auto; lia.
  - intros j Hj. apply in_seq in Hj. rewrite repeat_length, HLp. apply (perm_of_nth_bound HP). lia.
  - apply in_seq. lia.
Qed.

Lemma pick_inj n perm a b :
  perm_of n perm -> length a = n -> length b = n -> pick perm a = pick perm b -> a = b.
Proof.
  intros HP Ha Hb E. apply list_ext0; [lia|]. intros k Hk. rewrite Ha in Hk.
  destruct (perm_of_surj HP Hk) as (j & Hj & Ej). pose proof (perm_of_length HP) as HL.
  assert (En : nth j (pick perm a) 0 = nth j (pick perm b) 0) by now rewrite E.
  now rewrite !nth_pick, Ej, Nat2Z.id in En by lia.
Qed.

Lemma unpick_inj n perm a b :
  perm_of n perm -> length a = n -> length b = n -> unpick perm a = unpick perm b -> a = b.
Proof.
  intros HP Ha Hb E. rewrite <- (@pick_unpick n perm a), <- (@pick_unpick n perm b) by auto. now rewrite E.
Qed.

Lemma v_permute_ok v p perm :
  wf_map (v_map v) -> (length (v_dims v) < 64)%nat ->
  perm_matches p perm -> perm_of (length (v_dims v)) perm ->
  exists v', v_permute v p perm = Ok v' /\ v_dims v' = pick perm (v_dims v) /\
    v_ty v' = perm_arg_shape p (v_ty v) /\ v_layout v' = perm_arg_layout p (v_layout v) /\
    wf_map (v_map v') /\ shows v v' (unpick perm).
Proof.
  intros Hw Hr HM HP. unfold v_permute.
  destruct (perm_arg_typed (wf_typed Hw) (wf_ty Hw) eq_refl HP HM) as [HT HW].
  apply accepts_typed in HT as HT'. pose proof (perm_of_length HP) as HLp.
  assert (HN : nonneg (pick perm (v_dims v))).
  { unfold nonneg. apply Forall_forall. intros x Hx. apply in_map_iff in Hx as (q & <- & Hq).
    apply (perm_of_in _ HP) in Hq.
    pose proof (wf_nonneg Hw) as HN. unfold nonneg in HN. rewrite Forall_forall in HN. apply HN.
    apply nth_In. unfold v_dims in *. lia. }
  assert (Hsh : forall m', m_dims m' = pick perm (m_dims (v_map v)) ->
    m_strides m' = pick perm (m_strides (v_map v)) -> wf_map m' ->
    shows v (mkView (v_ptr v) m') (unpick perm)).
  { intros m' Hd Hs Hw' idx Hidx. unfold v_dims in *. cbn [v_map] in *. rewrite Hd in Hidx.
    pose proof (in_bounds_length Hidx) as HLi. rewrite pick_length in HLi.
    assert (EU : pick perm (unpick perm idx) = idx) by (eapply pick_unpick; eauto; lia).
    assert (HLu : length (unpick perm idx) = length (m_dims (v_map v))) by (rewrite unpick_length; lia).
    rewrite <- EU in Hidx. split.
    - apply (proj1 (@in_bounds_pick (length (m_dims (v_map v))) perm _ _ HP eq_refl HLu) Hidx).
    - rewrite !v_addr_dot; auto; cbn [v_map v_ptr v_dims].
      + rewrite Hs. rewrite <- EU at 1. erewrite dot_pick; eauto. apply (wf_strides Hw).
      + unfold v_dims. cbn [v_map]. rewrite Hd, pick_length. lia. }
  destruct (perm_arg_layout p (v_layout v)) eqn:L.
  - destruct p as [xs|]; [|discriminate]. cbn [perm_arg_layout] in L.
    destruct (perm_dense_identity HM HP L) as [HL HI].
    unfold v_layout in HL. destruct (v_map v) as [ty dims|] eqn:EM; [|discriminate].
    unfold v_ty, v_dims in *. rewrite EM in *. cbn [m_dims m_ty m_strides] in *.
    assert (EP : pick perm dims = dims) by (rewrite HI; apply pick_identity).
    assert (ES : pick perm (row_major dims) = row_major dims).
    { rewrite HI. rewrite <- (row_major_length dims) at 1. apply pick_identity. }
    rewrite EP in *.
    rewrite m_permute_dense by auto. cbn [m_dims]. rewrite HT'. cbn [bind].
    eexists. split; [reflexivity|]. cbn [v_map v_dims m_dims m_ty v_ty v_layout m_layout].
    assert (Hw' : wf_map (DenseM (perm_arg_shape (PermTuple xs) ty) dims)) by now apply wf_whole.
    do 4 (split; [auto|]). apply (Hsh (DenseM (perm_arg_shape (PermTuple xs) ty) dims)); auto.
  - rewrite m_permute_strided by (auto; apply (wf_strides Hw)). unfold v_dims, v_ty in *. rewrite HT'.
    cbn [bind].
    eexists. split; [reflexivity|]. cbn [v_map v_dims m_dims m_ty v_ty v_layout m_layout].
    assert (Hw' : wf_map (StridedM (perm_arg_shape p (v_ty v)) (pick perm (m_dims (v_map v))) (pick perm (m_strides (v_map v))))).
    { constructor; cbn [m_dims m_ty m_strides]; auto. now rewrite !pick_length. }
    do 4 (split; [auto|]). apply Hsh; auto.
Qed.

Lemma v_permute_panic v p perm :
  wf_map (v_map v) -> (length (v_dims v) < 64)%nat -> Forall (fun q => 0 <= q) perm ->
  perm_matches p perm -> ~ perm_of (length (v_dims v)) perm -> v_permute v p perm = Panic.
Proof.
  intros Hw Hr HF HM HP. unfold v_permute. destruct (perm_arg_layout p (v_layout v)).
  - rewrite m_permute_dense_panic; [reflexivity|]. intros ->. apply HP. unfold perm_of. reflexivity.
  - rewrite m_permute_strided_panic; auto.
Qed.

(** ** reorder *)

Lemma v_reorder_ok v :
  wf_map (v_map v) ->
  exists v', v_reorder v = Ok v' /\ v_dims v' = rev (v_dims v) /\
    v_ty v' = sh_reverse (v_ty v) /\ v_layout v' = sh_layout (sh_tail (v_ty v)) (v_layout v) /\
    wf_map (v_map v') /\ shows v v' (@rev Z).
Proof.
  intros Hw. unfold v_reorder.
  pose proof (typed_rev (wf_typed Hw)) as HT. apply accepts_typed in HT as HT'.
  pose proof (ty_wf_reverse (wf_ty Hw)) as HW.
  assert (HN : nonneg (rev (m_dims (v_map v)))).
  { unfold nonneg. apply Forall_rev. apply (wf_nonneg Hw). }
  assert (Hsh : forall m', m_dims m' = rev (m_dims (v_map v)) ->
    m_strides m' = rev (m_strides (v_map v)) -> wf_map m' ->
    shows v (mkView (v_ptr v) m') (@rev Z)).
  { intros m' Hd Hs Hw' idx Hidx. unfold v_dims in *. cbn [v_map] in *. rewrite Hd in Hidx.
    pose proof (in_bounds_length Hidx) as HLi. rewrite rev_length in HLi.
    assert (Hb : in_bounds (m_dims (v_map v)) (rev idx)).
    { apply Forall2_rev in Hidx. now rewrite rev_involutive in Hidx. }
    split; auto.
    rewrite !v_addr_dot; auto; cbn [v_map v_ptr v_dims].
    - rewrite Hs. rewrite <- (rev_involutive idx) at 1. rewrite dot_rev; auto.
      rewrite rev_length, HLi. apply (wf_strides Hw).
    - unfold v_dims. now rewrite rev_length.
    - unfold v_dims. cbn [v_map]. now rewrite Hd, rev_length. }
  destruct (sh_layout (sh_tail (v_ty v)) (v_layout v)) eqn:L.
  - apply sh_layout_dense in L as [ET EL].
    unfold v_layout, v_ty in *. destruct (v_map v) as [ty dims|] eqn:EM; [|discriminate].
    cbn [m_ty m_dims] in *.
    assert (HR : (length dims < 2)%nat).
    { pose proof (wf_typed Hw) as HTy. cbn [m_ty m_dims] in HTy.
      destruct ty as [|[|d0 [|d1 ds]]]; simpl in ET; try discriminate; simpl in HTy;
        apply Forall2_len in HTy; simpl in HTy; lia. }
    unfold m_reorder. cbn [m_ty m_layout is_dense m_dims]. unfold m_rank. cbn [m_dims].
    rewrite assert_true by (apply andb_true_iff; split; [apply Nat.ltb_lt; auto|reflexivity]).
    cbn [bind]. rewrite sh_reverse_dims_spec, HT'. cbn [bind].
    eexists. split; [reflexivity|]. cbn [v_map v_dims m_dims m_ty v_ty v_layout m_layout].
    unfold v_dims in *. rewrite EM in *. cbn [v_map m_dims m_ty].
    assert (Hw' : wf_map (DenseM (sh_reverse ty) (rev dims))) by now apply wf_whole.
    do 4 (split; [auto|]). apply Hsh; auto. cbn [m_strides].
    destruct dims as [|d0 [|d1 dims]]; simpl in *; auto; lia.
  - rewrite m_reorder_strided by apply (wf_strides Hw). unfold v_dims, v_ty in *. rewrite HT'. cbn [bind].
    eexists. split; [reflexivity|]. cbn [v_map v_dims m_dims m_ty v_ty v_layout m_layout].
    assert (Hw' : wf_map (StridedM (sh_reverse (m_ty (v_map v))) (rev (m_dims (v_map v))) (rev (m_strides (v_map v))))).
    { constructor; cbn [m_dims m_ty m_strides]; auto. rewrite !rev_length. apply (wf_strides Hw). }
    do 4 (split; [auto|]). apply Hsh; auto.
Qed.

(** ** reshape *)

Lemma v_reshape_sound v ty req v' :
  wf_map (v_map v) -> nonneg req -> ty_wf ty ->
  match sh_rank ty with Some k => length req = k | None => True end ->
  v_reshape v ty req = Ok v' ->
  sh_reshape (v_dims v) ty req = Ok (v_dims v') /\ v_ty v' = ty /\ v_layout v' = v_layout v /\
  wf_map (v_map v') /\ prodZ (v_dims v') = prodZ (v_dims v) /\
  shows v v' (fun idx => unflat (v_dims v) (flat (v_dims v') idx)).
Proof.
  intros Hw HN HW HR H. unfold v_reshape in H. apply bind_ok in H as (m' & E & H). injection H as <-.
  destruct (@m_reshape_sound _ _ _ _ Hw HN HW HR E) as (E1 & E2 & E3 & Hw' & EL & HO).
  unfold v_dims, v_ty, v_layout in *. cbn [v_map] in *.
  unfold m_len in *. rewrite !sh_len_prod in *.
  repeat (split; [assumption|]).
  intros idx Hidx. unfold v_dims in *. cbn [v_map] in *.
  pose proof (flat_bounds Hidx) as FB. rewrite EL in FB.
  split; [apply unflat_in_bounds; auto; apply (wf_nonneg Hw)|].
  unfold v_addr. cbn [v_map v_ptr]. f_equal.
  assert (FB' : 0 <= flat (m_dims m') idx < m_len m') by (unfold m_len; rewrite sh_len_prod; lia).
  assert (FB2 : 0 <= flat (m_dims m') idx < m_len (v_map v)) by (unfold m_len; rewrite sh_len_prod; lia).
  rewrite <- m_linear_offset_spec by auto. rewrite <- HO by auto.
  rewrite m_linear_offset_spec by auto. now rewrite unflat_flat.
Qed.

Lemma reshape_f_inj v v' i j :
  nonneg (v_dims v) -> prodZ (v_dims v') = prodZ (v_dims v) ->
  in_bounds (v_dims v') i -> in_bounds (v_dims v') j ->
  unflat (v_dims v) (flat (v_dims v') i) = unflat (v_dims v) (flat (v_dims v') j) -> i = j.
Proof.
  intros HN HP Hi Hj E. pose proof (flat_bounds Hi). pose proof (flat_bounds Hj).
  eapply flat_inj; eauto. rewrite <- (@flat_unflat (v_dims v) (flat (v_dims v') i)) by (auto; lia).
  rewrite E. apply flat_unflat; auto; lia.
Qed.

(** ** remap *)

Lemma v_remap_strided v ty :
  wf_map (v_map v) -> typed ty (v_dims v) -> ty_wf ty ->
  exists v', v_remap v Strided ty = Ok v' /\ v_dims v' = v_dims v /\ v_ty v' = ty /\
    v_layout v' = Strided /\ wf_map (v_map v') /\ shows v v' (fun idx => idx).
Proof.
  intros Hw HT HW. unfold v_remap. rewrite m_remap_strided by apply (wf_strides Hw).
  apply accepts_typed in HT as HT'. unfold v_dims in *. rewrite HT'. cbn [bind].
  eexists. split; [reflexivity|]. cbn [v_map v_dims m_dims m_ty v_ty v_layout m_layout].
  assert (Hw' : wf_map (StridedM ty (m_dims (v_map v)) (m_strides (v_map v)))).
  { constructor; cbn [m_dims m_ty m_strides]; auto; [apply (wf_nonneg Hw)|apply (wf_strides Hw)]. }
  do 4 (split; [auto|]). intros idx Hidx. split; auto.
  unfold v_dims in *. cbn [v_map m_dims] in *. pose proof (in_bounds_length Hidx).
  rewrite !v_addr_dot; auto.
Qed.

Lemma v_remap_dense v ty :
  wf_map (v_map v) -> typed ty (v_dims v) -> ty_wf ty ->
  (m_strides (v_map v) = row_major (v_dims v) ->
   exists v', v_remap v Dense ty = Ok v' /\ v_dims v' = v_dims v /\ v_ty v' = ty /\
    v_layout v' = Dense /\ wf_map (v_map v') /\ shows v v' (fun idx => idx)) /\
  (m_strides (v_map v) <> row_major (v_dims v) -> v_remap v Dense ty = Panic).
Proof.
  intros Hw HT HW. unfold v_remap. rewrite m_remap_dense.
  apply accepts_typed in HT as HT'. unfold v_dims in *. rewrite HT', andb_true_r.
  split; intros HC.
  - apply is_contiguous_iff in HC as HC'; auto. rewrite HC'. cbn [bind].
    eexists. split; [reflexivity|]. cbn [v_map v_dims m_dims m_ty v_ty v_layout m_layout].
    assert (Hw' : wf_map (DenseM ty (m_dims (v_map v)))) by (apply wf_whole; auto; apply (wf_nonneg Hw)).
    do 4 (split; [auto|]). intros idx Hidx. split; auto.
    unfold v_dims in *. cbn [v_map m_dims] in *. pose proof (in_bounds_length Hidx).
    rewrite !v_addr_dot; auto. cbn [v_map v_ptr m_strides]. now rewrite HC.
  - destruct (is_contiguous (v_map v)) eqn:E; [|reflexivity].
    apply is_contiguous_iff in E; auto. contradiction.
Qed.

Lemma v_remap_untyped v l ty : ~ typed ty (v_dims v) -> wf_map (v_map v) -> v_remap v l ty = Panic.
Proof.
  intros HT Hw. unfold v_remap. apply accepts_false_typed in HT. unfold v_dims in HT. destruct l.
  - rewrite m_remap_dense, HT, andb_false_r. reflexivity.
  - rewrite m_remap_strided by apply (wf_strides Hw). now rewrite HT.
Qed.

(** ** row, col, diag *)

Definition mat_ty (s : shty) : shty := STuple [sh_head s; sh_head (sh_tail s)].

Lemma mat_typed s d0 d1 : typed s [d0; d1] -> typed (mat_ty s) [d0; d1].
Proof.
  intros H. pose proof (typed_head H) as H0. apply typed_tail in H as H1. apply typed_head in H1.
  repeat constructor; auto.
Qed.

Lemma mat_untyped s dims : length dims <> 2%nat -> ~ typed (mat_ty s) dims.
Proof. intros H C. apply Forall2_len in C. simpl in C. lia. Qed.

Lemma fits2 d0 d1 : 0 <= d0 <= usize_max -> d0 * d1 <= usize_max -> fits [d0; d1].
Proof.
  intros H0 H1 [|[|[|k]]]; cbn [firstn prodZ fold_right]; unfold usize_max in *; try lia.
Qed.

Lemma mat_reshape v d0 d1 :
  wf_map (v_map v) -> v_dims v = [d0; d1] ->
  d0 < usize_max -> d1 < usize_max -> d0 * d1 <= usize_max ->
  exists r, v_reshape v (mat_ty (v_ty v)) [d0; d1] = Ok r /\ v_dims r = [d0; d1] /\
    v_ty r = mat_ty (v_ty v) /\ wf_map (v_map r) /\ shows v r (fun idx => idx).
Proof.
  intros Hw Hd H0 H1 H2. pose proof (wf_nonneg Hw) as HN. pose proof (wf_typed Hw) as HT.
  unfold v_dims in Hd. rewrite Hd in HN, HT. inversion HN as [|? ? N0 N1]; subst. inversion N1; subst.
  assert (HS : exists m', m_reshape (v_map v) (mat_ty (v_ty v)) (m_dims (v_map v)) = Ok m' /\
    m_dims m' = m_dims (v_map v) /\ m_ty m' = mat_ty (v_ty v) /\ m_layout m' = m_layout (v_map v)).
  { apply m_reshape_same; auto; rewrite Hd.
    - now apply mat_typed.
    - apply fits2; lia.
    - simpl. lia. }
  destruct HS as (m' & E & ED & ET & _). rewrite Hd in E, ED.
  exists (mkView (v_ptr v) m').
  assert (ER : v_reshape v (mat_ty (v_ty v)) [d0; d1] = Ok (mkView (v_ptr v) m')).
  { unfold v_reshape. rewrite E. reflexivity. }
  destruct (v_reshape_sound Hw HN (ty := mat_ty (v_ty v)) ltac:(simpl; lia) ltac:(reflexivity) ER)
    as (_ & _ & _ & Hw' & _ & HS).
  split; [exact ER|]. split; [exact ED|]. split; [exact ET|]. split; [exact Hw'|].
  intros idx Hidx. destruct (HS idx Hidx) as [Hb EA].
  change (in_bounds (m_dims m') idx) in Hidx. rewrite ED in Hidx.
  replace (unflat (v_dims v) (flat (v_dims (mkView (v_ptr v) m')) idx)) with idx in *; auto.
  change (v_dims (mkView (v_ptr v) m')) with (m_dims m'). unfold v_dims. rewrite ED, Hd.
  symmetry. now apply unflat_flat.
Qed.

Lemma v_col_ok v d0 d1 j :
  wf_map (v_map v) -> v_dims v = [d0; d1] ->
  d0 < usize_max -> d1 < usize_max -> d0 * d1 <= usize_max -> 0 <= j < d1 ->
  exists v', v_col v j = Ok v' /\ v_dims v' = [d0] /\ wf_map (v_map v') /\
    shows v v' (fun idx => [hd 0 idx; j]).
Proof.
  intros Hw Hd H0 H1 H2 Hj. unfold v_col.
  pose proof (wf_nonneg Hw) as HN. pose proof (wf_typed Hw) as HT.
  unfold v_dims in Hd. rewrite Hd in HN, HT. inversion HN as [|? ? N0 N1]; subst. inversion N1; subst.
  change (STuple [sh_head (v_ty v); sh_head (sh_tail (v_ty v))]) with (mat_ty (v_ty v)).
  rewrite sh_from_dims_spec. unfold v_dims. rewrite Hd.
  pose proof (mat_typed HT) as HMT. apply accepts_typed in HMT. fold (v_ty v) in HMT. rewrite HMT. cbn [bind].
  destruct (mat_reshape Hw Hd H0 H1 H2) as (r & -> & Er & Et & Hwr & Sr). cbn [bind].
  destruct (@v_view_ok r [IxFull; IxUsize j]) as (v' & -> & Ed & _ & _ & Hw' & S'); auto.
  - repeat constructor; simpl; unfold usize; lia.
  - rewrite Er. repeat constructor; lia.
  - now rewrite Er.
  - rewrite Er. repeat constructor; simpl; lia.
  - exists v'. split; [reflexivity|]. rewrite Er in Ed. cbn [sub_dims ix_kept ix_positions] in Ed.
    unfold positions in Ed. rewrite map_length, zrange_length in Ed.
    replace (Z.of_nat (Z.to_nat (d0 - 0))) with d0 in Ed by lia.
    split; auto. split; auto.
    intros idx Hidx. pose proof (shows_trans Sr S' Hidx) as [Hb EA].
    rewrite Ed in Hidx. inversion Hidx as [|? i ? rest Hi HR]; subst. inversion HR; subst.
    rewrite Er in *. cbn [sub_index ix_kept ix_positions hd nth] in *.
    unfold positions in *.
    assert (EN : nth (Z.to_nat i) (map (Z.add 0) (zrange (d0 - 0))) 0 = i).
    { rewrite nth_indep with (d' := Z.add 0 0) by (rewrite map_length, zrange_length; lia).
      rewrite map_nth, zrange_nth by lia. lia. }
    rewrite EN in *. auto.
Qed.

Lemma v_row_ok v d0 d1 j :
  wf_map (v_map v) -> v_dims v = [d0; d1] ->
  d0 < usize_max -> d1 < usize_max -> d0 * d1 <= usize_max -> 0 <= j < d0 ->
  exists v', v_row v j = Ok v' /\ v_dims v' = [d1] /\ wf_map (v_map v') /\
    shows v v' (fun idx => [j; hd 0 idx]).
Proof.
  intros Hw Hd H0 H1 H2 Hj. unfold v_row.
  pose proof (wf_nonneg Hw) as HN. pose proof (wf_typed Hw) as HT.
  unfold v_dims in Hd. rewrite Hd in HN, HT. inversion HN as [|? ? N0 N1]; subst. inversion N1; subst.
  change (STuple [sh_head (v_ty v); sh_head (sh_tail (v_ty v))]) with (mat_ty (v_ty v)).
  rewrite sh_from_dims_spec. unfold v_dims. rewrite Hd.
  pose proof (mat_typed HT) as HMT. apply accepts_typed in HMT. fold (v_ty v) in HMT. rewrite HMT. cbn [bind].
  destruct (mat_reshape Hw Hd H0 H1 H2) as (r & -> & Er & Et & Hwr & Sr). cbn [bind].
  destruct (@v_view_ok r [IxUsize j; IxFull]) as (v' & -> & Ed & _ & _ & Hw' & S'); auto.
  - repeat constructor; simpl; unfold usize; lia.
  - rewrite Er. repeat constructor; lia.
  - now rewrite Er.
  - rewrite Er. repeat constructor; simpl; lia.
  - exists v'. split; [reflexivity|]. rewrite Er in Ed. cbn [sub_dims ix_kept ix_positions] in Ed.
    unfold positions in Ed. rewrite map_length, zrange_length in Ed.
    replace (Z.of_nat (Z.to_nat (d1 - 0))) with d1 in Ed by lia.
    split; auto. split; auto.
    intros idx Hidx. pose proof (shows_trans Sr S' Hidx) as [Hb EA].
    rewrite Ed in Hidx. inversion Hidx as [|? i ? rest Hi HR]; subst. inversion HR; subst.
    rewrite Er in *. cbn [sub_index ix_kept ix_positions hd nth] in *.
    unfold positions in *.
    assert (EN : nth (Z.to_nat i) (map (Z.add 0) (zrange (d1 - 0))) 0 = i).
    { rewrite nth_indep with (d' := Z.add 0 0) by (rewrite map_length, zrange_length; lia).
      rewrite map_nth, zrange_nth by lia. lia. }
    rewrite EN in *. auto.
Qed.

Lemma mat_not2 v (k : list Z -> outcome view) :
  length (v_dims v) <> 2%nat ->
  (let* shape := sh_from_dims (mat_ty (v_ty v)) (v_dims v) in k shape) = Panic.
Proof.
  intros H. rewrite sh_from_dims_spec. apply mat_untyped with (s := v_ty v) in H.
  apply accepts_false_typed in H. now rewrite H.
Qed.

Lemma v_row_panic v d0 d1 j :
  wf_map (v_map v) -> v_dims v = [d0; d1] ->
  d0 < usize_max -> d1 < usize_max -> d0 * d1 <= usize_max -> d0 <= j <= usize_max -> v_row v j = Panic.
Proof.
  intros Hw Hd H0 H1 H2 Hj. unfold v_row.
  pose proof (wf_nonneg Hw) as HN. pose proof (wf_typed Hw) as HT.
  unfold v_dims in Hd. rewrite Hd in HN, HT. inversion HN as [|? ? N0 N1]; subst. inversion N1; subst.
  change (STuple [sh_head (v_ty v); sh_head (sh_tail (v_ty v))]) with (mat_ty (v_ty v)).
  rewrite sh_from_dims_spec. unfold v_dims. rewrite Hd.
  pose proof (mat_typed HT) as HMT. apply accepts_typed in HMT. fold (v_ty v) in HMT. rewrite HMT. cbn [bind].
  destruct (mat_reshape Hw Hd H0 H1 H2) as (r & -> & Er & Et & Hwr & Sr). cbn [bind].
  apply v_view_panic; auto.
  - repeat constructor; simpl; unfold usize; lia.
  - rewrite Er. repeat constructor; lia.
  - now rewrite Er.
  - rewrite Er. intros C. inversion C; subst. simpl in *. lia.
Qed.

Lemma v_col_panic v d0 d1 j :
  wf_map (v_map v) -> v_dims v = [d0; d1] ->
  d0 < usize_max -> d1 < usize_max -> d0 * d1 <= usize_max -> d1 <= j <= usize_max -> v_col v j = Panic.
Proof.
  intros Hw Hd H0 H1 H2 Hj. unfold v_col.
  pose proof (wf_nonneg Hw) as HN. pose proof (wf_typed Hw) as HT.
  unfold v_dims in Hd. rewrite Hd in HN, HT. inversion HN as [|? ? N0 N1]; subst. inversion N1; subst.
  change (STuple [sh_head (v_ty v); sh_head (sh_tail (v_ty v))]) with (mat_ty (v_ty v)).
  rewrite sh_from_dims_spec. unfold v_dims. rewrite Hd.
  pose proof (mat_typed HT) as HMT. apply accepts_typed in HMT. fold (v_ty v) in HMT. rewrite HMT. cbn [bind].
  destruct (mat_reshape Hw Hd H0 H1 H2) as (r & -> & Er & Et & Hwr & Sr). cbn [bind].
  apply v_view_panic; auto.
  - repeat constructor; simpl; unfold usize; lia.
  - rewrite Er. repeat constructor; lia.
  - now rewrite Er.
  - rewrite Er. intros C. inversion C as [|? ? ? ? ? C2]; subst. inversion C2; subst. simpl in *. lia.
Qed.

(** Length and index map of the [k]-th diagonal. *)
Definition diag_len (d0 d1 k : Z) : Z := if k >=? 0 then Z.min d0 (d1 - k) else Z.min d1 (d0 + k).
Definition diag_index (k : Z) (idx : list Z) : list Z :=
  if k >=? 0 then [hd 0 idx; hd 0 idx + k] else [hd 0 idx - k; hd 0 idx].

Lemma v_into_diag_ok v d0 d1 k :
  wf_map (v_map v) -> v_dims v = [d0; d1] -> - d0 <= k <= d1 ->
  exists v', v_into_diag v k = Ok v' /\ v_dims v' = [diag_len d0 d1 k] /\ wf_map (v_map v') /\
    v_layout v' = Strided /\ shows v v' (diag_index k).
Proof.
  intros Hw Hd Hk. unfold v_into_diag.
  pose proof (wf_nonneg Hw) as HN. unfold v_dims in Hd. rewrite Hd in HN.
  inversion HN as [|? ? N0 N1]; subst. inversion N1; subst.
  assert (HR : m_rank (v_map v) = 2%nat) by (unfold m_rank; now rewrite Hd).
  rewrite HR. cbn [Nat.eqb assert bind].
  rewrite !m_dim_ok by lia. rewrite !m_stride_ok by (try lia; apply (wf_strides Hw)). cbn [bind].
  rewrite Hd. cbn [nth].
  pose proof (wf_strides Hw) as HLs. rewrite Hd in HLs. cbn [length] in HLs.
  destruct (m_strides (v_map v)) as [|s0 [|s1 [|]]] eqn:ES; try (simpl in HLs; lia). cbn [nth].
  assert (E : (if k >=? 0
    then let* _ := assert (k <=? d1) in Ok (k * s1, Z.min d0 (d1 - k))
    else let* _ := assert (- k <=? d0) in Ok (- k * s0, Z.min d1 (d0 - - k)))
    = Ok (if k >=? 0 then k * s1 else - k * s0, diag_len d0 d1 k)).
  { unfold diag_len. destruct (Z.geb_spec k 0); rewrite assert_true by lia; cbn [bind]; auto.
    do 3 f_equal. lia. }
  rewrite E. cbn [bind]. unfold strided_new. cbn [length Nat.eqb assert bind].
  eexists. split; [reflexivity|]. cbn [v_map v_dims m_dims m_ty v_ty v_layout m_layout].
  assert (HLn : 0 <= diag_len d0 d1 k) by (unfold diag_len; destruct (Z.geb_spec k 0); lia).
  assert (Hw' : wf_map (StridedM (STuple [DDyn]) [diag_len d0 d1 k] [s0 + s1])).
  { constructor; cbn [m_dims m_ty m_strides]; auto.
    - constructor; auto.
    - repeat constructor.
    - simpl. lia. }
  split; [auto|]. split; [auto|]. split; [auto|].
  intros idx Hidx. unfold v_dims in *. cbn [v_map m_dims] in Hidx.
  inversion Hidx as [|? i ? rest Hi HRest]; subst. inversion HRest; subst.
  assert (Hb : in_bounds (m_dims (v_map v)) (diag_index k [i])).
  { rewrite Hd. unfold diag_index, diag_len in *. cbn [hd].
    destruct (Z.geb_spec k 0); repeat (apply in_bounds_cons; split); try lia; constructor. }
  split; auto.
  rewrite !v_addr_dot; auto.
  - cbn [v_map v_ptr m_strides]. rewrite ES.
    destruct (Z.gtb_spec (diag_len d0 d1 k) 0); [|lia].
    unfold diag_index. cbn [hd]. destruct (Z.geb_spec k 0); cbn [dot]; lia.
  - unfold v_dims. rewrite (in_bounds_length Hb). reflexivity.
Qed.

Lemma v_into_diag_panic v k :
  wf_map (v_map v) ->
  (forall d0 d1, v_dims v = [d0; d1] -> k < - d0 \/ d1 < k) -> v_into_diag v k = Panic.
Proof.
  intros Hw H. unfold v_into_diag, m_rank.
  destruct (Nat.eqb_spec (length (m_dims (v_map v))) 2) as [HR|]; [|reflexivity]. cbn [assert bind].
  pose proof (wf_nonneg Hw) as HN.
  rewrite !m_dim_ok by (unfold m_rank; lia).
  rewrite !m_stride_ok by (unfold m_rank; try lia; apply (wf_strides Hw)). cbn [bind].
  unfold v_dims in H. destruct (m_dims (v_map v)) as [|d0 [|d1 [|]]]; simpl in HR; try lia.
  inversion HN as [|? ? N0 N1]; subst. inversion N1; subst.
  specialize (H d0 d1 eq_refl). cbn [nth].
  destruct (Z.geb_spec k 0); rewrite assert_false by lia; reflexivity.
Qed.

Lemma v_diag_reduces v d0 d1 k :
  wf_map (v_map v) -> v_dims v = [d0; d1] ->
  d0 < usize_max -> d1 < usize_max -> d0 * d1 <= usize_max ->
  exists r, v_diag v k = v_into_diag r k /\ v_dims r = [d0; d1] /\ wf_map (v_map r) /\
    shows v r (fun idx => idx).
Proof.
  intros Hw Hd H0 H1 H2. unfold v_diag. pose proof (wf_typed Hw) as HT.
  unfold v_dims in Hd. rewrite Hd in HT.
  change (STuple [sh_head (v_ty v); sh_head (sh_tail (v_ty v))]) with (mat_ty (v_ty v)).
  rewrite sh_from_dims_spec. unfold v_dims. rewrite Hd.
  pose proof (mat_typed HT) as HMT. apply accepts_typed in HMT. fold (v_ty v) in HMT. rewrite HMT. cbn [bind].
  destruct (mat_reshape Hw Hd H0 H1 H2) as (r & -> & Er & Et & Hwr & Sr). cbn [bind]. eauto.
Qed.

(** ** Chains of operations *)

Lemma valid_len n v : 0 <= n -> valid_view n v -> prodZ (v_dims v) <= n.
Proof.
  intros H0 Hv. pose proof (wf_nonneg (vv_wf Hv)) as HN. fold (v_dims v) in HN.
  assert (HND : NoDup (map (v_addr v) (indices (v_dims v)))).
  { pose proof (indices_NoDup HN) as ND. pose proof (fun i => proj1 (in_indices (v_dims v) i)) as HB.
    induction ND as [|x l Hx ND IH]; simpl; constructor; auto.
    - rewrite in_map_iff. intros (y & E & Hy). apply Hx.
      assert (y = x); [|now subst]. apply (vv_inj Hv); auto; apply HB; simpl; auto.
    - apply IH. intros i Hi. apply HB. now right. }
  assert (HI : incl (map (v_addr v) (indices (v_dims v))) (zrange n)).
  { intros a Ha. apply in_map_iff in Ha as (idx & <- & Hi). apply in_zrange.
    apply (vv_range Hv). now apply in_indices. }
  pose proof (NoDup_incl_length HND HI) as HL.
  rewrite map_length, indices_length, zrange_length in HL by auto.
  pose proof (prodZ_nonneg HN). lia.
Qed.

Record chain_inv (n : Z) (v0 v : view) : Prop := {
  ci_valid : valid_view n v;
  ci_small : Forall (fun d => d <= usize_max) (v_dims v);
  ci_shows : exists f, shows v0 v f
}.

Lemma chain_step n v0 v v' f :
  chain_inv n v0 v -> wf_map (v_map v') -> shows v v' f ->
  (forall i j, in_bounds (v_dims v') i -> in_bounds (v_dims v') j -> f i = f j -> i = j) ->
  Forall (fun d => d <= usize_max) (v_dims v') -> chain_inv n v0 v'.
Proof.
  intros [Hv Hs (g & Hg)] Hw HS HI Hs'. constructor; auto.
  - eapply shows_valid; eauto.
  - eexists. eapply shows_trans; eauto.
Qed.

Lemma Forall_nth_le l i : Forall (fun d => d <= usize_max) l -> nth i l 0 <= usize_max.
Proof.
  intros H. destruct (Nat.lt_ge_cases i (length l)).
  - rewrite Forall_forall in H. apply H. now apply nth_In.
  - rewrite nth_overflow by auto. unfold usize_max. lia.
Qed.

Lemma Forall_upd_le l i x :
  Forall (fun d => d <= usize_max) l -> x <= usize_max -> Forall (fun d => d <= usize_max) (upd l i x).
Proof. intros H Hx. revert i. induction H; intros [|i]; simpl; constructor; auto. Qed.

Lemma ix_count_le d x : 0 <= d -> ix_arg x -> ix_ok d x -> ix_kept x = true -> ix_count d x <= d.
Proof.
  intros Hd Ha Hok K. destruct x as [i| |lo hi|lo hi s]; cbn [ix_count ix_ok ix_arg ix_kept] in *; try lia.
  - destruct lo; cbn [range_lo bound_arg] in *; unfold usize in *; lia.
  - destruct Hok as [Hr Hs]. assert (0 <= range_lo lo) by (destruct lo; cbn [range_lo bound_arg] in *; unfold usize in *; lia).
    enough ((range_hi d hi - range_lo lo + Z.abs s - 1) / Z.abs s < d + 1) by lia.
    apply Z.div_lt_upper_bound; nia.
Qed.

Lemma sub_dims_le dims xs :
  nonneg dims -> Forall ix_arg xs -> Forall2 ix_ok dims xs ->
  Forall (fun d => d <= usize_max) dims -> Forall (fun d => d <= usize_max) (sub_dims dims xs).
Proof.
  intros HN HA HO. revert HN HA. induction HO as [|d x dims xs Hok HO IH]; intros HN HA HM; [constructor|].
  inversion HN; subst. inversion HA; subst. inversion HM; subst. cbn [sub_dims].
  destruct (ix_kept x) eqn:K; auto. constructor; auto.
  rewrite ix_positions_length by auto. pose proof (@ix_count_le d x). lia.
Qed.

Lemma perm_of_dec n perm : Forall (fun q => 0 <= q) perm -> perm_of n perm \/ ~ perm_of n perm.
Proof.
  intros HF. destruct (Nat.eq_dec (length perm) n) as [HL|HL].
  2:{ right. intros C. apply HL. now apply perm_of_length. }
  destruct (forallb (fun i => existsb (Z.eqb (Z.of_nat i)) perm) (seq 0 n)) eqn:E.
  - left. apply incl_perm; auto. intros i Hi. rewrite forallb_forall in E.
    specialize (E i ltac:(apply in_seq; lia)). apply existsb_exists in E as (x & Hx & Hq).
    apply Z.eqb_eq in Hq. now subst.
  - right. intros C. assert (E' : forallb (fun i => existsb (Z.eqb (Z.of_nat i)) perm) (seq 0 n) = true).
    { apply forallb_forall. intros i Hi. apply in_seq in Hi. apply existsb_exists.
      exists (Z.of_nat i). split; [apply (perm_of_in _ C); lia|apply Z.eqb_refl]. }
    congruence.
Qed.

Lemma v_permute_inv v p perm v' :
  wf_map (v_map v) -> Forall (fun q => 0 <= q) perm -> perm_matches p perm ->
  v_permute v p perm = Ok v' -> perm_of (length (v_dims v)) perm /\ (length (v_dims v) < 64)%nat.
Proof.
  intros Hw HF HM H. destruct (Nat.lt_ge_cases (length (v_dims v)) 64) as [Hr|Hr].
  - destruct (perm_of_dec (length (v_dims v)) HF); auto. rewrite v_permute_panic in H by auto. discriminate.
  - exfalso. unfold v_permute in H. apply bind_ok in H as (m' & H & _). unfold m_permute in H.
    apply bind_ok in H as (u & A & H). apply assert_ok in A. unfold m_rank in *. unfold v_dims in Hr.
    destruct (perm_arg_layout p (v_layout v)) eqn:L.
    + destruct p as [xs|]; [|discriminate]. destruct HM as [HM H6]. apply Forall2_len in HM. lia.
    + apply bind_ok in H as (mk & _ & H). apply bind_ok in H as (u2 & A2 & _). apply assert_ok in A2. lia.
Qed.

Lemma ix_ok_dec dims xs : Forall2 ix_ok dims xs \/ ~ Forall2 ix_ok dims xs.
Proof.
  revert xs. induction dims as [|d dims IH]; intros [|x xs].
  - left. constructor.
  - right. inversion 1.
  - right. inversion 1.
  - destruct (ix_ok_b d x) eqn:E.
    + apply ix_ok_b_spec in E. destruct (IH xs); [left; now constructor|right; inversion 1; auto].
    + right. intros C. inversion C; subst. rewrite (proj2 (ix_ok_b_spec d x)) in E by auto. discriminate.
Qed.

Lemma sh_reshape_dims_le old ty req dims :
  0 <= prodZ old <= usize_max -> Forall usize req -> sh_reshape old ty req = Ok dims ->
  Forall (fun d => d <= usize_max) dims.
Proof.
  intros HO HU H. unfold sh_reshape in H.
  apply bind_ok in H as ([inf d1] & EI & H). apply bind_ok in H as (d2 & ES & H).
  apply sh_store_ok_inv in ES as ->.
  assert (HD : Forall usize d1).
  { clear H. revert EI. generalize 0%nat, (@None nat). revert inf d1.
    induction HU as [|r req Hr HU IH]; intros inf d1 i0 o EI; simpl in EI.
    - injection EI as _ <-. constructor.
    - destruct (r =? usize_max).
      + apply bind_ok in EI as (u & _ & EI). apply bind_ok in EI as ([inf' ds'] & E' & EI).
        injection EI as _ <-. constructor; [unfold usize, usize_max; lia|eauto].
      + apply bind_ok in EI as ([inf' ds'] & E' & EI). injection EI as _ <-.
        constructor; [apply Hr|eauto]. }
  assert (HD1 : Forall (fun d => d <= usize_max) d1) by (eapply Forall_impl; [|exact HD]; intros a [_ Ha]; exact Ha).
  assert (HD2 : nonneg d1) by (eapply Forall_impl; [|exact HD]; intros a [Ha _]; exact Ha).
  rewrite sh_len_prod in H.
  destruct (sh_checked_len d1) as [nl|] eqn:EC; [|discriminate].
  destruct inf as [i|].
  - apply bind_ok in H as (u1 & A1 & H). apply bind_ok in H as (u2 & A2 & H).
    apply sh_store_ok_inv in H as ->. apply Forall_upd_le; auto.
    apply assert_ok in A1. apply negb_true_iff in A1.
    apply checked_len_inv in EC as [-> _].
    assert (0 <= prodZ d1) by (apply prodZ_nonneg, HD2).
    assert (prodZ old / prodZ d1 <= prodZ old); [|lia]. apply Z.div_le_upper_bound; nia.
  - apply bind_ok in H as (u & _ & H). congruence.
Qed.


Lemma chain_facts n v0 v :
  0 <= n <= usize_max -> chain_inv n v0 v ->
  wf_map (v_map v) /\ nonneg (v_dims v) /\ 0 <= prodZ (v_dims v) <= usize_max.
Proof.
  intros Hn CI. pose proof (ci_valid CI) as Hv. pose proof (vv_wf Hv) as Hw.
  pose proof (wf_nonneg Hw) as HN. fold (v_dims v) in HN. repeat (split; auto).
  - now apply prodZ_nonneg.
  - pose proof (@valid_len n v). lia.
Qed.

Lemma chain_reshape n v0 v ty req v' :
  0 <= n <= usize_max -> chain_inv n v0 v -> Forall usize req -> ty_of_len ty (length req) ->
  v_reshape v ty req = Ok v' -> chain_inv n v0 v' /\ sh_reshape (v_dims v) ty req = Ok (v_dims v').
Proof.
  intros Hn CI HU [HW HR] H. destruct (chain_facts Hn CI) as (Hw & HN & HP).
  assert (HNr : nonneg req) by (eapply Forall_impl; [|exact HU]; intros q [Hq _]; exact Hq).
  destruct (@v_reshape_sound v ty req v' Hw HNr HW) as (E & _ & _ & Hw' & EP & HSh); auto.
  split; auto. eapply chain_step; eauto.
  - intros i j Hi Hj. now apply reshape_f_inj.
  - eapply sh_reshape_dims_le; eauto.
Qed.

Lemma chain_view n v0 v xs v' :
  0 <= n <= usize_max -> chain_inv n v0 v -> Forall ix_arg xs -> length xs = length (v_dims v) ->
  v_view v xs = Ok v' -> chain_inv n v0 v'.
Proof.
  intros Hn CI HA HL H. destruct (chain_facts Hn CI) as (Hw & HN & HP). pose proof (ci_small CI) as HS.
  destruct (ix_ok_dec (v_dims v) xs) as [HO|HO].
  2:{ rewrite v_view_panic in H by auto. discriminate. }
  destruct (v_view_ok Hw HA HS HL HO) as (v2 & E & Hd & _ & _ & Hw' & HSh).
  rewrite H in E. injection E as <-. eapply chain_step; eauto.
  - intros i j Hi Hj. rewrite Hd in Hi, Hj. now apply sub_index_inj.
  - rewrite Hd. now apply sub_dims_le.
Qed.

Lemma chain_diag n v0 v k v' :
  0 <= n <= usize_max -> chain_inv n v0 v -> v_into_diag v k = Ok v' -> chain_inv n v0 v'.
Proof.
  intros Hn CI H. destruct (chain_facts Hn CI) as (Hw & HN & HP). pose proof (ci_small CI) as HS.
  destruct (v_dims v) as [|d0 [|d1 [|d2 ds]]] eqn:ED;
    try (rewrite v_into_diag_panic in H; [discriminate|auto|intros ? ? E; rewrite ED in E; discriminate]).
  destruct (Z_le_dec (- d0) k) as [H0|H0]; [destruct (Z_le_dec k d1) as [H1|H1]|].
  2,3: rewrite v_into_diag_panic in H; [discriminate|auto|intros ? ? E; rewrite ED in E; injection E as <- <-; lia].
  destruct (@v_into_diag_ok v d0 d1 k Hw ED) as (v2 & E & Hd & Hw' & _ & HSh); [lia|].
  rewrite H in E. injection E as <-. eapply chain_step; eauto.
  - intros i j Hi Hj. rewrite Hd in Hi, Hj.
    inversion Hi as [|? a ? r1 Ha R1]; subst. inversion R1; subst.
    inversion Hj as [|? b ? r2 Hb R2]; subst. inversion R2; subst.
    unfold diag_index. cbn [hd]. destruct (k >=? 0); intros [= E1 E2]; f_equal; lia.
  - rewrite Hd. inversion HS as [|? ? S0 S1]; subst. inversion S1; subst.
    inversion HN as [|? ? N0 N1]; subst. inversion N1; subst.
    repeat constructor. unfold diag_len. destruct (Z.geb_spec k 0); lia.
Qed.

Lemma sh_reshape_len old ty req dims : sh_reshape old ty req = Ok dims -> length dims = length req.
Proof.
  intros H. unfold sh_reshape in H.
  apply bind_ok in H as ([inf d1] & EI & H). apply bind_ok in H as (d2 & ES & H).
  apply sh_store_ok_inv in ES as ->.
  assert (HL : length d1 = length req).
  { clear H. revert EI. generalize 0%nat, (@None nat). revert inf d1.
    induction req as [|r req IH]; intros inf d1 i0 o EI; simpl in EI.
    - injection EI as _ <-. reflexivity.
    - destruct (r =? usize_max).
      + apply bind_ok in EI as (u & _ & EI). apply bind_ok in EI as ([inf' ds'] & E' & EI).
        injection EI as _ <-. simpl. f_equal. eauto.
      + apply bind_ok in EI as ([inf' ds'] & E' & EI). injection EI as _ <-. simpl. f_equal. eauto. }
  destruct (sh_checked_len d1) as [nl|] eqn:EC; [|discriminate].
  destruct inf as [i|].
  - apply bind_ok in H as (u1 & A1 & H). apply bind_ok in H as (u2 & A2 & H).
    apply sh_store_ok_inv in H as ->. now rewrite upd_length.
  - apply bind_ok in H as (u & _ & H). congruence.
Qed.

Lemma Forall_firstn' {A} (P : A -> Prop) n (l : list A) : Forall P l -> Forall P (firstn n l).
Proof. revert n. induction l; intros [|n] H; simpl; auto. inversion H; subst. constructor; auto. Qed.

Lemma Forall_skipn' {A} (P : A -> Prop) n (l : list A) : Forall P l -> Forall P (skipn n l).
Proof. revert n. induction l; intros [|n] H; simpl; auto. inversion H; subst; auto. Qed.

Theorem v_step_inv n v0 v o v' :
  0 <= n <= usize_max -> chain_inv n v0 v -> op_arg v o -> v_step v o = Ok v' -> chain_inv n v0 v'.
Proof.
  intros Hn CI HA H. pose proof (ci_valid CI) as Hv. pose proof (vv_wf Hv) as Hw.
  pose proof (ci_small CI) as HS. pose proof (wf_nonneg Hw) as HN. fold (v_dims v) in HN.
  assert (HP : 0 <= prodZ (v_dims v) <= usize_max).
  { split; [now apply prodZ_nonneg|]. pose proof (@valid_len n v). lia. }
  assert (HD : Forall usize (v_dims v)).
  { unfold nonneg in HN. rewrite Forall_forall in *. intros d Hd. split; auto. }
  assert (Hmat : forall (g : view -> outcome view),
    (let* shape := sh_from_dims (mat_ty (v_ty v)) (v_dims v) in
     let* r := v_reshape v (mat_ty (v_ty v)) shape in g r) = Ok v' ->
    exists r, chain_inv n v0 r /\ length (v_dims r) = 2%nat /\ g r = Ok v').
  { intros g Hg. rewrite sh_from_dims_spec in Hg.
    destruct (accepts (mat_ty (v_ty v)) (v_dims v)) eqn:A; [|discriminate]. cbn [bind] in Hg.
    apply bind_ok in Hg as (r & E & Hg). exists r. apply accepts_typed in A.
    assert (HL2 : length (v_dims v) = 2%nat) by (apply Forall2_len in A; auto).
    assert (HTL : ty_of_len (mat_ty (v_ty v)) (length (v_dims v))) by (split; [simpl; lia|exact HL2]).
    destruct (chain_reshape Hn CI HD HTL E) as [CI' E']. split; auto. split; auto. clear E. rename E' into E.
    apply sh_reshape_len in E. lia. }
  destruct o as [a k|a k|a k|xs|p perm| |ty req| |l ty|k|k|k]; cbn [v_step op_arg] in *.
  - (* axis_at *)
    destruct (ax_index_spec a (length (v_dims v))) as [(i & _ & HX)|[_ NX]].
    2:{ rewrite v_axis_at_panic in H; auto; [discriminate|apply HA|]. intros i C. exfalso. eapply NX; eauto. }
    destruct (Z.lt_ge_cases k (nth i (v_dims v) 0)) as [Hk|Hk].
    2:{ rewrite v_axis_at_panic in H; auto; [discriminate|apply HA|]. intros j C.
        assert (j = i); [|now subst]. apply ax_index_ok in C. apply ax_index_ok in HX. congruence. }
    destruct (@v_axis_at_ok v a i k Hw HX) as (v2 & E & Hd & _ & _ & Hw' & HSh); [unfold usize in HA; lia|].
    rewrite H in E. injection E as <-. eapply chain_step; eauto.
    + intros x y Hx Hy. apply in_bounds_length in Hx. apply in_bounds_length in Hy. rewrite Hd in Hx, Hy.
      assert (Hi : (i < length (v_dims v))%nat) by apply HX.
      rewrite remove_at_length in Hx, Hy by auto. apply insert_at_inj; lia.
    + rewrite Hd. apply Forall_app. split; [now apply Forall_firstn'|now apply Forall_skipn'].
  - (* split, first *)
    apply bind_ok in H as ([x y] & H & E). injection E as ->.
    destruct (ax_index_spec a (length (v_dims v))) as [(i & _ & HX)|[_ NX]].
    2:{ rewrite v_split_panic in H; auto; [discriminate|apply HA|]. intros i C. exfalso. eapply NX; eauto. }
    destruct (Z.le_gt_cases k (nth i (v_dims v) 0)) as [Hk|Hk].
    2:{ rewrite v_split_panic in H; auto; [discriminate|apply HA|]. intros j C.
        assert (j = i); [|now subst]. apply ax_index_ok in C. apply ax_index_ok in HX. congruence. }
    destruct (@v_split_ok v a i k Hw HX) as (v1 & v2 & E & Hd1 & Hd2 & _ & _ & _ & _ & Hw1 & Hw2 & HS1 & HS2);
      [unfold usize in HA; lia|].
    rewrite H in E. injection E as <- <-. eapply chain_step; eauto.
    rewrite Hd1. apply Forall_upd_le; auto. apply HA.
  - (* split, second *)
    apply bind_ok in H as ([x y] & H & E). injection E as ->.
    destruct (ax_index_spec a (length (v_dims v))) as [(i & _ & HX)|[_ NX]].
    2:{ rewrite v_split_panic in H; auto; [discriminate|apply HA|]. intros i C. exfalso. eapply NX; eauto. }
    destruct (Z.le_gt_cases k (nth i (v_dims v) 0)) as [Hk|Hk].
    2:{ rewrite v_split_panic in H; auto; [discriminate|apply HA|]. intros j C.
        assert (j = i); [|now subst]. apply ax_index_ok in C. apply ax_index_ok in HX. congruence. }
    destruct (@v_split_ok v a i k Hw HX) as (v1 & v2 & E & Hd1 & Hd2 & _ & _ & _ & _ & Hw1 & Hw2 & HS1 & HS2);
      [unfold usize in HA; lia|].
    rewrite H in E. injection E as <- <-. eapply chain_step; eauto.
    + intros p q Hp Hq. apply in_bounds_length in Hp. apply in_bounds_length in Hq.
      apply shift_inj. lia.
    + rewrite Hd2. apply Forall_upd_le; auto. pose proof (@Forall_nth_le _ i HS). unfold usize in HA. lia.
  - (* view *) destruct HA as [HA HL]. eapply chain_view; eauto.
  - (* permute *)
    destruct HA as [HU HM].
    assert (HF : Forall (fun q => 0 <= q) perm) by (eapply Forall_impl; [|exact HU]; intros q [Hq _]; exact Hq).
    destruct (v_permute_inv Hw HF HM H) as [HPm Hr].
    destruct (v_permute_ok Hw Hr HM HPm) as (v2 & E & Hd & _ & _ & Hw' & HSh).
    rewrite H in E. injection E as <-. pose proof (perm_of_length HPm) as HLp. eapply chain_step; eauto.
    + intros i j Hi Hj. apply in_bounds_length in Hi. apply in_bounds_length in Hj.
      rewrite Hd, pick_length in Hi, Hj. eapply unpick_inj; eauto; lia.
    + rewrite Hd. apply Forall_forall. intros x Hx. apply in_map_iff in Hx as (q & <- & _).
      now apply Forall_nth_le.
  - (* reorder *)
    destruct (v_reorder_ok Hw) as (v2 & E & Hd & _ & _ & Hw' & HSh).
    rewrite H in E. injection E as <-. eapply chain_step; eauto.
    + intros i j _ _ E. rewrite <- (rev_involutive i), <- (rev_involutive j). now rewrite E.
    + rewrite Hd. now apply Forall_rev.
  - (* reshape *) destruct HA as [HU HW]. apply (chain_reshape Hn CI HU HW H).
  - (* flatten *)
    unfold v_flatten in H. unfold m_len in H. rewrite sh_len_prod in H. fold (v_dims v) in H.
    refine (proj1 (chain_reshape Hn CI _ _ H)).
    + constructor; [split; lia|constructor].
    + split; simpl; [lia|auto].
  - (* remap *)
    destruct (accepts ty (v_dims v)) eqn:A.
    2:{ apply accepts_false_typed in A. rewrite v_remap_untyped in H by auto. discriminate. }
    apply accepts_typed in A. destruct l.
    + destruct (v_remap_dense Hw A HA) as [HC HNC].
      destruct (list_eq_dec Z.eq_dec (m_strides (v_map v)) (row_major (v_dims v))) as [EC|NC].
      2:{ rewrite HNC in H by auto. discriminate. }
      destruct (HC EC) as (v2 & E & Hd & _ & _ & Hw' & HSh). rewrite H in E. injection E as <-.
      eapply chain_step; eauto. now rewrite Hd.
    + destruct (v_remap_strided Hw A HA) as (v2 & E & Hd & _ & _ & Hw' & HSh). rewrite H in E. injection E as <-.
      eapply chain_step; eauto. now rewrite Hd.
  - (* col *) destruct (Hmat _ H) as (r & CI' & HL2 & E).
    refine (chain_view Hn CI' _ _ E); [repeat (constructor; [first [exact I|exact HA]|]); constructor|simpl; auto].
  - (* row *) destruct (Hmat _ H) as (r & CI' & HL2 & E).
    refine (chain_view Hn CI' _ _ E); [repeat (constructor; [first [exact I|exact HA]|]); constructor|simpl; auto].
  - (* diag *) destruct (Hmat _ H) as (r & CI' & HL2 & E). eapply chain_diag; eauto.
Qed.

Theorem v_run_inv n v0 os v v' :
  0 <= n <= usize_max -> chain_inv n v0 v -> run_args v os -> v_run v os = Ok v' -> chain_inv n v0 v'.
Proof.
  intros Hn. revert v. induction os as [|o os IH]; intros v CI HA H; cbn [v_run run_args] in *.
  - injection H as <-. exact CI.
  - destruct HA as [HA HR]. apply bind_ok in H as (v1 & E & H). apply (IH v1); auto. exact (v_step_inv Hn CI HA E).
Qed.
