(** Machine arithmetic of the view operations. *)
From Verif Require Import Base Spec SpecFacts Shape Mapping Index View Wf MappingFacts MapOps ReshapeFacts IndexFacts ViewFacts Machine MachineSpec MachineFacts.
Unset Strict Implicit.

(** Stepping over a whole dimension stays within [isize], and so do the products of the dimensions. *)
Definition gentle (m : mapping) : Prop :=
  roomy (m_dims m) /\
  forall i, (i < length (m_dims m))%nat -> Z.abs (nth i (m_strides m) 0) * Z.max 1 (nth i (m_dims m) 0) <= isize_max.

Lemma isize_abs x : Z.abs x <= isize_max -> is_isize x.
Proof. unfold is_isize, isize_min, isize_max. lia. Qed.

Lemma gentle_mul m i k : gentle m -> (i < length (m_dims m))%nat -> Z.abs k <= Z.max 1 (nth i (m_dims m) 0) ->
  is_isize (nth i (m_strides m) 0 * k).
Proof. intros [_ HG] HI HK. specialize (HG i HI). apply isize_abs. rewrite Z.abs_mul. nia. Qed.

Lemma gentle_dense ty dims : nonneg dims -> roomy dims -> gentle (DenseM ty dims).
Proof.
  intros HN HR. split; [exact HR|]. cbn [m_dims m_strides]. intros i HI. rewrite nth_row_major by lia.
  pose proof (nonneg_skipn (S i) HN) as NS. pose proof (mx_prod NS) as MP.
  pose proof (@mx_skipn i dims) as M. rewrite (@skipn_cons_nth Z i dims 0) in M by lia. rewrite mx_cons in M. unfold roomy in HR. nia.
Qed.

(** A view of at most [isize::MAX / 2] cells with [isize] strides. *)
Lemma valid_gentle n v : valid_view n v -> 2 * n <= isize_max -> 0 < prodZ (v_dims v) ->
  Forall (fun s => Z.abs s <= isize_max) (m_strides (v_map v)) -> gentle (v_map v).
Proof.
  intros HV HN HP HS. pose proof (vv_wf HV) as HW. pose proof (wf_strides HW) as HL.
  pose proof (prodZ_pos_inv (wf_nonneg HW) HP) as PP. change (m_dims (v_map v)) with (v_dims v) in *.
  assert (N0 : 0 <= n). { pose proof (vv_range HV (in_bounds_zeros PP)). lia. }
  split; [apply (@valid_roomy n v HV); [lia|exact HP]|]. change (m_dims (v_map v)) with (v_dims v). intros i HI.
  assert (DI : 0 < nth i (v_dims v) 0) by (apply positive_nth; auto).
  assert (SI : Z.abs (nth i (m_strides (v_map v)) 0) <= isize_max).
  { apply (Forall_nth (fun s => Z.abs s <= isize_max) (m_strides (v_map v))); [exact HS|]. fold (v_dims v) in *. rewrite HL. exact HI. }
  destruct (Z.eq_dec (nth i (v_dims v) 0) 1) as [E|E]; [rewrite E; change (Z.max 1 1) with 1; lia|].
  set (d := nth i (v_dims v) 0) in *. set (s := nth i (m_strides (v_map v)) 0) in *.
  assert (B : in_bounds (v_dims v) (upd (repeat 0 (length (v_dims v))) i (d - 1))).
  { apply in_bounds_intro; [rewrite upd_length, repeat_length; reflexivity|]. intros j Hj.
    destruct (Nat.eq_dec i j) as [<-|NE].
    - rewrite upd_nth_same by (rewrite repeat_length; lia). fold d. lia.
    - rewrite upd_nth_other by exact NE. rewrite nth_repeat0. pose proof (positive_nth PP Hj). lia. }
  pose proof (vv_range HV B) as R1. rewrite v_addr_dot in R1 by (auto; rewrite upd_length, repeat_length; reflexivity).
  rewrite dot_upd in R1 by (rewrite ?repeat_length; lia). rewrite dot_zeros, nth_repeat0 in R1. fold s in R1.
  pose proof (vv_range HV (in_bounds_zeros PP)) as R2. rewrite v_addr_dot, dot_zeros in R2 by (auto; now rewrite repeat_length).
  assert (A : Z.abs s * (d - 1) < n). { rewrite <- (Z.abs_eq (d - 1)) by lia. rewrite <- Z.abs_mul. lia. }
  nia.
Qed.

Lemma gentle_nonneg_wf m : wf_map m -> gentle m -> nonneg (m_dims m) /\ roomy (m_dims m).
Proof. intros HW HG. split; [apply HW|apply HG]. Qed.

Lemma mx_remove i dims : (i < length dims)%nat -> mx (remove_at i dims) <= mx dims.
Proof.
  intros HI. unfold remove_at. rewrite mx_app. rewrite <- (firstn_skipn i dims) at 3. rewrite mx_app.
  rewrite (@skipn_cons_nth Z i dims 0) by lia. rewrite mx_cons.
  pose proof (@mx_pos (firstn i dims)). pose proof (@mx_pos (skipn (S i) dims)). nia.
Qed.
Lemma mx_upd i dims n : (i < length dims)%nat -> n <= Z.max 1 (nth i dims 0) -> mx (upd dims i n) <= mx dims.
Proof.
  intros HI HN. rewrite upd_split by lia. rewrite mx_app, mx_cons. rewrite <- (firstn_skipn i dims) at 3. rewrite mx_app.
  rewrite (@skipn_cons_nth Z i dims 0) by lia. rewrite mx_cons.
  pose proof (@mx_pos (firstn i dims)). pose proof (@mx_pos (skipn (S i) dims)). apply Z.mul_le_mono_nonneg_l; nia.
Qed.

Lemma x_ax_remove_fit dbg a m : wf_map m -> roomy (m_dims m) -> x_ax_remove dbg a m = ax_remove_map a m.
Proof.
  intros HW HR. unfold x_ax_remove, ax_remove_map. destruct (ax_index a (m_rank m)) as [i| | |]; try reflexivity. cbn [bind].
  apply x_remove_fit; [apply HW|exact HR].
Qed.
Lemma x_ax_resize_fit dbg a m n : wf_map m -> roomy (m_dims m) -> x_ax_resize dbg a m n = ax_resize_map a m n.
Proof.
  intros HW HR. unfold x_ax_resize, ax_resize_map. destruct (ax_index a (m_rank m)) as [i| | |]; try reflexivity. cbn [bind].
  apply x_resize_fit; [apply HW|exact HR].
Qed.

Lemma x_axis_at_fit dbg v a k : wf_map (v_map v) -> gentle (v_map v) -> 0 <= k -> x_axis_at dbg v a k = v_axis_at v a k.
Proof.
  intros HW HG HK. pose proof (proj1 HG) as HR. unfold x_axis_at, v_axis_at.
  destruct (ax_index_spec a (m_rank (v_map v))) as [(i & E & IA)|[E _]]; rewrite E; [|reflexivity]. cbn [bind].
  assert (I : (i < m_rank (v_map v))%nat) by apply IA. rewrite m_dim_ok by exact I. cbn [bind].
  destruct (k >=? nth i (m_dims (v_map v)) 0) eqn:EK; [reflexivity|]. cbn [negb assert bind].
  assert (KB : k < nth i (m_dims (v_map v)) 0) by (destruct (Z.geb_spec k (nth i (m_dims (v_map v)) 0)); [discriminate|lia]).
  rewrite x_ax_remove_fit by auto. destruct (ax_remove_map_ok HW IA) as (m' & EM & D1 & D2 & D3 & D4 & W'). rewrite EM. cbn [bind].
  rewrite x_stride_fit by auto. rewrite m_stride_ok by (auto; apply HW). cbn [bind].
  pose proof (@roomy_nth (m_dims (v_map v)) i HR) as RN. rewrite as_isize_fit by (apply small_isize; lia).
  rewrite i_res_fit by (apply gentle_mul; auto; lia). cbn [bind].
  rewrite x_is_empty_fit; [reflexivity|apply W'|]. rewrite D1. apply roomy_usize. unfold roomy in *. pose proof (mx_remove I). lia.
Qed.

Lemma x_split_fit dbg v a k : wf_map (v_map v) -> gentle (v_map v) -> 0 <= k -> x_split_axis_at dbg v a k = v_split_axis_at v a k.
Proof.
  intros HW HG HK. pose proof (proj1 HG) as HR. unfold x_split_axis_at, v_split_axis_at.
  destruct (ax_index_spec a (m_rank (v_map v))) as [(i & E & IA)|[E _]]; rewrite E; [|reflexivity]. cbn [bind].
  assert (I : (i < m_rank (v_map v))%nat) by apply IA. rewrite m_dim_ok by exact I. cbn [bind].
  set (d := nth i (m_dims (v_map v)) 0).
  destruct (Z.gtb_spec k d); [reflexivity|]. cbn [negb assert bind].
  rewrite !x_ax_resize_fit by auto.
  destruct (ax_resize_map_ok HW IA HK) as (m1 & E1 & _). rewrite E1. cbn [bind].
  assert (K2 : 0 <= d - k) by lia. destruct (ax_resize_map_ok HW IA K2) as (m2 & E2 & D1 & D2 & D3 & D4 & W'). rewrite E2. cbn [bind].
  rewrite x_stride_fit by auto. rewrite m_stride_ok by (auto; apply HW). cbn [bind].
  pose proof (@roomy_nth (m_dims (v_map v)) i HR) as RN. fold d in RN. rewrite as_isize_fit by (apply small_isize; lia).
  rewrite i_res_fit by (apply gentle_mul; auto; fold d; lia). cbn [bind].
  rewrite x_is_empty_fit; [reflexivity|apply W'|]. rewrite D1. apply roomy_usize. unfold roomy in *.
  assert (d - k <= Z.max 1 (nth i (m_dims (v_map v)) 0)) by (fold d; lia). pose proof (mx_upd I H0). lia.
Qed.

Lemma x_v_permute_fit dbg v p perm : wf_map (v_map v) -> roomy (v_dims v) -> (length (v_dims v) < 64)%nat ->
  Forall (fun p => 0 <= p) perm -> x_v_permute dbg v p perm = v_permute v p perm.
Proof. intros HW HR HK HP. unfold x_v_permute, v_permute. rewrite x_permute_fit; auto. apply HW. Qed.
Lemma x_v_reorder_fit dbg v : wf_map (v_map v) -> roomy (v_dims v) -> x_v_reorder dbg v = v_reorder v.
Proof. intros HW HR. unfold x_v_reorder, v_reorder. rewrite x_reorder_fit; auto. apply HW. Qed.
Lemma x_v_remap_fit dbg v l ty : wf_map (v_map v) -> roomy (v_dims v) -> x_v_remap dbg v l ty = v_remap v l ty.
Proof. intros HW HR. unfold x_v_remap, v_remap. rewrite x_remap_fit; auto. apply HW. Qed.

(** ** Outcomes other than success and panic do not occur *)

Definition tame {A} (o : outcome A) : Prop := o = Panic \/ exists a, o = Ok a.
Lemma tame_ok {A} (a : A) : tame (Ok a). Proof. right. eauto. Qed.
Lemma tame_panic {A} : tame (@Panic A). Proof. now left. Qed.
Lemma tame_bind {A B} (m : outcome A) (k : A -> outcome B) : tame m -> (forall a, tame (k a)) -> tame (bind m k).
Proof. intros [->|[a ->]] H; [now left|apply H]. Qed.
Lemma tame_assert b : tame (assert b). Proof. destruct b; [apply tame_ok|apply tame_panic]. Qed.
Lemma tame_get {A} (l : list A) i : tame (get_nth l i).
Proof. unfold get_nth. destruct (nth_error l i); [apply tame_ok|apply tame_panic]. Qed.
Lemma tame_u dbg x : tame (u_res dbg x).
Proof. unfold u_res. destruct (u_fits x), dbg; try apply tame_ok. apply tame_panic. Qed.
Lemma tame_i dbg x : tame (i_res dbg x).
Proof. unfold i_res. destruct (i_fits x), dbg; try apply tame_ok. apply tame_panic. Qed.
Lemma tame_prod dbg dims : forall acc, tame (x_prod dbg acc dims).
Proof. induction dims as [|d dims IH]; intros acc; [apply tame_ok|]. cbn [x_prod]. apply tame_bind; [apply tame_u|auto]. Qed.
Lemma tame_dense_calls dbg n : forall dims s, tame (x_dense_calls dbg n dims s).
Proof.
  induction n as [|n IH]; intros dims s; [apply tame_ok|]. cbn [x_dense_calls].
  apply tame_bind; [apply tame_u|]. intros a. apply tame_bind; [apply IH|]. intros b. apply tame_ok.
Qed.
Lemma tame_calls dbg m : tame (x_calls dbg m).
Proof. destruct m; [apply tame_dense_calls|apply tame_ok]. Qed.
Lemma tame_dims_new ty n : tame (dims_new ty n).
Proof. destruct (dims_new_cases ty n) as [E|E]; rewrite E; [apply tame_ok|apply tame_panic]. Qed.
Lemma tame_if {A} (b : bool) (a : A) : tame (if b then Ok a else Panic).
Proof. destruct b; [apply tame_ok|apply tame_panic]. Qed.
Lemma tame_stride dbg m i : tame (x_stride dbg m i).
Proof.
  destruct m; cbn [x_stride]; apply tame_bind; try apply tame_assert; intros; [|apply tame_get].
  apply tame_bind; [apply tame_prod|]. intros; apply tame_ok.
Qed.
Lemma tame_contiguous dbg n : forall dims strides s, tame (x_contiguous_loop dbg n dims strides s).
Proof.
  induction n as [|n IH]; intros dims strides s; [apply tame_ok|]. cbn [x_contiguous_loop].
  destruct (negb _); [apply tame_ok|]. apply tame_bind; [apply tame_i|auto].
Qed.
Lemma tame_remap dbg l ty m : tame (x_remap dbg l ty m).
Proof.
  destruct l; cbn [x_remap].
  - apply tame_bind; [destruct m; [apply tame_ok|apply tame_contiguous]|]. intros b. apply tame_bind; [apply tame_assert|]. intros _.
    apply tame_bind; [rewrite sh_from_dims_spec; apply tame_if|]. intros; apply tame_ok.
  - apply tame_bind; [apply tame_dims_new|]. intros s. apply tame_bind; [apply tame_calls|]. intros c.
    apply tame_bind; [rewrite sh_from_dims_spec; apply tame_if|]. intros; apply tame_ok.
Qed.
Lemma tame_prepend dbg l ty m n s : tame (x_prepend_dim dbg l ty m n s).
Proof.
  destruct l; cbn [x_prepend_dim].
  - apply tame_bind; [apply tame_assert|]. intros _. apply tame_bind; [apply tame_prod|]. intros x. apply tame_bind; [apply tame_assert|].
    intros _. apply tame_bind; [rewrite sh_prepend_dim_spec; apply tame_if|]. intros; apply tame_ok.
  - apply tame_bind; [apply tame_dims_new|]. intros st. apply tame_bind; [apply tame_calls|]. intros c.
    apply tame_bind; [rewrite sh_prepend_dim_spec; apply tame_if|]. intros; apply tame_ok.
Qed.
Lemma tame_range lo hi len : tame (ix_range lo hi len).
Proof.
  unfold ix_range. apply tame_bind.
  - destruct lo; try apply tame_ok. apply tame_bind; [apply tame_assert|]. intros; apply tame_ok.
  - intros a. apply tame_bind.
    + destruct hi; try apply tame_ok. apply tame_bind; [apply tame_assert|]. intros; apply tame_ok.
    + intros b. apply tame_bind; [apply tame_assert|]. intros _. apply tame_bind; [apply tame_assert|]. intros; apply tame_ok.
Qed.
Lemma tame_dim m i : tame (m_dim m i).
Proof. destruct (Nat.lt_ge_cases i (m_rank m)); [rewrite m_dim_ok by lia; apply tame_ok|rewrite m_dim_panic by lia; apply tame_panic]. Qed.

Lemma bind_panic {A B} (m : outcome A) (k : A -> outcome B) : tame m -> (forall a, m = Ok a -> k a = Panic) -> bind m k = Panic.
Proof. intros [->|[a ->]] H; [reflexivity|]. cbn [bind]. now apply H. Qed.

Lemma tame_view_index dbg m xs : forall s, tame (x_view_index dbg xs s m).
Proof.
  induction xs as [|x xs IH]; intros s; [apply tame_ok|]. cbn [x_view_index]. apply tame_bind; [apply IH|]. intros [off inner].
  apply tame_bind; [apply tame_dim|]. intros size. apply tame_bind; [apply tame_stride|]. intros st.
  destruct x as [i| |lo hi|lo hi sp].
  - apply tame_bind; [apply tame_assert|]. intros _. apply tame_bind; [apply tame_i|]. intros p.
    apply tame_bind; [apply tame_i|]. intros o. apply tame_bind; [apply tame_remap|]. intros; apply tame_ok.
  - apply tame_bind; [apply tame_prepend|]. intros; apply tame_ok.
  - apply tame_bind; [apply tame_range|]. intros [a b]. apply tame_bind; [apply tame_i|]. intros p.
    apply tame_bind; [apply tame_i|]. intros o. apply tame_bind; [apply tame_prepend|]. intros; apply tame_ok.
  - apply tame_bind; [apply tame_range|]. intros [a b]. apply tame_bind.
    { unfold div_ceil. apply tame_bind; [apply tame_assert|]. intros; apply tame_ok. }
    intros len. apply tame_bind; [apply tame_i|]. intros p. apply tame_bind; [apply tame_i|]. intros o.
    apply tame_bind; [apply tame_i|]. intros t. apply tame_bind; [apply tame_prepend|]. intros; apply tame_ok.
Qed.

(** ** View indexing *)

(** Bad indices panic whatever overflows. *)
Lemma x_view_index_panic dbg m xs : forall s,
  wf_map m -> (length xs <= m_rank m)%nat -> Forall ix_arg xs -> Forall (fun d => d <= usize_max) (m_dims m) ->
  ~ Forall2 ix_ok (skipn (m_rank m - length xs) (m_dims m)) xs -> x_view_index dbg xs s m = Panic.
Proof.
  intros s HW. revert s. induction xs as [|x xs IH]; intros s HL HA HM HNO.
  { exfalso. apply HNO. cbn [length]. rewrite Nat.sub_0_r. unfold m_rank. rewrite skipn_all. constructor. }
  cbn [length] in *. inversion HA as [|? ? HAx HAxs]; subst. set (k := (m_rank m - S (length xs))%nat) in *.
  assert (Hkr : (k < m_rank m)%nat) by (unfold k; lia).
  rewrite (@Forall2_skipn_cons Z k (m_dims m) 0) in HNO by exact Hkr.
  cbn [x_view_index]. replace (m_rank m - 1 - length xs)%nat with k by (unfold k; lia).
  set (d := nth k (m_dims m) 0) in *.
  assert (DM : d <= usize_max). { apply (Forall_nth (fun d => d <= usize_max) (m_dims m)); auto. }
  apply bind_panic; [apply tame_view_index|]. intros [off inner] EI. rewrite m_dim_ok by exact Hkr. cbn [bind]. fold d.
  apply bind_panic; [apply tame_stride|]. intros st _.
  destruct (ix_ok_dec (skipn (S k) (m_dims m)) xs) as [OK|NO].
  - destruct (ix_ok_b d x) eqn:OX.
    { exfalso. apply HNO. constructor; [now apply ix_ok_b_spec|exact OK]. }
    destruct x as [i| |lo hi|lo hi sp]; cbn [ix_ok_b ix_arg] in *.
    + rewrite assert_false by lia. reflexivity.
    + discriminate.
    + rewrite ix_range_spec by tauto. rewrite OX. reflexivity.
    + rewrite ix_range_spec by tauto. destruct ((range_lo lo <=? range_hi d hi) && (range_hi d hi <=? d)); [|reflexivity].
      cbn [bind]. unfold div_ceil. rewrite assert_false; [reflexivity|]. simpl in OX. lia.
  - exfalso. rewrite IH in EI; [discriminate|lia|exact HAxs|exact HM|].
    replace (m_rank m - length xs)%nat with (S k) by (unfold k; lia). exact NO.
Qed.

(** The offsets computed on the way fit. *)
Fixpoint sub_small (dims strides : list Z) (xs : list dim_index) : Prop :=
  match dims, strides, xs with
  | d :: ds, s :: ss, x :: xt =>
      is_isize (s * ix_first d x) /\ is_isize (s * ix_step x) /\ is_isize (sub_off (d :: ds) (s :: ss) (x :: xt)) /\ sub_small ds ss xt
  | _, _, _ => True
  end.

Lemma mx_sub dims xs : nonneg dims -> Forall ix_arg xs -> Forall2 ix_ok dims xs -> mx (sub_dims dims xs) <= mx dims.
Proof.
  intros HN HA HO. revert HN HA. induction HO as [|d x dims xs Hd HO IH]; intros HN HA; [cbn; lia|].
  inversion HN; subst. inversion HA; subst. cbn [sub_dims]. rewrite mx_cons. pose proof (@mx_pos (sub_dims dims xs)) as M.
  specialize (IH ltac:(auto) ltac:(auto)). destruct (ix_kept x) eqn:EK.
  - rewrite mx_cons. rewrite ix_positions_length by auto. pose proof (@ix_count_le d x ltac:(auto) ltac:(auto) Hd EK). nia.
  - nia.
Qed.

Lemma ix_first_bound d x : 0 <= d -> ix_arg x -> ix_ok d x -> 0 <= ix_first d x <= d.
Proof.
  intros HD HA HO. destruct x as [i| |lo hi|lo hi s]; cbn [ix_arg ix_ok ix_first] in *; unfold usize in *; try lia.
  - destruct HA as [H1 H2]. destruct lo; cbn [range_lo bound_arg] in *; unfold usize in *; lia.
  - destruct HA as [H1 H2]. destruct ((s <? 0) && negb (range_hi d hi <=? range_lo lo)) eqn:E;
    destruct lo; cbn [range_lo bound_arg] in *; unfold usize in *; lia.
Qed.

Lemma x_view_index_fit dbg m xs : forall s,
  wf_map m -> roomy (m_dims m) -> (length xs <= m_rank m)%nat ->
  typed s (skipn (m_rank m - length xs) (m_dims m)) -> Forall ix_arg xs ->
  Forall2 ix_ok (skipn (m_rank m - length xs) (m_dims m)) xs ->
  sub_small (skipn (m_rank m - length xs) (m_dims m)) (skipn (m_rank m - length xs) (m_strides m)) xs ->
  x_view_index dbg xs s m = view_index xs s m.
Proof.
  intros s HW HR. revert s. induction xs as [|x xs IH]; intros s HL HT HA HO HS; [reflexivity|].
  assert (HM : Forall (fun d => d <= usize_max) (m_dims m)).
  { apply Forall_forall. intros y Hy. apply (In_nth _ _ 0) in Hy. destruct Hy as (j & _ & <-).
    pose proof (@roomy_nth (m_dims m) j HR). unfold isize_max, usize_max in *. lia. }
  cbn [length] in *. inversion HA as [|? ? HAx HAxs]; subst. set (k := (m_rank m - S (length xs))%nat) in *.
  assert (Hkr : (k < m_rank m)%nat) by (unfold k; lia).
  assert (Hk : (m_rank m - length xs = S k)%nat) by (unfold k; lia). rewrite Hk in IH.
  rewrite (@Forall2_skipn_cons Z k (m_dims m) 0) in HO, HS, HT by exact Hkr.
  rewrite (@Forall2_skipn_cons Z k (m_strides m) 0) in HS by (rewrite (wf_strides HW); exact Hkr).
  set (d := nth k (m_dims m) 0) in *. set (st := nth k (m_strides m) 0) in *.
  inversion HO as [|? ? ? ? OK HO']; subst. cbn [sub_small] in HS. destruct HS as (S1 & S2 & S3 & S4).
  cbn [sub_off] in S3. pose proof (typed_tail HT) as HTt.
  cbn [x_view_index view_index]. replace (m_rank m - 1 - length xs)%nat with k by (unfold k; lia).
  rewrite IH by (auto; lia).
  destruct (@view_index_spec xs (sh_tail s) m HW ltac:(lia)) as [(_ & m' & E & Ety & El & Ed & Es & Hw')|(NO & _)].
  { rewrite Hk. exact HTt. }
  { exact HAxs. }
  { rewrite Hk. apply Forall_skipn'. exact HM. }
  2:{ rewrite Hk in NO. contradiction. }
  rewrite Hk in *. rewrite E. cbn [bind]. rewrite m_dim_ok by exact Hkr. cbn [bind]. fold d.
  rewrite x_stride_fit by auto. rewrite m_stride_ok by (auto; apply HW). cbn [bind]. fold st.
  assert (RI : roomy (m_dims m')).
  { unfold roomy in *. rewrite Ed. pose proof (@mx_sub (skipn (S k) (m_dims m)) xs (nonneg_skipn (S k) (wf_nonneg HW)) HAxs HO').
    pose proof (@mx_skipn (S k) (m_dims m)). lia. }
  assert (D0 : 0 <= d). { apply (Forall_nth (fun d => 0 <= d) (m_dims m)); [apply HW|exact Hkr]. }
  pose proof (@roomy_nth (m_dims m) k HR) as DI. fold d in DI. pose proof (ix_first_bound D0 HAx OK) as FB.
  assert (DM : d <= usize_max). { unfold isize_max, usize_max in *. lia. }
  destruct x as [i| |lo hi|lo hi sp]; cbn [ix_arg ix_ok ix_first ix_step] in *.
  - rewrite assert_true by lia. cbn [bind]. rewrite as_isize_fit by (apply small_isize; lia). rewrite i_res_fit by exact S1. cbn [bind].
    rewrite i_res_fit by exact S3. cbn [bind]. rewrite x_remap_fit; [reflexivity|apply Hw'|exact RI].
  - rewrite x_prepend_fit; [reflexivity|apply Hw'|exact RI].
  - rewrite ix_range_spec by tauto. replace ((range_lo lo <=? range_hi d hi) && (range_hi d hi <=? d)) with true by lia. cbn [bind].
    rewrite as_isize_fit by (apply small_isize; lia). rewrite i_res_fit by exact S1. cbn [bind].
    rewrite i_res_fit by exact S3. cbn [bind]. rewrite x_prepend_fit; [reflexivity|apply Hw'|exact RI].
  - rewrite ix_range_spec by tauto. replace ((range_lo lo <=? range_hi d hi) && (range_hi d hi <=? d)) with true by lia. cbn [bind].
    unfold div_ceil. rewrite assert_true by lia. cbn [bind].
    rewrite as_isize_fit by (apply small_isize; lia). rewrite i_res_fit by exact S1. cbn [bind].
    rewrite i_res_fit by exact S3. cbn [bind]. rewrite i_res_fit by exact S2. cbn [bind].
    rewrite x_prepend_fit; [reflexivity|apply Hw'|exact RI].
Qed.

Lemma x_view_fit dbg v xs : wf_map (v_map v) -> roomy (v_dims v) -> Forall ix_arg xs -> length xs = length (v_dims v) ->
  (Forall2 ix_ok (v_dims v) xs -> sub_small (v_dims v) (m_strides (v_map v)) xs) ->
  x_view dbg v xs = v_view v xs.
Proof.
  intros HW HR HA HL HS.
  assert (HM : Forall (fun d => d <= usize_max) (v_dims v)).
  { apply Forall_forall. intros y Hy. apply (In_nth _ _ 0) in Hy. destruct Hy as (j & _ & <-).
    pose proof (@roomy_nth (v_dims v) j HR). unfold isize_max, usize_max in *. lia. }
  assert (K : (m_rank (v_map v) - length xs = 0)%nat) by (unfold m_rank, v_dims in *; lia).
  destruct (ix_ok_dec (v_dims v) xs) as [OK|NO].
  - unfold x_view, v_view. rewrite x_view_index_fit; auto.
    + destruct (@view_index_spec xs (v_ty v) (v_map v) HW) as [(_ & m' & E & _ & _ & Ed & _ & W')|(NO & _)];
      rewrite ?K; cbn [skipn]; auto.
      * unfold m_rank, v_dims in *. lia.
      * apply HW.
      * rewrite E. cbn [bind]. rewrite x_is_empty_fit; [reflexivity|apply W'|]. rewrite Ed, K. cbn [skipn].
        apply roomy_usize. unfold roomy in *. pose proof (mx_sub (wf_nonneg HW) HA OK). unfold v_dims in *. lia.
      * exfalso. rewrite K in NO. contradiction.
    + unfold m_rank, v_dims in *. lia.
    + rewrite K. cbn [skipn]. apply HW.
    + rewrite K. exact OK.
    + rewrite K. cbn [skipn]. auto.
  - rewrite v_view_panic by auto. unfold x_view. rewrite x_view_index_panic; auto.
    + unfold m_rank, v_dims in *. lia.
    + rewrite K. exact NO.
Qed.

(** The first selected element. *)
Fixpoint firsts (dims : list Z) (xs : list dim_index) : list Z :=
  match dims, xs with
  | d :: ds, x :: xt => ix_first d x :: firsts ds xt
  | _, _ => []
  end.

Lemma sub_off_firsts dims : forall strides xs, length strides = length dims -> length xs = length dims ->
  sub_off dims strides xs = dot strides (firsts dims xs).
Proof.
  induction dims as [|d dims IH]; intros [|s strides] [|x xs] H1 H2; try discriminate; [reflexivity|].
  cbn [sub_off firsts dot]. rewrite IH by (cbn in *; lia). ring.
Qed.

Lemma firsts_in_bounds dims xs : nonneg dims -> Forall ix_arg xs -> Forall2 ix_ok dims xs -> positive (sub_dims dims xs) ->
  in_bounds dims (firsts dims xs).
Proof.
  intros HN HA HO. revert HN HA. induction HO as [|d x dims xs Hd HO IH]; intros HN HA HP; [constructor|].
  inversion HN; subst. inversion HA; subst. cbn [firsts]. apply in_bounds_cons.
  assert (C : 0 < ix_count d x /\ positive (sub_dims dims xs)).
  { cbn [sub_dims] in HP. destruct (ix_kept x) eqn:EK.
    - inversion HP as [|? ? P1 P2]; subst. rewrite ix_positions_length in P1 by auto. split; [exact P1|exact P2].
    - split; [destruct x; try discriminate; cbn; lia|exact HP]. }
  destruct C as [C1 C2]. split; [|apply IH; auto].
  pose proof (@ix_position_bound d x 0 ltac:(auto) ltac:(auto) Hd ltac:(lia)) as B. rewrite Z.mul_0_r, Z.add_0_r in B. exact B.
Qed.

(** The new strides fit. *)
Definition steps_small (strides : list Z) (xs : list dim_index) : Prop := Forall2 (fun s x => is_isize (s * ix_step x)) strides xs.

Lemma sub_small_near dims : forall strides xs, length strides = length dims -> length xs = length dims ->
  (forall i, (i < length dims)%nat -> is_isize (nth i strides 0 * nth i (firsts dims xs) 0)) ->
  (forall a, is_isize (dot (skipn a strides) (skipn a (firsts dims xs)))) ->
  steps_small strides xs -> sub_small dims strides xs.
Proof.
  induction dims as [|d dims IH]; intros [|s strides] [|x xs] H1 H2 HT HO HS; try discriminate; [exact I|].
  inversion HS as [|? ? ? ? S1 S2]; subst. cbn [sub_small]. split; [apply (HT 0%nat); cbn; lia|]. split; [exact S1|]. split.
  - rewrite sub_off_firsts by auto. apply (HO 0%nat).
  - apply IH; auto.
    + intros i Hi. apply (HT (S i)). cbn in *. lia.
    + intros a. apply (HO (S a)).
Qed.

Lemma sub_small_nonempty m xs : wf_map m -> near m -> Forall ix_arg xs -> Forall2 ix_ok (m_dims m) xs ->
  0 < prodZ (sub_dims (m_dims m) xs) -> steps_small (m_strides m) xs -> sub_small (m_dims m) (m_strides m) xs.
Proof.
  intros HW HN HA HO HP HS. pose proof (wf_strides HW) as HL.
  assert (B : in_bounds (m_dims m) (firsts (m_dims m) xs)).
  { apply firsts_in_bounds; auto; [apply HW|]. apply prodZ_pos_inv; [apply sub_dims_nonneg|exact HP]. }
  pose proof (in_bounds_length B) as LI.
  apply sub_small_near; auto.
  - symmetry. exact (Forall2_len HO).
  - intros i Hi. now apply near_term.
  - intros a. pose proof (@near_part m a (length (m_dims m)) _ HN HL B) as H. rewrite !firstn_all2 in H by lia. exact H.
Qed.

Lemma spread_nonneg strides : forall dims, nonneg dims -> 0 <= spread strides dims.
Proof. induction strides as [|s strides IH]; intros [|d dims] HN; cbn; try lia. inversion HN; subst. specialize (IH _ H2). nia. Qed.

Lemma sub_small_spread dims : forall strides xs, nonneg dims -> length strides = length dims -> Forall ix_arg xs -> Forall2 ix_ok dims xs ->
  spread strides dims <= isize_max -> steps_small strides xs ->
  Z.abs (sub_off dims strides xs) <= spread strides dims /\ sub_small dims strides xs.
Proof.
  induction dims as [|d dims IH]; intros [|s strides] [|x xs] HN HL HA HO HB HS; try (inversion HO; fail); try discriminate.
  { cbn. lia. }
  inversion HN as [|? ? D0 HN']; subst. inversion HA as [|? ? A1 A2]; subst. inversion HO as [|? ? ? ? O1 O2]; subst.
  inversion HS as [|? ? ? ? S1 S2]; subst. cbn [spread] in HB. pose proof (@spread_nonneg strides dims HN') as SP.
  destruct (IH strides xs) as [I1 I2]; auto; [nia|].
  cbn [sub_off spread sub_small]. pose proof (ix_first_bound D0 A1 O1) as FB.
  assert (P : Z.abs (s * ix_first d x) <= Z.abs s * d) by (rewrite Z.abs_mul; nia).
  split; [lia|]. split; [apply isize_abs; lia|]. split; [exact S1|]. split; [apply isize_abs; lia|exact I2].
Qed.
