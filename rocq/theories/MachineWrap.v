(** Machine arithmetic without overflow checks: whatever wraps, the results are right modulo [2 ^ 64]. *)
From Verif Require Import Base Spec SpecFacts Shape Mapping Index View Wf MappingFacts MapOps ReshapeFacts IndexFacts ViewFacts ViewMore
  Machine MachineSpec MachineFacts MachineViews MachineReshape MachineRun.
Unset Strict Implicit.

(** ** Wrapping is compatible with sums and products *)

Lemma as_isize_eq x y : as_isize x = as_isize y <-> exists k, x = y + k * 2 ^ 64.
Proof.
  unfold as_isize. split.
  - intros H. exists ((x + 2 ^ 63) / 2 ^ 64 - (y + 2 ^ 63) / 2 ^ 64).
    pose proof (Z.div_mod (x + 2 ^ 63) (2 ^ 64)). pose proof (Z.div_mod (y + 2 ^ 63) (2 ^ 64)). lia.
  - intros [k ->]. replace (y + k * 2 ^ 64 + 2 ^ 63) with (y + 2 ^ 63 + k * 2 ^ 64) by lia. rewrite Z.mod_add by lia. reflexivity.
Qed.
Lemma as_isize_cg x : exists k, as_isize x = x + k * 2 ^ 64.
Proof. exists (- ((x + 2 ^ 63) / 2 ^ 64)). unfold as_isize. pose proof (Z.div_mod (x + 2 ^ 63) (2 ^ 64)). lia. Qed.
Lemma as_usize_cg x : exists k, as_usize x = x + k * 2 ^ 64.
Proof. exists (- (x / 2 ^ 64)). unfold as_usize. pose proof (Z.div_mod x (2 ^ 64)). lia. Qed.
Lemma as_isize_idem x : as_isize (as_isize x) = as_isize x.
Proof. apply as_isize_fit, as_isize_range. Qed.
Lemma as_isize_usize x : as_isize (as_usize x) = as_isize x.
Proof. apply as_isize_eq. apply as_usize_cg. Qed.
Lemma wrap_mul a b : as_isize (as_isize a * as_isize b) = as_isize (a * b).
Proof.
  apply as_isize_eq. destruct (as_isize_cg a) as [k ->], (as_isize_cg b) as [l ->].
  exists (a * l + k * b + k * l * 2 ^ 64). ring.
Qed.
Lemma wrap_add a b : as_isize (as_isize a + as_isize b) = as_isize (a + b).
Proof.
  apply as_isize_eq. destruct (as_isize_cg a) as [k ->], (as_isize_cg b) as [l ->]. exists (k + l). ring.
Qed.
Lemma wrap_mul_l a b : as_isize (as_isize a * b) = as_isize (a * b).
Proof. rewrite <- wrap_mul, as_isize_idem, wrap_mul. reflexivity. Qed.
Lemma wrap_usize_mul a b : as_usize (as_usize a * b) = as_usize (a * b).
Proof. unfold as_usize. now rewrite Z.mul_mod_idemp_l by lia. Qed.
Lemma as_usize_idem x : as_usize (as_usize x) = as_usize x.
Proof. unfold as_usize. now rewrite Z.mod_mod by lia. Qed.

Lemma u_res_false x : u_res false x = Ok (as_usize x).
Proof.
  unfold u_res. destruct (u_fits x) eqn:E; [|reflexivity]. rewrite as_usize_fit; [reflexivity|].
  unfold u_fits in E. unfold is_usize. lia.
Qed.
Lemma i_res_false x : i_res false x = Ok (as_isize x).
Proof.
  unfold i_res. destruct (i_fits x) eqn:E; [|reflexivity]. rewrite as_isize_fit; [reflexivity|].
  unfold i_fits in E. unfold is_isize. lia.
Qed.

(** Numbers close together that agree modulo [2 ^ 64] are equal. *)
Lemma wrap_close x y : as_isize x = as_isize y -> Z.abs (x - y) < 2 ^ 64 -> x = y.
Proof. intros H HA. apply as_isize_eq in H as [k ->]. nia. Qed.

(** ** The strides of a mapping as stored *)

Definition wrapm (m : mapping) : mapping :=
  match m with DenseM ty d => DenseM ty d | StridedM ty d s => StridedM ty d (map as_isize s) end.
Definition wrapv (v : view) : view := mkView (v_ptr v) (wrapm (v_map v)).
Definition omap {A B} (f : A -> B) (o : outcome A) : outcome B := let* a := o in Ok (f a).

Lemma omap_ok {A B} (f : A -> B) o b : omap f o = Ok b -> exists a, o = Ok a /\ b = f a.
Proof. unfold omap. intros H. apply bind_ok in H as (a & -> & H). injection H as <-. eauto. Qed.
Lemma omap_bind {A B C} (f : B -> C) (o : outcome A) k : omap f (bind o k) = bind o (fun a => omap f (k a)).
Proof. destruct o; reflexivity. Qed.

Lemma wrapm_dims m : m_dims (wrapm m) = m_dims m. Proof. now destruct m. Qed.
Lemma wrapm_ty m : m_ty (wrapm m) = m_ty m. Proof. now destruct m. Qed.
Lemma wrapm_layout m : m_layout (wrapm m) = m_layout m. Proof. now destruct m. Qed.
Lemma wrapm_rank m : m_rank (wrapm m) = m_rank m. Proof. now destruct m. Qed.
Lemma wrapm_dim m i : m_dim (wrapm m) i = m_dim m i. Proof. now destruct m. Qed.
Lemma wrapm_len m : m_len (wrapm m) = m_len m. Proof. now destruct m. Qed.
Lemma wrapm_idem m : wrapm (wrapm m) = wrapm m.
Proof. destruct m; [reflexivity|]. cbn [wrapm]. f_equal. rewrite map_map. apply map_ext. apply as_isize_idem. Qed.
Lemma wrapm_wf m : wf_map m -> wf_map (wrapm m).
Proof. intros [H1 H2 H3 H4]. destruct m; [now constructor|]. constructor; cbn in *; auto. now rewrite map_length. Qed.
Lemma wrapm_id m : (m_layout m = Strided -> Forall is_isize (m_strides m)) -> wrapm m = m.
Proof.
  destruct m as [ty d|ty d s]; [reflexivity|]. cbn [m_layout m_strides wrapm]. intros H. specialize (H eq_refl). f_equal.
  induction H as [|x l Hx H IH]; [reflexivity|]. cbn [map]. rewrite IH, as_isize_fit by exact Hx. reflexivity.
Qed.

Lemma as_isize_0 : as_isize 0 = 0. Proof. reflexivity. Qed.
Lemma nth_wrap s i : nth i (map as_isize s) 0 = as_isize (nth i s 0).
Proof. rewrite <- as_isize_0 at 1. apply map_nth. Qed.

(** ** Strides and calls *)

Definition wc (c : nat * Z) : nat * Z := (fst c, as_isize (snd c)).

Lemma x_dense_calls_wrap n dims : forall s, x_dense_calls false n dims (as_usize s) = Ok (map wc (dense_calls n dims s)).
Proof.
  induction n as [|n IH]; intros s; [reflexivity|]. cbn [x_dense_calls dense_calls map].
  rewrite u_res_false, wrap_usize_mul. cbn [bind]. rewrite IH. cbn [bind]. unfold wc at 2. cbn [fst snd]. now rewrite as_isize_usize.
Qed.
Lemma x_calls_wrap m : x_calls false (wrapm m) = Ok (map wc (for_each_stride m)).
Proof.
  destruct m as [ty d|ty d s]; cbn [wrapm x_calls for_each_stride].
  - apply (x_dense_calls_wrap (length d) d 1).
  - f_equal. rewrite map_map. apply map_ext. intros i. unfold wc. cbn [fst snd]. now rewrite nth_wrap.
Qed.
Lemma map_upd (f : Z -> Z) l i x : map f (upd l i x) = upd (map f l) i (f x).
Proof. revert i. induction l as [|y l IH]; intros [|i]; simpl; try reflexivity. now rewrite IH. Qed.
Lemma store_wrap g calls : forall init,
  store_strides (map as_isize init) g (map wc calls) = map as_isize (store_strides init g calls).
Proof.
  unfold store_strides. induction calls as [|c calls IH]; intros init; [reflexivity|]. cbn [map fold_left].
  rewrite <- IH, map_upd. reflexivity.
Qed.
Lemma wrap_zeros n : map as_isize (repeat 0 n) = repeat 0 n.
Proof. induction n; simpl; [reflexivity|]. now rewrite IHn. Qed.
Lemma store_wrap0 g calls n : store_strides (repeat 0 n) g (map wc calls) = map as_isize (store_strides (repeat 0 n) g calls).
Proof. rewrite <- store_wrap, wrap_zeros. reflexivity. Qed.

Lemma x_prod_wrap dims acc : x_prod false (as_usize acc) dims = Ok (as_usize (acc * prodZ dims)).
Proof.
  revert acc. induction dims as [|d dims IH]; intros acc; cbn [x_prod].
  - now rewrite Z.mul_1_r.
  - rewrite u_res_false, wrap_usize_mul. cbn [bind]. rewrite IH, prodZ_cons. do 2 f_equal. ring.
Qed.
Lemma x_len_wrap dims : x_len false dims = Ok (as_usize (prodZ dims)).
Proof. unfold x_len. change 1 with (as_usize 1). rewrite x_prod_wrap. do 2 f_equal. lia. Qed.

Lemma x_stride_wrap m i : x_stride false (wrapm m) i = omap as_isize (m_stride m i).
Proof.
  destruct m as [ty d|ty d s]; cbn [wrapm x_stride m_stride].
  - destruct (assert (i <? length d)%nat); try reflexivity. cbn [bind omap].
    change 1 with (as_usize 1) at 1. rewrite x_prod_wrap. cbn [bind]. rewrite as_isize_usize, fold_mul_prod. reflexivity.
  - destruct (assert (i <? length d)%nat); try reflexivity. cbn [bind omap]. unfold get_nth. rewrite nth_error_map.
    destruct (nth_error s i); reflexivity.
Qed.

(** ** Contiguity, in the direction that matters *)

Lemma x_contiguous_wrap n dims strides : forall s, contiguous_loop n dims strides s = true ->
  x_contiguous_loop false n dims (map as_isize strides) (as_isize s) = Ok true.
Proof.
  induction n as [|n IH]; intros s H; [reflexivity|]. cbn [contiguous_loop x_contiguous_loop] in *.
  destruct (Z.eqb_spec (nth n strides 0) s) as [E|E]; [|discriminate]. cbn [negb] in H. rewrite nth_wrap, E, Z.eqb_refl. cbn [negb].
  rewrite i_res_false, wrap_mul. cbn [bind]. now apply IH.
Qed.
Lemma x_is_contiguous_wrap m : is_contiguous m = true -> x_is_contiguous false (wrapm m) = Ok true.
Proof.
  destruct m as [ty d|ty d s]; cbn [wrapm x_is_contiguous is_contiguous]; [reflexivity|]. apply (@x_contiguous_wrap _ _ _ 1).
Qed.

(** ** Operations on mappings *)

Lemma x_remap_strided_wrap ty m : x_remap false Strided ty (wrapm m) = omap wrapm (m_remap Strided ty m).
Proof.
  cbn [x_remap m_remap]. rewrite wrapm_rank, wrapm_dims, x_calls_wrap.
  destruct (dims_new_cases ty (m_rank m)) as [E|E]; rewrite E; [|reflexivity]. cbn [bind]. rewrite store_wrap0.
  destruct (sh_from_dims ty (m_dims m)); reflexivity.
Qed.
Lemma x_remap_wrap l ty m m' : m_remap l ty m = Ok m' -> x_remap false l ty (wrapm m) = Ok (wrapm m').
Proof.
  destruct l.
  - cbn [x_remap m_remap]. intros H. apply bind_ok in H as (u & A & H). apply assert_ok in A. rewrite x_is_contiguous_wrap by exact A.
    cbn [bind assert]. rewrite wrapm_dims. apply bind_ok in H as (d & -> & H). injection H as <-. reflexivity.
  - rewrite x_remap_strided_wrap. intros ->. reflexivity.
Qed.
Lemma x_remap_dense_wrap l ty m : m_layout m = Dense \/ l = Strided -> x_remap false l ty (wrapm m) = omap wrapm (m_remap l ty m).
Proof.
  intros [H| ->]; [|apply x_remap_strided_wrap]. destruct l; [|apply x_remap_strided_wrap].
  destruct m as [t d|t d s]; [|discriminate]. cbn [wrapm x_remap m_remap x_is_contiguous is_contiguous bind assert m_dims].
  destruct (sh_from_dims ty d); reflexivity.
Qed.

Lemma x_prepend_wrap l ty m n s m' : m_prepend_dim l ty m n s = Ok m' ->
  x_prepend_dim false l ty (wrapm m) n (as_isize s) = Ok (wrapm m').
Proof.
  destruct l; cbn [x_prepend_dim m_prepend_dim]; rewrite ?wrapm_layout, ?wrapm_dims, ?wrapm_rank.
  - intros H. apply bind_ok in H as (u & A & H). rewrite A. cbn [bind]. rewrite x_len_wrap. cbn [bind].
    apply bind_ok in H as (u' & B & H). apply assert_ok, Z.eqb_eq in B. unfold m_len in B. rewrite sh_len_prod in B.
    rewrite as_isize_usize, B, Z.eqb_refl. cbn [assert bind]. apply bind_ok in H as (d & -> & H). injection H as <-. reflexivity.
  - intros H. apply bind_ok in H as (st & E & H). pose proof (@dims_new_ok_inv _ _ _ E) as ->. rewrite E. cbn [bind]. rewrite x_calls_wrap. cbn [bind].
    apply bind_ok in H as (d & -> & H). injection H as <-. cbn [bind wrapm]. rewrite <- store_wrap, map_upd, wrap_zeros. reflexivity.
Qed.

Lemma x_remove_wrap l ty m i : x_remove_dim false l ty (wrapm m) i = omap wrapm (m_remove_dim l ty m i).
Proof.
  destruct l; cbn [x_remove_dim m_remove_dim]; rewrite ?wrapm_layout, ?wrapm_dims, ?wrapm_rank.
  - destruct (assert (is_dense (m_layout m))); try reflexivity. cbn [bind]. destruct (assert (i =? 0)%nat); try reflexivity. cbn [bind].
    destruct (sh_remove_dim ty (m_dims m) i); reflexivity.
  - destruct (assert (i <? m_rank m)%nat); try reflexivity. cbn [bind].
    destruct (dims_new_cases ty (m_rank m - 1)) as [E|E]; rewrite E; [|reflexivity]. cbn [bind]. rewrite x_calls_wrap. cbn [bind].
    destruct (sh_remove_dim ty (m_dims m) i); try reflexivity. cbn [bind omap wrapm]. do 2 f_equal.
    rewrite <- (wrap_zeros (m_rank m - 1)) at 1. generalize (repeat 0 (m_rank m - 1)). induction (for_each_stride m) as [|c cs IH]; intros st; [reflexivity|].
    cbn [map fold_left]. rewrite <- IH. f_equal. unfold wc. cbn [fst snd].
    destruct (fst c <? i)%nat; [now rewrite map_upd|]. destruct (i <? fst c)%nat; [now rewrite map_upd|reflexivity].
Qed.
Lemma x_reorder_wrap l m : x_reorder false l (wrapm m) = omap wrapm (m_reorder l m).
Proof.
  destruct l; cbn [x_reorder m_reorder]; rewrite ?wrapm_layout, ?wrapm_dims, ?wrapm_rank, ?wrapm_ty.
  - destruct (assert ((m_rank m <? 2)%nat && is_dense (m_layout m))); try reflexivity. cbn [bind].
    destruct (sh_reverse_dims _ _); reflexivity.
  - destruct (dims_new_cases (sh_reverse (m_ty m)) (m_rank m)) as [E|E]; rewrite E; [|reflexivity]. cbn [bind]. rewrite x_calls_wrap. cbn [bind].
    rewrite store_wrap0. destruct (sh_reverse_dims _ _); reflexivity.
Qed.
Lemma x_resize_wrap l ty m i n : x_resize_dim false l ty (wrapm m) i n = omap wrapm (m_resize_dim l ty m i n).
Proof.
  destruct l; cbn [x_resize_dim m_resize_dim]; rewrite ?wrapm_layout, ?wrapm_dims, ?wrapm_rank.
  - destruct (assert (is_dense (m_layout m))); try reflexivity. cbn [bind]. destruct (assert (i =? 0)%nat); try reflexivity. cbn [bind].
    destruct (sh_resize_dim _ _ _ _); reflexivity.
  - destruct (dims_new_cases ty (m_rank m)) as [E|E]; rewrite E; [|reflexivity]. cbn [bind]. rewrite x_calls_wrap. cbn [bind].
    rewrite store_wrap0. destruct (sh_resize_dim _ _ _ _); reflexivity.
Qed.
Lemma x_permute_wrap l ty m perm : (m_rank m < 64)%nat -> Forall (fun p => 0 <= p) perm -> m_layout m = Dense \/ l = Strided ->
  x_permute false l ty (wrapm m) perm = omap wrapm (m_permute l ty m perm).
Proof.
  intros HR HP HL. unfold x_permute, m_permute. rewrite wrapm_rank, wrapm_dims.
  destruct (assert (length perm =? m_rank m)%nat); try reflexivity. cbn [bind]. destruct l.
  - destruct (assert (perm_is_identity 0 perm)); try reflexivity. cbn [bind]. apply x_remap_dense_wrap. exact HL.
  - rewrite x_mask_fit by auto. destruct (mask_loop (m_rank m) perm 0) as [mk| | |]; try reflexivity. cbn [bind].
    rewrite u_shl_small by lia. cbn [bind]. rewrite assert_true with (b := (m_rank m <? 64)%nat) by (apply Nat.ltb_lt; exact HR). cbn [bind].
    unfold full_mask, as_usize. destruct (assert (mk =? _)); try reflexivity. cbn [bind].
    destruct (sh_new ty (m_rank m)) as [d| | |]; try reflexivity. cbn [bind].
    destruct (dims_new_cases ty (m_rank m)) as [E|E]; rewrite E; [|reflexivity]. cbn [bind]. rewrite x_calls_wrap. cbn [bind].
    rewrite store_wrap0. destruct (sh_store _ _); reflexivity.
Qed.

Lemma x_ax_remove_wrap a m : x_ax_remove false a (wrapm m) = omap wrapm (ax_remove_map a m).
Proof.
  unfold x_ax_remove, ax_remove_map. rewrite wrapm_rank, wrapm_ty, wrapm_layout. destruct (ax_index a (m_rank m)); try reflexivity.
  cbn [bind]. apply x_remove_wrap.
Qed.
Lemma x_ax_resize_wrap a m n : x_ax_resize false a (wrapm m) n = omap wrapm (ax_resize_map a m n).
Proof.
  unfold x_ax_resize, ax_resize_map. rewrite wrapm_rank, wrapm_ty, wrapm_layout. destruct (ax_index a (m_rank m)); try reflexivity.
  cbn [bind]. apply x_resize_wrap.
Qed.

(** ** View indexing *)

Lemma x_view_index_wrap m xs : forall s off m', view_index xs s m = Ok (off, m') ->
  x_view_index false xs s (wrapm m) = Ok (as_isize off, wrapm m').
Proof.
  induction xs as [|x xs IH]; intros s off m' H; cbn [view_index x_view_index] in *; rewrite ?wrapm_layout, ?wrapm_rank in *.
  { injection H as <- <-. destruct (m_layout m); reflexivity. }
  apply bind_ok in H as ([o1 m1] & E1 & H). rewrite (IH _ _ _ E1). cbn [bind].
  rewrite wrapm_dim. apply bind_ok in H as (size & -> & H). cbn [bind].
  rewrite x_stride_wrap. apply bind_ok in H as (st & -> & H). cbn [bind omap].
  destruct x as [i| |lo hi|lo hi sp].
  - apply bind_ok in H as (u & -> & H). cbn [bind]. apply bind_ok in H as (m2 & E2 & H). injection H as <- <-.
    rewrite !i_res_false. cbn [bind]. rewrite i_res_false. cbn [bind]. rewrite (x_remap_wrap E2). cbn [bind].
    now rewrite wrap_mul, wrap_add.
  - apply bind_ok in H as (m2 & E2 & H). injection H as <- <-. rewrite (x_prepend_wrap E2). reflexivity.
  - apply bind_ok in H as ([a b] & -> & H). cbn [bind]. apply bind_ok in H as (m2 & E2 & H). injection H as <- <-.
    rewrite !i_res_false. cbn [bind]. rewrite i_res_false. cbn [bind]. rewrite (x_prepend_wrap E2). cbn [bind].
    now rewrite wrap_mul, wrap_add.
  - apply bind_ok in H as ([a b] & -> & H). cbn [bind]. apply bind_ok in H as (len & -> & H). cbn [bind].
    apply bind_ok in H as (m2 & E2 & H). injection H as <- <-.
    rewrite !i_res_false. cbn [bind]. rewrite !i_res_false. cbn [bind]. rewrite wrap_mul_l, (x_prepend_wrap E2). cbn [bind].
    now rewrite wrap_mul, wrap_add.
Qed.

(** ** Wrapped strides address the same cells *)

Lemma in_bounds_dims dims idx : in_bounds dims idx -> positive dims.
Proof. intros H. induction H; constructor; auto. lia. Qed.

Lemma stride_bound n v i : valid_view n v -> positive (v_dims v) -> (i < length (v_dims v))%nat -> 1 < nth i (v_dims v) 0 ->
  Z.abs (nth i (m_strides (v_map v)) 0) < n.
Proof.
  intros HV PP HI HD. pose proof (vv_wf HV) as HW. pose proof (wf_strides HW) as HL. fold (v_dims v) in HL.
  set (s := nth i (m_strides (v_map v)) 0).
  assert (B : in_bounds (v_dims v) (upd (repeat 0 (length (v_dims v))) i 1)).
  { apply in_bounds_intro; [rewrite upd_length, repeat_length; reflexivity|]. intros j Hj.
    destruct (Nat.eq_dec i j) as [<-|NE].
    - rewrite upd_nth_same by (rewrite repeat_length; lia). lia.
    - rewrite upd_nth_other by exact NE. rewrite nth_repeat0. pose proof (positive_nth PP Hj). lia. }
  pose proof (vv_range HV B) as R1. rewrite v_addr_dot in R1 by (auto; rewrite upd_length, repeat_length; reflexivity).
  rewrite dot_upd in R1 by (rewrite ?repeat_length; lia). rewrite dot_zeros, nth_repeat0 in R1. fold s in R1.
  pose proof (vv_range HV (in_bounds_zeros PP)) as R2. rewrite v_addr_dot, dot_zeros in R2 by (auto; now rewrite repeat_length).
  lia.
Qed.

Lemma dot_wrap dims idx : in_bounds dims idx -> forall strides, length strides = length dims ->
  (forall i, (i < length dims)%nat -> 1 < nth i dims 0 -> is_isize (nth i strides 0)) ->
  dot (map as_isize strides) idx = dot strides idx.
Proof.
  intros HB. induction HB as [|d i dims idx Hi HB IH]; intros [|s strides] HL HS; try discriminate; [reflexivity|].
  cbn [map dot]. rewrite IH; [|now injection HL|intros j Hj; apply (HS (S j)); simpl; lia].
  destruct (Z.eq_dec d 1) as [E|E].
  - assert (i = 0) by lia. subst i. lia.
  - rewrite as_isize_fit; [reflexivity|]. apply (HS 0%nat); simpl; lia.
Qed.

Lemma wrap_strides m : m_layout m = Strided -> m_strides (wrapm m) = map as_isize (m_strides m).
Proof. destruct m; [discriminate|reflexivity]. Qed.

Lemma wrap_addr n v idx : valid_view n v -> n <= isize_max -> in_bounds (v_dims v) idx -> v_addr (wrapv v) idx = v_addr v idx.
Proof.
  intros HV HN HB. pose proof (vv_wf HV) as HW. destruct (v_layout v) eqn:EL.
  - unfold v_layout in EL. unfold v_addr, wrapv. cbn [v_ptr v_map]. destruct (v_map v); [reflexivity|discriminate].
  - pose proof (in_bounds_length HB) as LB.
    rewrite !v_addr_dot; [|exact HW|exact LB|now apply wrapm_wf|now rewrite LB; unfold v_dims; cbn [wrapv v_map]; rewrite wrapm_dims].
    cbn [wrapv v_ptr v_map]. f_equal. rewrite wrap_strides by exact EL.
    apply (dot_wrap HB); [apply HW|]. intros i Hi Hd. pose proof (stride_bound HV (in_bounds_dims HB) Hi Hd).
    apply isize_abs. lia.
Qed.
Lemma wrapv_dims v : v_dims (wrapv v) = v_dims v. Proof. unfold v_dims, wrapv. cbn [v_map]. apply wrapm_dims. Qed.
Lemma wrap_same n v : valid_view n v -> n <= isize_max -> same_view (wrapv v) v.
Proof.
  intros HV HN. constructor; try reflexivity.
  - apply wrapm_ty.
  - apply wrapm_layout.
  - apply wrapv_dims.
  - rewrite wrapv_dims. intros idx HB. now apply (@wrap_addr n).
Qed.
Lemma same_valid n a b : same_view a b -> wf_map (v_map a) -> valid_view n b -> valid_view n a.
Proof.
  intros S HW HV. constructor; [exact HW| |].
  - intros idx HB. rewrite (sv_addr S) by exact HB. apply HV. now rewrite <- (sv_dims S).
  - intros i j Hi Hj. rewrite !(sv_addr S) by assumption. rewrite (sv_dims S) in *. now apply HV.
Qed.
Lemma wrap_valid n v : valid_view n v -> n <= isize_max -> valid_view n (wrapv v).
Proof. intros HV HN. apply (@same_valid n (wrapv v) v); [now apply (@wrap_same n)|apply wrapm_wf, HV|exact HV]. Qed.
Lemma wrap_machine n v : valid_view n v -> n <= isize_max -> Forall (fun d => d <= usize_max) (v_dims v) -> machine_view n (wrapv v).
Proof.
  intros HV HN HD. constructor; [now apply wrap_valid|now rewrite wrapv_dims|]. intros EL. cbn [wrapv v_map].
  unfold v_layout in EL. cbn [wrapv v_map] in EL. rewrite wrapm_layout in EL. rewrite wrap_strides by exact EL.
  apply Forall_forall. intros x Hx. apply in_map_iff in Hx as (y & <- & _). apply as_isize_range.
Qed.
Lemma machine_wrap n v : machine_view n v -> wrapv v = v.
Proof. intros [_ _ HS]. unfold wrapv. rewrite wrapm_id by exact HS. now destruct v. Qed.
Lemma same_refl v : same_view v v. Proof. now constructor. Qed.
Lemma same_sym a b : same_view a b -> same_view b a.
Proof.
  intros S. constructor; [symmetry; apply S..|]. intros idx HB. symmetry. apply S. now rewrite (sv_dims S).
Qed.
Lemma same_trans a b c : same_view a b -> same_view b c -> same_view a c.
Proof.
  intros S T. constructor.
  - now rewrite (sv_ptr S), (sv_ptr T).
  - now rewrite (sv_ty S), (sv_ty T).
  - now rewrite (sv_layout S), (sv_layout T).
  - now rewrite (sv_dims S), (sv_dims T).
  - intros idx HB. rewrite (sv_addr S) by exact HB. apply T. now rewrite <- (sv_dims S).
Qed.

(** ** Moving the pointer *)

Lemma ptr_range n v : valid_view n v -> positive (v_dims v) -> 0 <= v_ptr v < n.
Proof.
  intros HV PP. pose proof (vv_range HV (in_bounds_zeros PP)) as R.
  rewrite v_addr_dot, dot_zeros in R; [lia|apply HV|now rewrite repeat_length].
Qed.
Lemma shows_positive v w f : shows v w f -> positive (v_dims w) -> positive (v_dims v).
Proof. intros S PP. destruct (S _ (in_bounds_zeros PP)) as [HB _]. now apply in_bounds_dims in HB. Qed.
Lemma off_fits n v w f off : n <= isize_max -> valid_view n v -> valid_view n w -> shows v w f -> positive (v_dims w) ->
  v_ptr w = v_ptr v + off -> is_isize off.
Proof.
  intros HN HV HW S PP E. pose proof (ptr_range HW PP). pose proof (ptr_range HV (shows_positive S PP)). apply isize_abs. lia.
Qed.
Lemma x_is_empty_wrap dims : 0 <= prodZ dims <= usize_max -> x_is_empty false dims = Ok (prodZ dims =? 0).
Proof. intros H. unfold x_is_empty. rewrite x_len_wrap. cbn [bind]. now rewrite as_usize_fit by exact H. Qed.
Lemma valid_prod n v : 0 <= n <= isize_max -> valid_view n v -> 0 <= prodZ (v_dims v) <= usize_max.
Proof.
  intros HN HV. pose proof (valid_len (proj1 HN) HV). pose proof (prodZ_nonneg (wf_nonneg (vv_wf HV))). unfold v_dims, isize_max, usize_max in *. lia.
Qed.
Lemma is_empty_prod m : m_is_empty m = (prodZ (m_dims m) =? 0).
Proof. apply m_is_empty_spec. Qed.

Lemma finish n v w off m' : 0 <= n <= isize_max -> valid_view n v -> valid_view n w -> (exists f, shows v w f) ->
  w = mkView (v_ptr v + (if m_is_empty m' then 0 else off)) m' ->
  (let* e := x_is_empty false (m_dims (wrapm m')) in Ok (mkView (v_ptr v + (if e : bool then 0 else as_isize off)) (wrapm m')))
  = Ok (wrapv w).
Proof.
  intros HN HV HW [f S] E. rewrite wrapm_dims. pose proof (valid_prod HN HW) as HP.
  assert (D : v_dims w = m_dims m') by (rewrite E; reflexivity). rewrite D in HP. rewrite x_is_empty_wrap by exact HP. cbn [bind].
  rewrite m_is_empty_spec in E. destruct (Z.eqb_spec (prodZ (m_dims m')) 0) as [Z0|NZ].
  - rewrite E. reflexivity.
  - rewrite as_isize_fit; [rewrite E; reflexivity|]. apply (@off_fits n v w f off); auto; [lia| |rewrite E; reflexivity].
    rewrite D. apply prodZ_pos_inv; [|lia]. rewrite <- D. apply HW.
Qed.

(** ** View operations *)

Section Ops.
  Context {n : Z} {v : view}.
  Hypotheses (HN : 0 <= n <= isize_max) (HV : valid_view n v) (HD : Forall (fun d => d <= usize_max) (v_dims v)).
  Let HW : wf_map (v_map v) := vv_wf HV.
  Let HU : 0 <= n <= usize_max.
  Proof. unfold isize_max, usize_max in *. lia. Qed.

  Lemma x_axis_at_wrap a k : usize k -> x_axis_at false (wrapv v) a k = omap wrapv (v_axis_at v a k).
  Proof.
    intros HK. pose proof (fun w E => @step_valid n v (OpAxisAt a k) w HU HV HD HK E) as SV. cbn [v_step] in SV.
    unfold x_axis_at, v_axis_at in *. cbn [wrapv v_map v_ptr]. rewrite wrapm_rank.
    destruct (ax_index a (m_rank (v_map v))) as [i| | |]; try reflexivity. cbn [bind] in *. rewrite wrapm_dim.
    destruct (m_dim (v_map v) i) as [size| | |]; try reflexivity. cbn [bind] in *.
    destruct (assert (negb (k >=? size))) as [u| | |]; try reflexivity. cbn [bind] in *. rewrite x_ax_remove_wrap.
    destruct (ax_remove_map a (v_map v)) as [m'| | |]; try reflexivity. cbn [bind omap] in *. rewrite x_stride_wrap.
    destruct (m_stride (v_map v) i) as [st| | |]; try reflexivity. cbn [bind omap] in *. rewrite i_res_false, wrap_mul. cbn [bind].
    destruct (SV _ eq_refl) as (V' & _ & S). apply (finish HN HV V' S). reflexivity.
  Qed.

  Lemma x_split_wrap a k : usize k ->
    x_split_axis_at false (wrapv v) a k = omap (fun p => (wrapv (fst p), wrapv (snd p))) (v_split_axis_at v a k).
  Proof.
    intros HK. pose proof (fun w E => @step_valid n v (OpSplitSnd a k) w HU HV HD HK E) as SV. cbn [v_step] in SV.
    unfold x_split_axis_at, v_split_axis_at in *. cbn [wrapv v_map v_ptr]. rewrite wrapm_rank.
    destruct (ax_index a (m_rank (v_map v))) as [i| | |]; try reflexivity. cbn [bind] in *. rewrite wrapm_dim.
    destruct (m_dim (v_map v) i) as [size| | |]; try reflexivity. cbn [bind] in *.
    destruct (assert (negb (k >? size))) as [u| | |]; try reflexivity. cbn [bind] in *. rewrite !x_ax_resize_wrap.
    destruct (ax_resize_map a (v_map v) k) as [m1| | |]; try reflexivity. cbn [bind omap] in *.
    destruct (ax_resize_map a (v_map v) (size - k)) as [m2| | |]; try reflexivity. cbn [bind omap] in *. rewrite x_stride_wrap.
    destruct (m_stride (v_map v) i) as [st| | |]; try reflexivity. cbn [bind omap] in *. rewrite i_res_false, wrap_mul. cbn [bind].
    destruct (SV _ eq_refl) as (V' & _ & S). pose proof (finish HN HV V' S eq_refl) as F. cbn [fst snd].
    destruct (x_is_empty false (m_dims (wrapm m2))); try discriminate. cbn [bind] in *. injection F as F. unfold wrapv. cbn [v_ptr v_map].
    now rewrite F.
  Qed.

  Lemma x_view_wrap xs : Forall ix_arg xs -> length xs = length (v_dims v) ->
    x_view false (wrapv v) xs = omap wrapv (v_view v xs).
  Proof.
    intros HA HL. pose proof (fun w E => @step_valid n v (OpView xs) w HU HV HD (conj HA HL) E) as SV. cbn [v_step] in SV.
    destruct (ix_ok_dec (v_dims v) xs) as [OK|NO].
    - unfold x_view, v_view in *. cbn [wrapv v_map v_ptr]. unfold v_ty. cbn [wrapv v_map]. rewrite wrapm_ty. fold (v_ty v).
      destruct (view_index xs (v_ty v) (v_map v)) as [[off m']| | |] eqn:E.
      + rewrite (x_view_index_wrap E). cbn [bind omap] in *. destruct (SV _ eq_refl) as (V' & _ & S). apply (finish HN HV V' S). reflexivity.
      + exfalso. destruct (v_view_ok HW HA HD HL OK) as (w & E' & _). unfold v_view in E'. rewrite E in E'. discriminate.
      + exfalso. destruct (v_view_ok HW HA HD HL OK) as (w & E' & _). unfold v_view in E'. rewrite E in E'. discriminate.
      + exfalso. destruct (v_view_ok HW HA HD HL OK) as (w & E' & _). unfold v_view in E'. rewrite E in E'. discriminate.
    - rewrite v_view_panic by auto. unfold x_view. cbn [wrapv v_map v_ptr]. unfold v_dims in *. rewrite x_view_index_panic; auto.
      + now apply wrapm_wf.
      + rewrite wrapm_rank. unfold m_rank. lia.
      + now rewrite wrapm_dims.
      + rewrite wrapm_rank, wrapm_dims. unfold m_rank. rewrite HL, Nat.sub_diag. exact NO.
  Qed.

  Lemma x_v_permute_wrap p perm : (length (v_dims v) < 64)%nat -> Forall usize perm -> perm_matches p perm ->
    x_v_permute false (wrapv v) p perm = omap wrapv (v_permute v p perm).
  Proof.
    intros HR HP HM. unfold x_v_permute, v_permute. unfold v_layout, v_ty. cbn [wrapv v_map v_ptr]. rewrite wrapm_layout, wrapm_ty.
    rewrite x_permute_wrap; [destruct (m_permute _ _ _ _); reflexivity|exact HR| |].
    - eapply Forall_impl; [|exact HP]. unfold usize. intros; lia.
    - destruct (m_layout (v_map v)); [now left|]. right. destruct p as [xs|]; [|reflexivity]. cbn [perm_arg_layout]. unfold perm_layout, sh_layout.
      destruct xs as [|x [|y xs]]; [|reflexivity|]; destruct (perm_init _) as [|[|]]; reflexivity.
  Qed.
  Lemma x_v_reorder_wrap : x_v_reorder false (wrapv v) = omap wrapv (v_reorder v).
  Proof.
    unfold x_v_reorder, v_reorder. unfold v_layout, v_ty. cbn [wrapv v_map v_ptr]. rewrite wrapm_layout, wrapm_ty, x_reorder_wrap.
    destruct (m_reorder _ _); reflexivity.
  Qed.
  Lemma x_v_remap_wrap l ty : l = Strided \/ v_layout v = Dense -> x_v_remap false (wrapv v) l ty = omap wrapv (v_remap v l ty).
  Proof.
    intros HL. unfold x_v_remap, v_remap. cbn [wrapv v_map v_ptr]. rewrite x_remap_dense_wrap by tauto. destruct (m_remap _ _ _); reflexivity.
  Qed.

  Lemma x_into_diag_wrap k : is_isize k -> x_into_diag false (wrapv v) k = omap wrapv (v_into_diag v k).
  Proof.
    intros HK. pose proof (fun w => @chain_diag n v v k w HU) as CD.
    assert (CI : chain_inv n v v). { constructor; auto. exists (fun i => i). intros idx HB. auto. }
    unfold x_into_diag, v_into_diag in *. cbn [wrapv v_map v_ptr]. rewrite wrapm_rank.
    destruct (Nat.eqb_spec (m_rank (v_map v)) 2) as [R|R]; [|reflexivity]. cbn [assert bind] in *.
    rewrite !wrapm_dim, !x_stride_wrap. rewrite !m_dim_ok, !m_stride_ok in * by (auto; try apply HW; lia). cbn [bind omap] in *.
    set (d0 := nth 0 (m_dims (v_map v)) 0) in *. set (d1 := nth 1 (m_dims (v_map v)) 0) in *.
    set (s0 := nth 0 (m_strides (v_map v)) 0) in *. set (s1 := nth 1 (m_strides (v_map v)) 0) in *.
    assert (B0 : 0 <= d0 <= usize_max /\ 0 <= d1 <= usize_max).
    { split; split; try (apply (Forall_nth (fun d => 0 <= d)); [apply HW|unfold m_rank in R; lia]);
      (apply (Forall_nth (fun d => d <= usize_max)); [exact HD|unfold m_rank, v_dims in *; lia]). }
    assert (FIN : forall off len w, w = mkView (v_ptr v + (if len >? 0 then off else 0)) (StridedM (STuple [DDyn]) [len] [s0 + s1]) ->
      0 <= len -> chain_inv n v w ->
      (let* s := i_res false (as_isize s0 + as_isize s1) in let* m' := strided_new (STuple [DDyn]) [len] [s] in
       Ok (mkView (v_ptr v + (if len >? 0 then as_isize off else 0)) m')) = Ok (wrapv w)).
    { intros off len w -> L0 [V' _ [f S]]. rewrite i_res_false, wrap_add. cbn [bind strided_new length assert Nat.eqb].
      unfold wrapv. cbn [v_ptr v_map wrapm map]. destruct (Z.gtb_spec len 0) as [G|G]; [|reflexivity].
      rewrite as_isize_fit; [reflexivity|]. eapply (@off_fits n v _ f off); eauto; [lia|]. cbn. repeat constructor. lia. }
    unfold is_isize, isize_min, isize_max in HK. destruct (Z.geb_spec k 0) as [G|G].
    - rewrite as_usize_fit by (unfold is_usize, usize_max; lia). destruct (Z.leb_spec k d1) as [A|A]; [|reflexivity]. cbn [assert bind] in *.
      rewrite i_res_false. cbn [bind]. rewrite u_res_false. cbn [bind]. rewrite as_usize_fit by (unfold is_usize; lia).
      replace (as_isize (k * as_isize s1)) with (as_isize (k * s1)) by (rewrite (Z.mul_comm k (as_isize s1)), wrap_mul_l; f_equal; lia).
      cbn [strided_new length assert Nat.eqb bind omap] in *. apply FIN; [reflexivity|lia|]. apply CD; [exact CI|reflexivity].
    - rewrite i_res_false. cbn [bind].
      assert (AU : as_usize (as_isize (- k)) = - k).
      { destruct (as_isize_cg (- k)) as [q E]. unfold as_usize. rewrite E, Z.mod_add by lia. apply Z.mod_small. lia. }
      rewrite AU. destruct (Z.leb_spec (- k) d0) as [A|A]; [|reflexivity]. cbn [assert bind] in *.
      rewrite i_res_false. cbn [bind]. rewrite u_res_false. cbn [bind]. rewrite as_usize_fit by (unfold is_usize; lia). rewrite wrap_mul.
      cbn [strided_new length assert Nat.eqb bind omap] in *. apply FIN; [reflexivity|lia|]. apply CD; [exact CI|reflexivity].
  Qed.
End Ops.
