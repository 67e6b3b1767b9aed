(** Facts about axes, view indexing and permutation types. *)
From Verif Require Import Base Spec SpecFacts Shape Mapping Index View Wf MappingFacts MapOps.

Unset Strict Implicit.

(** ** Shape types *)

Lemma typed_tail ty d ds : typed ty (d :: ds) -> typed (sh_tail ty) ds.
Proof. destruct ty as [|l]; simpl; auto. inversion 1; subst; auto. Qed.

Lemma typed_head ty d ds : typed ty (d :: ds) -> dim_ok (sh_head ty) d.
Proof. destruct ty as [|l]; simpl; auto. inversion 1; subst; auto. Qed.

Lemma typed_prepend ty d n ds : typed ty ds -> dim_ok d n -> typed (sh_prepend d ty) (n :: ds).
Proof.
  destruct ty as [|l]; simpl; auto. intros H1 H2. destruct (length l <? max_rank)%nat; simpl; auto.
Qed.

Lemma ty_wf_prepend ty d : ty_wf (sh_prepend d ty).
Proof.
  destruct ty as [|l]; simpl; auto. destruct (Nat.ltb_spec (length l) max_rank); simpl; auto.
Qed.

Lemma ty_wf_tail ty : ty_wf ty -> ty_wf (sh_tail ty).
Proof. destruct ty as [|[|d l]]; simpl; auto. lia. Qed.

Lemma ty_wf_reverse ty : ty_wf ty -> ty_wf (sh_reverse ty).
Proof. destruct ty; simpl; auto. now rewrite rev_length. Qed.

Lemma ty_wf_dyn ty : ty_wf ty -> ty_wf (sh_dyn ty).
Proof. destruct ty; simpl; auto. now rewrite map_length. Qed.

Lemma Forall2_rev {A B} (R : A -> B -> Prop) a b : Forall2 R a b -> Forall2 R (rev a) (rev b).
Proof. induction 1; simpl; auto. apply Forall2_app; auto. Qed.

Lemma typed_rev ty dims : typed ty dims -> typed (sh_reverse ty) (rev dims).
Proof. destruct ty; simpl; auto. apply Forall2_rev. Qed.

Lemma typed_dyn ty dims dims' : typed ty dims -> length dims' = length dims -> typed (sh_dyn ty) dims'.
Proof.
  destruct ty; simpl; auto. intros H E. apply Forall2_len in H. rewrite <- H in E. clear H.
  revert dims' E. induction ds; intros [|x dims'] E; simpl in *; try lia; constructor; simpl; auto.
Qed.

Lemma cremove_typed n ty dims :
  typed ty dims -> (n < length dims)%nat -> typed (cremove n ty) (remove_at n dims).
Proof.
  revert ty dims. induction n; intros ty [|d dims] H Hn; simpl in Hn; try lia.
  - simpl. unfold remove_at. simpl. eapply typed_tail; eauto.
  - change (remove_at (S n) (d :: dims)) with (d :: remove_at n dims). simpl.
    apply typed_prepend.
    + apply IHn; [|lia]. eapply typed_tail; eauto.
    + eapply typed_head; eauto.
Qed.

Lemma cremove_wf n ty : ty_wf ty -> ty_wf (cremove n ty).
Proof. destruct n; simpl; intros; [now apply ty_wf_tail|apply ty_wf_prepend]. Qed.

Lemma cinsert_typed n ty dims d x :
  typed ty dims -> dim_ok d x -> (n <= length dims)%nat -> typed (cinsert n d ty) (insert_at n x dims).
Proof.
  revert ty dims. induction n; intros ty dims H Hd Hn.
  - simpl. unfold insert_at. simpl. now apply typed_prepend.
  - destruct dims as [|y dims]; simpl in Hn; [lia|].
    change (insert_at (S n) x (y :: dims)) with (y :: insert_at n x dims). simpl.
    apply typed_prepend.
    + apply IHn; auto; [|lia]. eapply typed_tail; eauto.
    + eapply typed_head; eauto.
Qed.

Lemma cinsert_wf n d ty : ty_wf (cinsert n d ty).
Proof. destruct n; simpl; apply ty_wf_prepend. Qed.

Lemma cdim_ok n ty dims :
  typed ty dims -> (n < length dims)%nat -> dim_ok (cdim n ty) (nth n dims 0).
Proof.
  revert ty dims. induction n; intros ty [|d dims] H Hn; simpl in *; try lia.
  - eapply typed_head; eauto.
  - apply IHn; [|lia]. eapply typed_tail; eauto.
Qed.

Lemma rev_remove_rev {A} k (l : list A) :
  (k < length l)%nat -> rev (remove_at k (rev l)) = remove_at (length l - 1 - k) l.
Proof.
  intros H. unfold remove_at. rewrite rev_app_distr, skipn_rev, firstn_rev, !rev_involutive.
  f_equal; f_equal; lia.
Qed.

Lemma rev_insert_rev {A} k (x : A) (l : list A) :
  (k <= length l)%nat -> rev (insert_at k x (rev l)) = insert_at (length l - k) x l.
Proof.
  intros H. unfold insert_at. rewrite rev_app_distr. simpl rev.
  rewrite skipn_rev, firstn_rev, !rev_involutive, <- app_assoc. reflexivity.
Qed.

Lemma insert_remove_upd {A} i (x : A) l :
  (i < length l)%nat -> insert_at i x (remove_at i l) = upd l i x.
Proof.
  intros H. rewrite upd_split by auto. unfold insert_at, remove_at.
  rewrite firstn_app, skipn_app, firstn_firstn, firstn_length.
  replace (Nat.min i i) with i by lia.
  replace (i - Nat.min i (length l))%nat with 0%nat by lia. cbn [firstn skipn].
  rewrite skipn_all2 by (rewrite firstn_length; lia). now rewrite app_nil_r.
Qed.

(** ** Axes *)

Lemma ax_index_spec a rank :
  (exists i, ax_index a rank = Ok i /\ is_axis a rank i) \/
  (ax_index a rank = Panic /\ forall i, ~ is_axis a rank i).
Proof.
  unfold is_axis. destruct a as [n| | |n]; cbn [ax_index].
  - destruct (Nat.ltb_spec n rank); cbn [assert bind]; [left; eexists; split; eauto|right; split; auto; intros; lia].
  - destruct (Nat.ltb_spec 1 rank); cbn [assert bind]; [left; eexists; split; eauto; lia|right; split; auto; intros; lia].
  - destruct (Nat.ltb_spec 0 rank); cbn [assert bind]; [left; eexists; split; eauto; lia|right; split; auto; intros; lia].
  - destruct (Nat.ltb_spec n rank); cbn [assert bind]; [left; eexists; split; eauto|right; split; auto; intros; lia].
Qed.

Lemma ax_index_ok a rank i : is_axis a rank i -> ax_index a rank = Ok i.
Proof.
  intros H. destruct (ax_index_spec a rank) as [(j & -> & Hj)|[_ N]].
  - f_equal. unfold is_axis in *. destruct a; lia.
  - exfalso. eapply N; eauto.
Qed.

Lemma ax_index_inv a rank i : ax_index a rank = Ok i -> is_axis a rank i.
Proof.
  intros H. destruct (ax_index_spec a rank) as [(j & E & Hj)|[E N]]; rewrite E in H; [|discriminate].
  injection H as <-. exact Hj.
Qed.

Lemma ax_remove_typed a ty dims i :
  typed ty dims -> is_axis a (length dims) i -> typed (ax_remove a ty) (remove_at i dims).
Proof.
  intros HT (Hi & HA). destruct a as [n| | |n]; simpl ax_remove.
  - subst. now apply cremove_typed.
  - replace i with (length dims - 1 - 1)%nat by lia.
    rewrite <- rev_remove_rev by lia. apply typed_rev.
    change (sh_prepend (sh_head (sh_reverse ty)) (sh_tail (sh_tail (sh_reverse ty)))) with (cremove 1 (sh_reverse ty)).
    apply cremove_typed; [now apply typed_rev|rewrite rev_length; lia].
  - replace i with (length dims - 1 - 0)%nat by lia.
    rewrite <- rev_remove_rev by lia. apply typed_rev.
    change (sh_tail (sh_reverse ty)) with (cremove 0 (sh_reverse ty)).
    apply cremove_typed; [now apply typed_rev|rewrite rev_length; lia].
  - destruct dims as [|d dims]; simpl in Hi; [lia|].
    apply typed_dyn with (dims := dims); [eapply typed_tail; eauto|].
    rewrite remove_at_length by (simpl; lia). simpl. lia.
Qed.

Lemma ax_remove_wf a ty : ty_wf ty -> ty_wf (ax_remove a ty).
Proof.
  intros H. destruct a; simpl.
  - now apply cremove_wf.
  - apply ty_wf_reverse, ty_wf_prepend.
  - apply ty_wf_reverse, ty_wf_tail, ty_wf_reverse, H.
  - now apply ty_wf_dyn, ty_wf_tail.
Qed.

Lemma ax_resize_typed a ty dims i n :
  typed ty dims -> is_axis a (length dims) i -> typed (ax_resize_ty a ty) (upd dims i n).
Proof.
  intros HT HA. pose proof (@ax_remove_typed a ty dims i HT HA) as HR. unfold ax_resize_ty.
  rewrite <- insert_remove_upd by apply HA.
  assert (HL : length (remove_at i dims) = (length dims - 1)%nat) by (apply remove_at_length; apply HA).
  destruct HA as (Hi & HA). destruct a as [k| | |k]; cbn [ax_insert].
  - subst. apply cinsert_typed; simpl; auto. lia.
  - replace i with (length (remove_at i dims) - 1)%nat at 1 by lia.
    rewrite <- rev_insert_rev by lia. apply typed_rev. apply cinsert_typed; simpl; auto.
    + now apply typed_rev.
    + rewrite rev_length. lia.
  - replace i with (length (remove_at i dims) - 0)%nat at 1 by lia.
    rewrite <- rev_insert_rev by lia. apply typed_rev. apply cinsert_typed; simpl; auto.
    + now apply typed_rev.
    + lia.
  - assert (HD : typed (sh_dyn (ax_remove (AxDyn k) ty)) (tl (insert_at i n (remove_at i dims)))).
    { eapply typed_dyn; [exact HR|]. destruct (insert_at i n (remove_at i dims)) eqn:E.
      - apply (f_equal (@length Z)) in E. rewrite insert_at_length in E. discriminate.
      - simpl. apply (f_equal (@length Z)) in E. rewrite insert_at_length in E. simpl in E. lia. }
    destruct (insert_at i n (remove_at i dims)) eqn:E.
    + apply (f_equal (@length Z)) in E. rewrite insert_at_length in E. discriminate.
    + apply typed_prepend; simpl; auto.
Qed.

Lemma ax_resize_wf a ty : ty_wf (ax_resize_ty a ty).
Proof.
  destruct a; unfold ax_resize_ty; cbn [ax_insert].
  - apply cinsert_wf.
  - apply ty_wf_reverse, cinsert_wf.
  - apply ty_wf_reverse, cinsert_wf.
  - apply ty_wf_prepend.
Qed.

Lemma prepend_not_nil d s : sh_prepend d s <> STuple [].
Proof. destruct s; simpl; [discriminate|]. destruct (length ds <? max_rank)%nat; discriminate. Qed.

Lemma sh_layout_dense s l : sh_layout s l = Dense -> s = STuple [] /\ l = Dense.
Proof. destruct s as [|[|]]; simpl; intros; auto; discriminate. Qed.

Lemma reverse_nil s : sh_reverse s = STuple [] -> s = STuple [].
Proof.
  destruct s as [|ds]; simpl; [discriminate|]. intros [= E]. apply (f_equal (@rev dimty)) in E.
  rewrite rev_involutive in E. now subst.
Qed.

(** A layout kept by [Split] means the axis is the first one. *)
Lemma ax_split_dense a ty l dims i :
  typed ty dims -> is_axis a (length dims) i -> ax_split a ty l = Dense -> i = 0%nat /\ l = Dense.
Proof.
  intros HT (Hi & HA) H. apply sh_layout_dense in H as [H ->]. split; auto.
  destruct a as [n| | |n]; simpl in H.
  - destruct n; [auto|]. simpl in H. now apply prepend_not_nil in H.
  - apply reverse_nil in H. destruct ty as [|ds]; simpl in H; [discriminate|].
    injection H as H. apply Forall2_len in HT.
    assert (E : length (rev ds) = length dims) by (rewrite rev_length; auto).
    destruct (rev ds) as [|x [|y [|z r]]]; simpl in *; try discriminate; lia.
  - apply reverse_nil in H. destruct ty as [|ds]; simpl in H; [discriminate|].
    injection H as H. apply Forall2_len in HT.
    assert (E : length (rev ds) = length dims) by (rewrite rev_length; auto).
    destruct (rev ds) as [|x [|y r]]; simpl in *; try discriminate; lia.
  - discriminate.
Qed.

(** A layout kept by [Keep] means the axis is the last one. *)
Lemma crest_nil n ds : crest n (STuple ds) = STuple (skipn (S n) ds).
Proof.
  revert ds. induction n; intros ds.
  - simpl. now destruct ds.
  - change (crest (S n) (STuple ds)) with (crest n (STuple (tl ds))). rewrite IHn.
    destruct ds; reflexivity.
Qed.

Lemma crest_dynrank n : crest n SDynRank = SDynRank.
Proof. induction n; simpl; auto. Qed.

Lemma ax_keep_dense a ty l dims i :
  typed ty dims -> is_axis a (length dims) i -> ax_keep a ty l = Dense ->
  (S i = length dims)%nat /\ l = Dense.
Proof.
  intros HT (Hi & HA) H. apply sh_layout_dense in H as [H ->]. split; auto.
  destruct a as [n| | |n]; cbn [ax_rest] in H.
  - destruct ty as [|ds].
    + rewrite crest_dynrank in H. discriminate.
    + rewrite crest_nil in H. apply Forall2_len in HT.
      assert (E : length (skipn (S n) ds) = 0%nat) by (assert (E0 : skipn (S n) ds = []) by congruence; now rewrite E0).
      rewrite skipn_length in E. lia.
  - apply reverse_nil in H. cbn [cinit] in H. now apply prepend_not_nil in H.
  - lia.
  - discriminate.
Qed.

Lemma ax_dim_ok a ty dims i :
  typed ty dims -> is_axis a (length dims) i -> dim_ok (ax_dim a ty) (nth i dims 0).
Proof.
  intros HT (Hi & HA). destruct a as [n| | |n]; cbn [ax_dim].
  - subst. now apply cdim_ok.
  - replace (nth i dims 0) with (nth 1 (rev dims) 0).
    + apply cdim_ok; [now apply typed_rev|rewrite rev_length; lia].
    + rewrite rev_nth by lia. f_equal. lia.
  - replace (nth i dims 0) with (nth 0 (rev dims) 0).
    + apply cdim_ok; [now apply typed_rev|rewrite rev_length; lia].
    + rewrite rev_nth by lia. f_equal. lia.
  - simpl. auto.
Qed.

Lemma row_major_remove0 dims : remove_at 0 (row_major dims) = row_major (remove_at 0 dims).
Proof. destruct dims; reflexivity. Qed.

Lemma row_major_upd0 dims n : row_major (upd dims 0 n) = row_major dims.
Proof. destruct dims; reflexivity. Qed.

Lemma nonneg_remove i dims : nonneg dims -> nonneg (remove_at i dims).
Proof. intros H. apply nonneg_app. split; [now apply nonneg_firstn|now apply nonneg_skipn]. Qed.

Lemma nonneg_upd i dims n : nonneg dims -> 0 <= n -> nonneg (upd dims i n).
Proof.
  intros H Hn. revert i. unfold nonneg in *. induction H; intros [|i]; simpl; constructor; auto.
Qed.

(** Removing an axis from a mapping always succeeds. *)
Lemma ax_remove_map_ok a m i :
  wf_map m -> is_axis a (m_rank m) i ->
  exists m', ax_remove_map a m = Ok m' /\ m_dims m' = remove_at i (m_dims m) /\
    m_strides m' = remove_at i (m_strides m) /\ m_ty m' = ax_remove a (m_ty m) /\
    m_layout m' = ax_split a (m_ty m) (m_layout m) /\ wf_map m'.
Proof.
  intros Hw HA. unfold ax_remove_map. rewrite (ax_index_ok HA). cbn [bind].
  pose proof (ax_remove_typed (wf_typed Hw) HA) as HT. apply accepts_typed in HT as HT'.
  pose proof (nonneg_remove i (wf_nonneg Hw)) as HN.
  pose proof (ax_remove_wf a (wf_ty Hw)) as HW.
  assert (Hi : (i < m_rank m)%nat) by apply HA.
  assert (HLs : length (remove_at i (m_strides m)) = length (remove_at i (m_dims m))).
  { unfold m_rank in Hi. rewrite !remove_at_length; rewrite ?(wf_strides Hw); auto. }
  destruct (ax_split a (m_ty m) (m_layout m)) eqn:L.
  - destruct (ax_split_dense (wf_typed Hw) HA L) as [-> HL].
    rewrite m_remove_dense by lia. rewrite HL. simpl is_dense. cbn [andb Nat.eqb]. rewrite HT'.
    destruct m as [ty dims|]; [|discriminate]. cbn [m_dims m_strides m_ty] in *.
    eexists. split; [reflexivity|]. cbn [m_dims m_strides m_ty m_layout].
    rewrite row_major_remove0 in *. repeat (split; auto).
  - rewrite m_remove_strided by (auto; apply (wf_strides Hw)). rewrite HT'.
    eexists. split; [reflexivity|]. cbn [m_dims m_strides m_ty m_layout]. repeat (split; auto).
Qed.

Lemma ax_resize_map_ok a m i n :
  wf_map m -> is_axis a (m_rank m) i -> 0 <= n ->
  exists m', ax_resize_map a m n = Ok m' /\ m_dims m' = upd (m_dims m) i n /\
    m_strides m' = m_strides m /\ m_ty m' = ax_resize_ty a (m_ty m) /\
    m_layout m' = ax_split a (m_ty m) (m_layout m) /\ wf_map m'.
Proof.
  intros Hw HA Hn. unfold ax_resize_map. rewrite (ax_index_ok HA). cbn [bind].
  pose proof (ax_resize_typed n (wf_typed Hw) HA) as HT. apply accepts_typed in HT as HT'.
  pose proof (nonneg_upd i (wf_nonneg Hw) Hn) as HN.
  pose proof (ax_resize_wf a (m_ty m)) as HW.
  assert (Hi : (i < m_rank m)%nat) by apply HA.
  assert (HLs : length (m_strides m) = length (upd (m_dims m) i n)).
  { rewrite upd_length. apply (wf_strides Hw). }
  destruct (ax_split a (m_ty m) (m_layout m)) eqn:L.
  - destruct (ax_split_dense (wf_typed Hw) HA L) as [-> HL].
    rewrite m_resize_dense by lia. rewrite HL. simpl is_dense. cbn [andb Nat.eqb]. rewrite HT'.
    destruct m as [ty dims|]; [|discriminate]. cbn [m_dims m_strides m_ty] in *.
    eexists. split; [reflexivity|]. cbn [m_dims m_strides m_ty m_layout].
    rewrite row_major_upd0. repeat (split; auto). cbn [m_strides m_dims]. rewrite row_major_upd0. auto.
  - rewrite m_resize_strided by (auto; apply (wf_strides Hw)). rewrite HT'.
    eexists. split; [reflexivity|]. cbn [m_dims m_strides m_ty m_layout]. repeat (split; auto).
Qed.

(** The one-dimensional mapping along an axis. *)
Lemma ax_get_ok a m i :
  wf_map m -> is_axis a (m_rank m) i ->
  exists m', ax_get a m = Ok m' /\ m_dims m' = [nth i (m_dims m) 0] /\
    m_strides m' = [nth i (m_strides m) 0] /\ m_ty m' = STuple [ax_dim a (m_ty m)] /\
    m_layout m' = ax_keep a (m_ty m) (m_layout m) /\ wf_map m'.
Proof.
  intros Hw HA. unfold ax_get. rewrite (ax_index_ok HA). cbn [bind].
  assert (Hi : (i < m_rank m)%nat) by apply HA.
  rewrite m_dim_ok, m_stride_ok by (auto; apply (wf_strides Hw)). cbn [bind].
  pose proof (ax_dim_ok (wf_typed Hw) HA) as HD.
  assert (HT : typed (STuple [ax_dim a (m_ty m)]) [nth i (m_dims m) 0]) by (constructor; auto).
  apply accepts_typed in HT as HT'.
  assert (HN : nonneg [nth i (m_dims m) 0]).
  { constructor; auto. pose proof (wf_nonneg Hw) as H. unfold nonneg in H. rewrite Forall_forall in H.
    apply H. apply nth_In. exact Hi. }
  destruct (ax_keep a (m_ty m) (m_layout m)) eqn:L.
  - destruct (ax_keep_dense (wf_typed Hw) HA L) as [HI HL].
    destruct m as [ty dims|]; [|discriminate]. cbn [m_dims m_strides m_ty] in *.
    assert (HS : nth i (row_major dims) 0 = 1).
    { unfold m_rank in *. cbn [m_dims] in *. rewrite nth_row_major by lia. rewrite skipn_all2 by lia. reflexivity. }
    rewrite HS. rewrite m_prepend_dense. cbn [m_layout is_dense andb m_dims].
    change (1 =? prodZ []) with true. cbn [andb]. rewrite HT'.
    eexists. split; [reflexivity|]. cbn [m_dims m_strides m_ty m_layout].
    repeat (split; auto). simpl. lia.
  - rewrite m_prepend_strided by reflexivity. cbn [m_dims]. rewrite HT'.
    eexists. split; [reflexivity|]. cbn [m_dims m_strides m_ty m_layout].
    repeat (split; auto). simpl. lia.
Qed.

(** ** View indexing *)

(** First selected position and distance between consecutive ones. *)
Definition ix_first (d : Z) (x : dim_index) : Z :=
  match x with
  | IxUsize i => i
  | IxFull => 0
  | IxRange lo _ => range_lo lo
  | IxStep lo hi s =>
      if (s <? 0) && negb (range_hi d hi <=? range_lo lo) then range_hi d hi - 1 else range_lo lo
  end.
Definition ix_step (x : dim_index) : Z := match x with IxStep _ _ s => s | _ => 1 end.
Definition ix_count (d : Z) (x : dim_index) : Z :=
  match x with
  | IxUsize _ => 1
  | IxFull => d
  | IxRange lo hi => range_hi d hi - range_lo lo
  | IxStep lo hi s => (range_hi d hi - range_lo lo + Z.abs s - 1) / Z.abs s
  end.

Lemma filter_step (g f : Z -> Z) s n :
  0 < s -> 0 <= n -> (forall k, 0 <= k -> f (g k) = k) ->
  filter (fun p => f p mod s =? 0) (map g (zrange n)) = map (fun k => g (s * k)) (zrange ((n + s - 1) / s)).
Proof.
  intros Hs Hn Hfg. revert n Hn. apply natlike_ind.
  - rewrite (@zrange_0 0) by lia. rewrite Z.div_small by lia. reflexivity.
  - intros n Hn IH. replace (Z.succ n) with (n + 1) by lia.
    rewrite zrange_succ, map_app, filter_app, IH by lia. cbn [map filter]. rewrite Hfg by lia.
    destruct (Z.eqb_spec (n mod s) 0) as [E|E].
    + assert (Hq : n = s * (n / s)) by (pose proof (Z.div_mod n s); lia).
      assert (Q1 : (n + s - 1) / s = n / s).
      { symmetry. apply Z.div_unique with (r := s - 1); lia. }
      assert (Q2 : (n + 1 + s - 1) / s = n / s + 1).
      { symmetry. apply Z.div_unique with (r := 0); lia. }
      rewrite Q1, Q2, zrange_succ, map_app by (apply Z.div_pos; lia). cbn [map].
      now rewrite <- Hq.
    + rewrite app_nil_r. f_equal. f_equal.
      pose proof (Z.mod_pos_bound n s Hs). pose proof (Z.div_mod n s).
      assert (Q1 : (n + s - 1) / s = n / s + 1).
      { symmetry. apply Z.div_unique with (r := n mod s - 1); lia. }
      assert (Q2 : (n + 1 + s - 1) / s = n / s + 1).
      { symmetry. apply Z.div_unique with (r := n mod s); lia. }
      lia.
Qed.

Lemma rev_zrange n : rev (zrange n) = map (fun k => n - 1 - k) (zrange n).
Proof.
  destruct (Z.le_gt_cases n 0) as [H|H]; [rewrite zrange_0 by lia; reflexivity|].
  apply list_ext0.
  - now rewrite rev_length, map_length.
  - intros i Hi. rewrite rev_length, zrange_length in Hi.
    rewrite rev_nth by (rewrite zrange_length; lia). rewrite zrange_length.
    rewrite zrange_nth by lia.
    rewrite nth_indep with (d' := (fun k => n - 1 - k) 0) by (rewrite map_length, zrange_length; lia).
    rewrite (map_nth (fun k => n - 1 - k)). rewrite zrange_nth by lia. lia.
Qed.

Lemma ix_positions_arith d x :
  0 <= d -> ix_ok d x -> ix_positions d x = map (fun k => ix_first d x + ix_step x * k) (zrange (ix_count d x)).
Proof.
  intros Hd Hok. destruct x as [i| |lo hi|lo hi s].
  - cbn [ix_positions ix_first ix_step ix_count]. change (zrange 1) with [0]. cbn [map]. f_equal. lia.
  - cbn [ix_positions ix_first ix_step ix_count]. unfold positions. rewrite Z.sub_0_r.
    apply map_ext. intros; lia.
  - cbn [ix_positions ix_first ix_step ix_count]. unfold positions. apply map_ext. intros; lia.
  - cbn [ix_ok] in Hok. destruct Hok as [Hr Hs].
    cbn [ix_positions ix_first ix_step ix_count].
    set (a := range_lo lo) in *. set (b := range_hi d hi) in *. unfold positions.
    destruct (Z.gtb_spec s 0) as [P|P].
    + rewrite (@filter_step (Z.add a) (fun p => p - a)) by (intros; lia).
      replace (Z.abs s) with s by lia. destruct (Z.ltb_spec s 0); [lia|]. reflexivity.
    + rewrite <- map_rev, rev_zrange, map_map.
      rewrite (@filter_step (fun k => a + (b - a - 1 - k)) (fun p => b - 1 - p)) by (intros; lia).
      replace (Z.abs s) with (- s) by lia. destruct (Z.ltb_spec s 0); [|lia]. cbn [andb].
      destruct (Z.leb_spec b a); cbn [negb].
      * replace (b - a) with 0 by lia. rewrite Z.div_small by lia. reflexivity.
      * apply map_ext. intros k. lia.
Qed.

Lemma ix_count_nonneg d x : 0 <= d -> ix_ok d x -> 0 <= ix_count d x.
Proof.
  intros Hd Hok. destruct x as [i| |lo hi|lo hi s]; cbn [ix_count ix_ok] in *; try lia.
Qed.

Lemma ix_positions_length d x :
  0 <= d -> ix_ok d x -> Z.of_nat (length (ix_positions d x)) = ix_count d x.
Proof.
  intros Hd Hok. rewrite ix_positions_arith by auto. rewrite map_length, zrange_length.
  pose proof (ix_count_nonneg Hd Hok). lia.
Qed.

Lemma ix_positions_nth d x k :
  0 <= d -> ix_ok d x -> 0 <= k < ix_count d x ->
  nth (Z.to_nat k) (ix_positions d x) 0 = ix_first d x + ix_step x * k.
Proof.
  intros Hd Hok Hk. rewrite ix_positions_arith by auto.
  rewrite nth_indep with (d' := (fun k => ix_first d x + ix_step x * k) 0)
    by (rewrite map_length, zrange_length; lia).
  rewrite (map_nth (fun k => ix_first d x + ix_step x * k)). rewrite zrange_nth by lia.
  now rewrite Z2Nat.id by lia.
Qed.

Lemma ix_position_bound d x k :
  0 <= d -> ix_arg x -> ix_ok d x -> 0 <= k < ix_count d x -> 0 <= ix_first d x + ix_step x * k < d.
Proof.
  intros Hd Ha Hok Hk. destruct x as [i| |lo hi|lo hi s]; cbn [ix_first ix_step ix_count ix_ok ix_arg] in *.
  - unfold usize in *. lia.
  - lia.
  - destruct lo, hi; cbn [range_lo range_hi bound_arg] in *; unfold usize in *; lia.
  - destruct Hok as [Hr Hs].
    assert (Hlo : 0 <= range_lo lo) by (destruct lo; cbn in *; unfold usize in *; lia).
    set (a := range_lo lo) in *. set (b := range_hi d hi) in *.
    assert (Hab : Z.abs s * k <= b - a - 1).
    { assert (H1 : k + 1 <= (b - a + Z.abs s - 1) / Z.abs s) by lia.
      assert (H2 : Z.abs s * ((b - a + Z.abs s - 1) / Z.abs s) <= b - a + Z.abs s - 1)
        by (apply Z.mul_div_le; lia).
      nia. }
    assert (0 <= Z.abs s * k) by nia.
    destruct (Z.ltb_spec s 0); cbn [andb].
    + replace (Z.abs s) with (- s) in * by lia. destruct (Z.leb_spec b a); cbn [negb]; lia.
    + replace (Z.abs s) with s in * by lia. lia.
Qed.

Lemma ix_range_spec lo hi d :
  bound_arg lo -> bound_arg hi -> d <= usize_max ->
  ix_range lo hi d =
  if (range_lo lo <=? range_hi d hi) && (range_hi d hi <=? d)
  then Ok (range_lo lo, range_hi d hi) else Panic.
Proof.
  intros Hl Hh Hd. unfold ix_range.
  assert (E : forall a b,
    (let* _ := assert (a <=? b) in let* _ := assert (b <=? d) in Ok (a, b)) =
    if (a <=? b) && (b <=? d) then Ok (a, b) else Panic).
  { intros. destruct (a <=? b), (b <=? d); reflexivity. }
  destruct lo as [n|n|], hi as [n'|n'|]; cbn [bind range_lo range_hi]; try apply E.
  - destruct (Z.leb_spec (n' + 1) usize_max); cbn [assert bind]; [apply E|].
    destruct (Z.leb_spec (n' + 1) d); [lia|]. now rewrite andb_false_r.
  - destruct (Z.leb_spec (n + 1) usize_max); cbn [assert bind].
    + destruct (Z.leb_spec (n' + 1) usize_max); cbn [assert bind]; [apply E|].
      destruct (Z.leb_spec (n' + 1) d); [lia|]. now rewrite andb_false_r.
    + destruct (Z.leb_spec (n + 1) (n' + 1)); [|reflexivity].
      destruct (Z.leb_spec (n' + 1) d); [lia|reflexivity].
  - destruct (Z.leb_spec (n + 1) usize_max); cbn [assert bind]; [apply E|].
    destruct (Z.leb_spec (n + 1) n'); [|reflexivity].
    destruct (Z.leb_spec n' d); [lia|reflexivity].
  - destruct (Z.leb_spec (n + 1) usize_max); cbn [assert bind]; [apply E|].
    destruct (Z.leb_spec (n + 1) d); [lia|reflexivity].
  - destruct (Z.leb_spec (n' + 1) usize_max); cbn [assert bind]; [apply E|].
    destruct (Z.leb_spec (n' + 1) d); [lia|]. now rewrite andb_false_r.
Qed.

Fixpoint sub_strides (dims strides : list Z) (xs : list dim_index) : list Z :=
  match dims, strides, xs with
  | d :: ds, s :: ss, x :: xt =>
      if ix_kept x then s * ix_step x :: sub_strides ds ss xt else sub_strides ds ss xt
  | _, _, _ => []
  end.
Fixpoint sub_off (dims strides : list Z) (xs : list dim_index) : Z :=
  match dims, strides, xs with
  | d :: ds, s :: ss, x :: xt => sub_off ds ss xt + s * ix_first d x
  | _, _, _ => 0
  end.

Lemma vi_outer_dense xs l :
  vi_outer xs l = Dense -> l = Dense /\ Forall (fun x => x = IxFull) xs /\ vi_layout xs l = Dense.
Proof.
  induction xs as [|x xs IH]; simpl; intros H; auto.
  destruct x; try discriminate. destruct (IH H) as (-> & F & _). auto.
Qed.

Lemma sub_dims_full dims xs :
  nonneg dims -> length xs = length dims -> Forall (fun x => x = IxFull) xs -> sub_dims dims xs = dims.
Proof.
  revert xs. induction dims as [|d dims IH]; intros [|x xs] HN HL HF; simpl in *; try lia; auto.
  inversion HF; subst. inversion HN; subst. cbn [ix_kept ix_positions]. unfold positions.
  rewrite map_length, zrange_length, IH by auto. f_equal. lia.
Qed.

Lemma sub_strides_full dims strides xs :
  length strides = length dims ->
  length xs = length dims -> Forall (fun x => x = IxFull) xs -> sub_strides dims strides xs = strides.
Proof.
  revert strides xs. induction dims as [|d dims IH]; intros [|s strides] [|x xs] HLs HL HF; simpl in *; try lia; auto.
  inversion HF; subst. cbn [ix_kept ix_step]. rewrite IH by auto. f_equal. lia.
Qed.

Lemma sub_strides_length dims strides xs :
  length strides = length dims -> length (sub_strides dims strides xs) = length (sub_dims dims xs).
Proof.
  revert strides xs. induction dims as [|d dims IH]; intros [|s strides] [|x xs] HL; simpl in *; try lia; auto.
  destruct (ix_kept x); simpl; rewrite IH by lia; auto.
Qed.

Lemma sub_dims_nonneg dims xs : nonneg (sub_dims dims xs).
Proof.
  unfold nonneg. revert xs. induction dims as [|d dims IH]; intros [|x xs]; simpl; auto.
  destruct (ix_kept x); auto. constructor; auto. lia.
Qed.

Lemma skipn_row_major n dims : skipn n (row_major dims) = row_major (skipn n dims).
Proof. revert dims. induction n; intros [|d dims]; simpl; auto. Qed.

(** [vi_shape] admits the dimensions of the subarray. *)
Lemma vi_shape_typed xs s dims :
  nonneg dims -> typed s dims -> length xs = length dims -> typed (vi_shape xs s) (sub_dims dims xs).
Proof.
  revert s dims. induction xs as [|x xs IH]; intros s [|d dims] HN HT HL; simpl in HL; try lia.
  - simpl. constructor.
  - inversion HN; subst.
    assert (HI : typed (vi_shape xs (sh_tail s)) (sub_dims dims xs)).
    { apply IH; auto. eapply typed_tail; eauto. }
    destruct x; cbn [vi_shape sub_dims ix_kept ix_positions]; auto; apply typed_prepend; simpl; auto.
    unfold positions. rewrite map_length, zrange_length.
    replace (Z.of_nat (Z.to_nat (d - 0))) with d by lia. eapply typed_head; eauto.
Qed.

Lemma vi_shape_wf xs s : ty_wf (vi_shape xs s).
Proof.
  revert s. induction xs as [|x xs IH]; intros s; simpl; [lia|].
  destruct x; auto; apply ty_wf_prepend.
Qed.

Lemma remap_self l m :
  wf_map m -> m_layout m = l -> m_remap l (m_ty m) m = Ok m.
Proof.
  intros Hw <-. pose proof (wf_typed Hw) as HT. apply accepts_typed in HT.
  destruct m as [ty dims|ty dims strides]; cbn [m_layout m_ty m_dims] in *.
  - rewrite m_remap_dense. cbn [is_contiguous m_dims andb]. now rewrite HT.
  - rewrite m_remap_strided by apply (wf_strides Hw). cbn [m_dims m_strides]. now rewrite HT.
Qed.

Lemma Forall2_skipn_cons {A} n (l : list A) d :
  (n < length l)%nat -> skipn n l = nth n l d :: skipn (S n) l.
Proof. revert n. induction l; intros [|n] H; simpl in *; try lia; auto. apply IHl. lia. Qed.

Definition ix_ok_b (d : Z) (x : dim_index) : bool :=
  match x with
  | IxUsize i => i <? d
  | IxFull => true
  | IxRange lo hi => (range_lo lo <=? range_hi d hi) && (range_hi d hi <=? d)
  | IxStep lo hi s => (range_lo lo <=? range_hi d hi) && (range_hi d hi <=? d) && negb (s =? 0)
  end.

Lemma ix_ok_b_spec d x : ix_ok_b d x = true <-> ix_ok d x.
Proof.
  destruct x; simpl; try tauto; try lia.
Qed.

Theorem view_index_spec xs s m :
  wf_map m -> (length xs <= m_rank m)%nat ->
  let D := skipn (m_rank m - length xs) (m_dims m) in
  let St := skipn (m_rank m - length xs) (m_strides m) in
  typed s D -> Forall ix_arg xs -> Forall (fun d => d <= usize_max) D ->
  (Forall2 ix_ok D xs /\
   exists m', view_index xs s m = Ok (sub_off D St xs, m') /\
     m_ty m' = vi_shape xs s /\ m_layout m' = vi_layout xs (m_layout m) /\
     m_dims m' = sub_dims D xs /\ m_strides m' = sub_strides D St xs /\ wf_map m') \/
  (~ Forall2 ix_ok D xs /\ view_index xs s m = Panic).
Proof.
  intros Hw. revert s. induction xs as [|x xs IH]; intros s HL D St HT HA HM.
  - left. subst D St. cbn [length]. rewrite Nat.sub_0_r. unfold m_rank.
    rewrite skipn_all. rewrite skipn_all2 by (rewrite (wf_strides Hw); lia).
    split; [constructor|]. cbn [view_index sub_off sub_dims sub_strides vi_shape vi_layout].
    exists (m_default (m_layout m) (STuple [])). split; [reflexivity|].
    destruct (m_layout m); cbn; repeat (split; auto); simpl; try constructor; lia.
  - cbn [length] in HL. set (k := (m_rank m - length (x :: xs))%nat) in *.
    assert (Hk : (m_rank m - length xs = S k)%nat) by (unfold k; cbn [length]; lia).
    assert (Hk' : (m_rank m - 1 - length xs = k)%nat) by (unfold k; cbn [length]; lia).
    assert (Hkr : (k < m_rank m)%nat) by (unfold k; cbn [length]; lia).
    assert (ED : D = nth k (m_dims m) 0 :: skipn (S k) (m_dims m)) by (apply Forall2_skipn_cons; exact Hkr).
    assert (ES : St = nth k (m_strides m) 0 :: skipn (S k) (m_strides m)).
    { apply Forall2_skipn_cons. rewrite (wf_strides Hw). exact Hkr. }
    set (d := nth k (m_dims m) 0) in *. set (st := nth k (m_strides m) 0) in *.
    set (D' := skipn (S k) (m_dims m)) in *. set (St' := skipn (S k) (m_strides m)) in *.
    rewrite ED in *. rewrite ES in *. clear ED ES.
    pose proof (wf_nonneg Hw) as HN. pose proof (nonneg_skipn k HN) as HNk.
    assert (Ek : skipn k (m_dims m) = d :: D') by (apply Forall2_skipn_cons; exact Hkr).
    rewrite Ek in HNk. inversion HNk as [|? ? Hd0 HND']; subst.
    assert (HLD : length D' = length xs).
    { unfold D'. rewrite skipn_length. unfold m_rank in *. lia. }
    assert (HLS : length St' = length D').
    { unfold D', St'. rewrite !skipn_length, (wf_strides Hw). reflexivity. }
    inversion HA as [|? ? HAx HAxs]; subst. inversion HM as [|? ? HMd HMD]; subst.
    assert (HTt : typed (sh_tail s) D') by (eapply typed_tail; eauto).
    rewrite Hk in IH. fold D' St' in IH.
    cbn [view_index].
    destruct (IH (sh_tail s) ltac:(lia) HTt HAxs HMD) as [(HOK & m' & E & Ety & El & Ed & Es & Hw')|(HNO & E)].
    2:{ right. rewrite E. split; [|reflexivity]. intros H. apply HNO. now inversion H. }
    rewrite E. cbn [bind]. rewrite Hk'.
    rewrite m_dim_ok by auto. rewrite m_stride_ok by (auto; apply (wf_strides Hw)). cbn [bind].
    fold d st.
    destruct (ix_ok_b d x) eqn:OK.
    2:{ right. split.
        - intros H. inversion H; subst. apply ix_ok_b_spec in H3. congruence.
        - destruct x as [i| |lo hi|lo hi sp]; cbn [ix_ok_b ix_arg] in *.
          + rewrite assert_false by lia. reflexivity.
          + discriminate.
          + rewrite ix_range_spec by tauto. rewrite OK. reflexivity.
          + rewrite ix_range_spec by tauto.
            destruct ((range_lo lo <=? range_hi d hi) && (range_hi d hi <=? d)); [|reflexivity].
            cbn [bind]. unfold div_ceil. rewrite assert_false; [reflexivity|].
            simpl in OK. lia. }
    apply ix_ok_b_spec in OK. left. split; [constructor; auto|].
    pose proof (@vi_shape_typed (x :: xs) s _ HNk HT) as HTy.
    specialize (HTy ltac:(simpl; lia)).
    assert (Hpre : forall l n st' (HK : ix_kept x = true),
       l = vi_layout (x :: xs) (m_layout m) ->
       n = ix_count d x -> st' = st * ix_step x ->
       (l = Dense -> vi_outer xs (m_layout m) = Dense /\ ix_step x = 1) ->
       vi_shape (x :: xs) s = sh_prepend (if match x with IxFull => true | _ => false end then sh_head s else DDyn) (vi_shape xs (sh_tail s)) ->
       exists m'', m_prepend_dim l (vi_shape (x :: xs) s) m' n st' = Ok m'' /\
         m_ty m'' = vi_shape (x :: xs) s /\ m_layout m'' = l /\
         m_dims m'' = sub_dims (d :: D') (x :: xs) /\ m_strides m'' = sub_strides (d :: D') (st :: St') (x :: xs) /\ wf_map m'').
    { intros l n st' HK Hl Hn Hst Hdense Hsh.
      assert (EDims : sub_dims (d :: D') (x :: xs) = n :: m_dims m').
      { cbn [sub_dims]. rewrite HK, ix_positions_length by auto. now rewrite Ed, Hn. }
      assert (EStr : sub_strides (d :: D') (st :: St') (x :: xs) = st' :: m_strides m').
      { cbn [sub_strides]. rewrite HK. now rewrite Es, Hst. }
      rewrite EDims, EStr in *. apply accepts_typed in HTy as HTy'.
      assert (HNn : nonneg (n :: m_dims m')).
      { rewrite <- EDims. apply sub_dims_nonneg. }
      destruct l.
      - destruct (Hdense eq_refl) as [Ho Hs1].
        destruct (vi_outer_dense Ho) as (HmD & HF & HlD).
        rewrite m_prepend_dense. rewrite El, HlD. cbn [is_dense andb].
        assert (EdD : m_dims m' = D') by (rewrite Ed; apply sub_dims_full; auto).
        destruct m as [ty dims|]; [|discriminate]. cbn [m_dims m_strides m_layout] in *.
        assert (Hst1 : st = prodZ D').
        { unfold st. rewrite nth_row_major by exact Hkr. reflexivity. }
        assert (Hst2 : st' = prodZ (m_dims m')) by (rewrite EdD, Hst, Hs1, Hst1; lia).
        rewrite Hst2, Z.eqb_refl. cbn [andb]. rewrite HTy'.
        eexists. split; [reflexivity|]. cbn [m_ty m_layout m_dims m_strides row_major].
        split; [auto|]. split; [auto|]. split; [auto|].
        assert (ESM : row_major (m_dims m') = m_strides m').
        { destruct m' as [ty' dims'|ty' dims' strides']; [reflexivity|].
          cbn [m_layout] in El. rewrite HlD in El. discriminate. }
        split; [now rewrite ESM|].
        constructor; cbn [m_ty m_layout m_dims m_strides row_major]; auto.
        + apply vi_shape_wf.
        + simpl. now rewrite row_major_length.
      - rewrite m_prepend_strided by apply (wf_strides Hw'). rewrite HTy'.
        eexists. split; [reflexivity|]. cbn [m_ty m_layout m_dims m_strides].
        repeat (split; [auto|]).
        constructor; cbn [m_ty m_layout m_dims m_strides]; auto.
        + apply vi_shape_wf.
        + simpl. now rewrite (wf_strides Hw'). }
    destruct x as [i| |lo hi|lo hi sp].
    + cbn [ix_ok] in OK. rewrite assert_true by lia. cbn [bind vi_layout vi_shape].
      rewrite <- Ety. rewrite (@remap_self (vi_layout xs (m_layout m)) m') by auto. cbn [bind].
      exists m'. cbn [sub_off ix_first sub_dims sub_strides ix_kept].
      split; [reflexivity|]. repeat (split; auto).
    + destruct (Hpre (vi_layout (IxFull :: xs) (m_layout m)) d st eq_refl eq_refl eq_refl
        ltac:(cbn [ix_step]; lia) ltac:(cbn [vi_layout ix_step]; auto) eq_refl) as (m'' & EP & R).
      rewrite EP. cbn [bind]. exists m''. split; [|exact R].
      cbn [sub_off ix_first]. rewrite Z.mul_0_r, Z.add_0_r. reflexivity.
    + cbn [ix_arg ix_ok] in *. rewrite ix_range_spec by tauto.
      replace ((range_lo lo <=? range_hi d hi) && (range_hi d hi <=? d)) with true by lia. cbn [bind].
      destruct (Hpre (vi_layout (IxRange lo hi :: xs) (m_layout m)) (range_hi d hi - range_lo lo) st
        eq_refl eq_refl eq_refl
        ltac:(cbn [ix_step]; lia) ltac:(cbn [vi_layout ix_step]; auto) eq_refl) as (m'' & EP & R).
      rewrite EP. cbn [bind]. exists m''. split; [|exact R]. reflexivity.
    + cbn [ix_arg ix_ok] in *. rewrite ix_range_spec by tauto.
      replace ((range_lo lo <=? range_hi d hi) && (range_hi d hi <=? d)) with true by lia. cbn [bind].
      unfold div_ceil. rewrite assert_true by lia. cbn [bind].
      destruct (Hpre (vi_layout (IxStep lo hi sp :: xs) (m_layout m))
        ((range_hi d hi - range_lo lo + Z.abs sp - 1) / Z.abs sp) (st * sp) eq_refl eq_refl eq_refl
        eq_refl ltac:(cbn [vi_layout]; discriminate) eq_refl) as (m'' & EP & R).
      rewrite EP. cbn [bind]. exists m''. split; [|exact R]. reflexivity.
Qed.

(** The subarray's addresses. *)
Lemma sub_index_bounds dims xs idx :
  nonneg dims -> Forall ix_arg xs -> Forall2 ix_ok dims xs ->
  in_bounds (sub_dims dims xs) idx -> in_bounds dims (sub_index dims xs idx).
Proof.
  intros HN HA HO. revert idx HN HA. induction HO as [|d x dims xs Hok HO IH]; intros idx HN HA HI.
  - constructor.
  - inversion HN as [|? ? Hd HN']; subst. inversion HA as [|? ? Ha HA']; subst.
    cbn [sub_dims sub_index] in *. destruct (ix_kept x) eqn:K.
    + destruct idx as [|i idx]; [inversion HI|]. apply in_bounds_cons in HI as [Hi HI].
      rewrite ix_positions_length in Hi by auto.
      apply in_bounds_cons. split; auto. rewrite ix_positions_nth by auto.
      now apply ix_position_bound.
    + apply in_bounds_cons. split; auto. destruct x; try discriminate. cbn in *.
      unfold usize in *. lia.
Qed.

Lemma sub_index_length dims xs idx :
  length xs = length dims -> length idx = length (sub_dims dims xs) ->
  length (sub_index dims xs idx) = length dims.
Proof.
  revert xs idx. induction dims as [|d dims IH]; intros [|x xs] idx HL HI; simpl in *; try lia; auto.
  destruct (ix_kept x); [destruct idx as [|i idx]|]; simpl in *; try lia; rewrite IH; lia.
Qed.

Lemma sub_addr dims strides xs idx :
  nonneg dims -> length strides = length dims -> Forall2 ix_ok dims xs ->
  in_bounds (sub_dims dims xs) idx ->
  sub_off dims strides xs + dot (sub_strides dims strides xs) idx = dot strides (sub_index dims xs idx).
Proof.
  intros HN HL HO. revert strides idx HN HL.
  induction HO as [|d x dims xs Hok HO IH]; intros [|s strides] idx HN HL HI; simpl in HL; try lia.
  - inversion HI; subst. reflexivity.
  - inversion HN as [|? ? Hd HN']; subst. cbn [sub_dims sub_index sub_off sub_strides] in *.
    destruct (ix_kept x) eqn:K.
    + destruct idx as [|i idx]; [inversion HI|]. apply in_bounds_cons in HI as [Hi HI].
      rewrite ix_positions_length in Hi by auto. cbn [dot].
      rewrite ix_positions_nth by auto. rewrite <- IH by (auto; lia). lia.
    + cbn [dot]. rewrite <- IH by (auto; lia). destruct x; try discriminate. cbn. lia.
Qed.

Lemma sub_index_inj dims xs i j :
  nonneg dims -> Forall2 ix_ok dims xs ->
  in_bounds (sub_dims dims xs) i -> in_bounds (sub_dims dims xs) j ->
  sub_index dims xs i = sub_index dims xs j -> i = j.
Proof.
  intros HN HO. revert i j HN.
  induction HO as [|d x dims xs Hok HO IH]; intros i j HN Hi Hj E.
  - inversion Hi; inversion Hj; auto.
  - inversion HN as [|? ? Hd HN']; subst. cbn [sub_dims sub_index] in *.
    destruct (ix_kept x) eqn:K.
    + destruct i as [|a i]; [inversion Hi|]. destruct j as [|b j]; [inversion Hj|].
      apply in_bounds_cons in Hi as [Ha Hi]. apply in_bounds_cons in Hj as [Hb Hj].
      rewrite ix_positions_length in Ha, Hb by auto.
      injection E as E1 E2. rewrite !ix_positions_nth in E1 by auto.
      f_equal; [|eapply IH; eauto].
      assert (ix_step x <> 0) by (destruct x; cbn in *; lia). nia.
    + injection E as E. eapply IH; eauto.
Qed.

(** ** Permutation types *)

Definition rk_le (s : shty) (k : nat) : Prop :=
  match s with SDynRank => False | STuple ds => (length ds <= k)%nat end.

Lemma rk_le_tail s k : rk_le (sh_tail s) k <-> rk_le s (S k).
Proof. destruct s as [|[|d ds]]; simpl; try tauto; lia. Qed.

Lemma rk_le_prepend d s k :
  (k <= 6)%nat -> (rk_le (sh_prepend d s) k <-> (0 < k)%nat /\ rk_le s (k - 1)).
Proof.
  intros Hk. destruct s as [|ds]; simpl; [tauto|]. unfold max_rank.
  destruct (Nat.ltb_spec (length ds) 6); simpl; lia.
Qed.

Lemma rk_le_cinit n s k : (k <= 6)%nat -> (rk_le (cinit n s) k <-> (n <= k)%nat).
Proof.
  revert s k. induction n; intros s k Hk; simpl; [lia|].
  rewrite rk_le_prepend by auto. rewrite IHn by lia. lia.
Qed.

Lemma rk_le_nil s : rk_le s 0 <-> s = STuple [].
Proof.
  destruct s as [|[|d ds]]; simpl; split; intros H; try discriminate; auto; try lia; try tauto.
Qed.

Lemma merge_cons x dt s :
  merge_tuple (x :: dt) s = sh_prepend (dim_merge x (sh_head s)) (merge_tuple dt (sh_tail s)).
Proof. destruct dt; reflexivity. Qed.

Lemma rk_le_merge a b k : (k <= 6)%nat -> (rk_le (sh_merge a b) k <-> rk_le a k /\ rk_le b k).
Proof.
  destruct a as [|ds]; simpl; [tauto|]. revert b k. induction ds as [|x ds IH]; intros b k Hk.
  - simpl. split; [split; [lia|auto]|tauto].
  - rewrite merge_cons, rk_le_prepend, IH, rk_le_tail by lia. simpl.
    split.
    + intros (H0 & H1 & H2). split; [lia|]. now replace (S (k - 1)) with k in H2 by lia.
    + intros (H1 & H2). split; [lia|]. split; [lia|]. now replace (S (k - 1)) with k by lia.
Qed.

Lemma rk_le_perm xs k :
  (k + length xs <= 7)%nat -> (0 < length xs)%nat ->
  (rk_le (perm_init xs) k <->
   forall i x, nth_error xs i = Some x -> exists n, x = PConst n /\ (n <= i + k)%nat).
Proof.
  revert k. induction xs as [|x xs IH]; intros k Hk HL; simpl in HL; [lia|].
  assert (HX : rk_le (pax_init x) k <-> exists n, x = PConst n /\ (n <= k)%nat).
  { destruct x as [n|]; simpl.
    - rewrite rk_le_cinit by (simpl in *; lia). split; [intros; exists n; auto|intros (m & [= ->] & H); auto].
    - split; [tauto|]. intros (n & E & _). discriminate. }
  destruct xs as [|y xs].
  - cbn [perm_init]. rewrite HX. split.
    + intros H i x0 Hi. destruct i as [|i]; simpl in Hi.
      * injection Hi as <-. simpl. exact H.
      * destruct i; discriminate.
    + intros H. apply (H 0%nat x eq_refl).
  - set (xt := y :: xs) in *.
    change (perm_init (x :: xt)) with (sh_merge (sh_tail (perm_init xt)) (pax_init x)).
    rewrite rk_le_merge, rk_le_tail, IH, HX by (simpl in *; lia). split.
    + intros [H1 H2] [|i] x0 Hi; simpl in Hi.
      * injection Hi as <-. exact H2.
      * destruct (H1 i x0 Hi) as (n & -> & Hn). exists n. split; auto. lia.
    + intros H. split.
      * intros i x0 Hi. destruct (H (S i) x0 Hi) as (n & -> & Hn). exists n. split; auto. lia.
      * apply (H 0%nat x eq_refl).
Qed.

(** A permutation with [p_i <= i] everywhere is the identity. *)
Lemma perm_below_identity n perm :
  perm_of n perm -> (forall i, (i < n)%nat -> nth i perm 0 <= Z.of_nat i) ->
  perm = map Z.of_nat (seq 0 n).
Proof.
  intros HP HB. pose proof (perm_of_length HP) as HL.
  apply list_ext0; [rewrite map_length, seq_length; auto|].
  intros i Hi. rewrite HL in Hi. rewrite nth_map_seq by auto.
  induction i as [i IH] using lt_wf_ind.
  destruct (perm_of_nth_bound HP Hi) as [_ H0].
  specialize (HB i Hi). destruct (Z.eq_dec (nth i perm 0) (Z.of_nat i)) as [|NE]; auto.
  set (j := Z.to_nat (nth i perm 0)). assert (Hj : (j < i)%nat) by (unfold j; lia).
  specialize (IH j Hj ltac:(lia)).
  assert (j = i); [|lia]. apply (perm_of_nth_inj HP); try lia.
Qed.
