(** Facts about [MachineTensor.v], continued: resize with a value, clone_from, drain, append, conversions, zip_with. *)
From Verif Require Import Base Spec SpecFacts Shape Mapping Index View Wf MappingFacts MapOps ReshapeFacts.
From Verif Require Import IndexFacts ViewFacts ViewMore Expr ExprSpec ExprFacts IterFacts SourceFacts ExprTree ExprMore.
From Verif Require Import Tensor TraceFacts TensorSpec TensorFacts ResizeFacts TensorOps DrainFacts OwnFacts ZipFacts History HistoryFacts.
From Verif Require Import Machine MachineSpec MachineFacts MachineWrap MachineIter MachineIterFacts MachineTensor MachineTensorFacts.
Unset Strict Implicit.

Lemma keeps_assign dbg {T C} (clone : T -> C -> call T C) src : forall i, @pkeeps dbg T C unit (assign_loop clone i src).
Proof.
  induction src as [|x src IH]; intros i; cbn [assign_loop]; [intros p HP; exact HP|].
  apply keeps_seq; [apply keeps_call|]. intros y. apply keeps_seq; [|intros _; apply IH].
  intros p HP. destruct (nth_error (p_items p) i); [|exact I]. pose proof (ps_len HP).
  eapply small_unchanged; eauto; cbn [p_items p_cap p_dims]; auto; [lia|]. unfold zlen in *. now rewrite upd_length.
Qed.

Lemma keeps_clone_from dbg {T C} al (clone : T -> C -> call T C) src : al_machine al -> @pkeeps dbg T C unit (vec_clone_from al clone src).
Proof.
  intros HA. apply keeps_seq; [apply keeps_truncate|]. intros _ p HP.
  assert (K : pkeeps dbg (assign_loop clone 0 (firstn (length (p_items p)) src) ;;;
    vec_reserve al (zlen (skipn (length (p_items p)) src)) ;;; clone_loop clone (skipn (length (p_items p)) src))).
  { apply keeps_seq; [apply keeps_assign|]. intros _. apply keeps_seq; [now apply keeps_reserve|]. intros _. apply keeps_clones. }
  exact (K p HP).
Qed.

Section Ops.
  Context (dbg : bool) {T C : Type} (al : allocator) (t : tensor T) (w : world T C).
  Hypothesis HA : al_machine al.
  Hypothesis Ht : tensor_ok t.
  Hypothesis HS : small dbg t.

  Lemma x_resize_value_ok dims v cl : nonneg dims -> machine_dims dims ->
    (dbg = true -> 0 < prodZ dims -> ~ stride_overflow (tn_dims t)) ->
    same_small dbg (xt_resize dbg al dims v cl (t, w)) (tn_resize al dims v cl (t, w)).
  Proof.
    intros HN HM HO HF. unfold xt_resize, tn_resize in *. cbn [fst snd] in *.
    set (w1 := mkWorld _ _ _ _) in *.
    destruct (@x_resize_ok dbg T C al t w1 HA Ht HS dims (cl v) HN HM HO) as [E K]; [intros F; rewrite F in HF; congruence|].
    rewrite E. destruct (tn_resize_with al dims (cl v) (t, w1)) as [a [t' w']|[t' w']| |]; auto.
  Qed.

  Lemma x_clone_from_ok cl (src : tensor T) : tensor_ok src -> small dbg src ->
    same_small dbg (xt_clone_from dbg al cl src (t, w)) (tn_clone_from al cl (tn_mem src) (tn_dims src) (t, w)).
  Proof.
    intros Hs SS HF. apply x_wmp; auto.
    - rewrite (@seq_done _ _ _ _ _ _ (tn_mem src) (mkParts (tn_mem t) (tn_cap t) (tn_dims t) w)); [reflexivity|]. unfold lift. now rewrite (x_to_vec_ok Hs SS).
    - assert (K : pkeeps dbg (vec_clone_from al cl (tn_mem src) ;;; p_set_dims (C := C) (tn_dims src))).
      { apply keeps_seq; [now apply keeps_clone_from|]. intros _. apply keeps_dims; [apply (to_nonneg Hs)|apply SS|apply SS]. }
      exact (K _ (start_small w Ht HS)).
  Qed.
End Ops.

(** With overflow checks [resize] to a non-empty array panics when the unused stride overflows; nothing has changed. *)
Lemma x_resize_panics {T C} al (t : tensor T) (w : world T C) dims f :
  tensor_ok t -> small true t -> length dims = length (tn_dims t) -> nonneg dims -> 0 < prodZ dims ->
  stride_overflow (tn_dims t) -> xt_resize_with true al dims f (t, w) = Unwound (t, w).
Proof.
  intros Ht HS HL HN HP (a & b & ED & HA & HF). pose proof (to_nonneg Ht) as HNt.
  assert (PD : positive dims) by (apply prodZ_pos_inv; auto; lia).
  assert (P0 : prodZ (tn_dims t) = 0).
  { rewrite ED, prodZ_app, prodZ_cons. lia. }
  assert (EM : tn_mem t = []) by (pose proof (to_len Ht) as E; destruct (tn_mem t); auto; cbn in E; lia).
  unfold xt_resize_with. cbn [fst]. rewrite HL, Nat.eqb_refl.
  rewrite (@seq_done _ _ _ (check true) _ _ tt (t, w) eq_refl).
  destruct dims as [|d ds] eqn:EDm; [now destruct a; rewrite ED in HL|]. rewrite <- EDm in *.
  destruct (sh_checked_len dims) as [n|] eqn:EC; [|reflexivity].
  apply checked_len_inv in EC as [-> FD].
  unfold xt_with_mut_parts. rewrite (x_to_vec_ok Ht HS).
  set (p0 := mkParts (tn_mem t) (tn_cap t) (tn_dims t) w).
  match goal with |- match ?m with _ => _ end = _ => assert (EB : m = Unwound p0) end.
  { apply seq_unwound. destruct (Z.eqb_spec (prodZ dims) 0) as [E|_]; [lia|].
    replace (slice_eqb (tl dims) (tl (p_dims p0))) with false.
    - unfold xt_resize_copy. destruct (al_ok al (prodZ dims)); [|reflexivity].
      change (p_dims p0) with (tn_dims t). rewrite ED. rewrite x_copy_panics; auto; rewrite <- ?ED; auto.
      + unfold p0. cbn [c_old c_new c_w p_items p_cap p_w]. rewrite EM. unfold w_drop. cbn [app]. rewrite app_nil_r. destruct w; reflexivity.
      + apply HS.
      + apply counted_fits with (dbg := true) in FD. apply FD.
    - symmetry. destruct (slice_eqb _ _) eqn:ES; auto. exfalso. apply slice_eqb_eq in ES. subst dims. cbn [tl p_dims p0] in ES.
      inversion PD as [|? ? Hd PD2]; subst. rewrite ED in PD2. destruct a as [|x a]; cbn [app tl] in PD2.
      + apply HF. apply fits_positive; auto. destruct HS as [_ _ _]. apply counted_fits with (dbg := true) in FD. destruct FD as [FD _].
        rewrite prodZ_cons, ED in FD. cbn [app tl] in FD. pose proof (prodZ_pos PD2). nia.
      + apply Forall_app in PD2 as [_ PD2]. inversion PD2. lia. }
  rewrite EB. unfold xt_guard, p0. cbn [p_dims p_items p_cap p_w]. rewrite (counted_len HNt (sm_count HS)), P0, EM. destruct t; cbn in *. now subst.
Qed.

(** ** Drain *)

Lemma head_machine dbg {T} (t : tensor T) : small dbg t -> nth 0 (tn_dims t) 0 <= usize_max.
Proof. intros HS. pose proof (sm_dims HS) as H. pose proof usize_pos. destruct (tn_dims t); [cbn; lia|]. now inversion H. Qed.

Lemma if_ok (b : bool) (x : outcome unit) : (b = true -> x = Ok tt) -> (if b then x else Ok tt) = Ok tt.
Proof. destruct b; auto. Qed.

Section Drain.
  Context (dbg : bool) {T : Type} (t : tensor T) (a b : Z).
  Hypothesis Ht : tensor_ok t.
  Hypothesis HS : small dbg t.
  Hypothesis HO : outer_ok t = true.
  Hypothesis Ha : 0 <= a <= b.
  Hypothesis Hb : b <= nth 0 (tn_dims t) 0.
  Let n := nth 0 (tn_dims t) 0.
  Let P := prodZ (tl (tn_dims t)).

  Local Lemma HD : tn_dims t <> [].
  Proof. apply (outer_ok_inv HO). Qed.
  Local Lemma HP : 0 <= P.
  Proof. apply prodZ_nonneg. pose proof (to_nonneg Ht) as H. rewrite (dims_cons HD) in H. now inversion H. Qed.
  Local Lemma n_machine : n <= usize_max.
  Proof. exact (head_machine HS). Qed.

  (** The length of some of the rows. *)
  Lemma rows_len k : 0 <= k <= n -> x_len dbg (upd (tn_dims t) 0 k) = Ok (k * P).
  Proof.
    intros Hk. pose proof HD as HD'. rewrite counted_len.
    - now rewrite prodZ_upd0.
    - apply nonneg_upd; [apply (to_nonneg Ht)|lia].
    - apply counted_upd; [apply (to_nonneg Ht)|exact Hk|apply HS].
  Qed.
  Lemma rows_set k : 0 <= k <= n -> set_mapping_checks dbg (upd (tn_dims t) 0 k) (tn_cap t) = Ok tt.
  Proof.
    intros Hk. apply if_ok. intros D.
    assert (HC : counted dbg (upd (tn_dims t) 0 k)) by (apply counted_upd; [apply (to_nonneg Ht)|exact Hk|apply HS]).
    rewrite D in HC. rewrite (counted_checked HC). cbn [assert bind]. rewrite rows_len by auto. cbn [bind].
    pose proof (to_cap Ht) as HC'. pose proof (to_len Ht) as HL. rewrite (dims_cons HD), prodZ_cons in HL. fold n P in HL.
    pose proof HP. destruct (Z.leb_spec (k * P) (tn_cap t)); [reflexivity|nia].
  Qed.

  Lemma x_drain_new_eq : xt_drain_new dbg t a b = Ok (drained t a b).
  Proof.
    pose proof HD as HD'. pose proof (to_typed Ht) as HT. pose proof n_machine. destruct (outer_ok_inv HO) as [_ HH].
    unfold xt_drain_new. fold n. destruct (Z.leb_spec a b); [|lia]. destruct (Z.leb_spec b n); [|unfold n in *; lia]. cbn [andb assert bind].
    rewrite u_res_fit by (unfold is_usize; lia). cbn [bind]. rewrite u_res_fit by (unfold is_usize; lia). cbn [bind].
    rewrite u_res_fit by (unfold is_usize; lia). cbn [bind].
    change (x_ax_resize dbg (AxConst 0) (DenseM (tn_ty t) (tn_dims t)) (n - (b - a) - a))
      with (ax_resize_map (AxConst 0) (DenseM (tn_ty t) (tn_dims t)) (n - (b - a) - a)).
    assert (HW : wf_map (DenseM (tn_ty t) (tn_dims t))).
    { apply wf_whole; [apply (to_nonneg Ht)|exact HT|apply (to_ty Ht)]. }
    destruct (@ax_resize_map_ok (AxConst 0) (DenseM (tn_ty t) (tn_dims t)) 0%nat (n - (b - a) - a) HW) as (m' & E & Ed & _).
    - unfold m_rank. cbn [m_dims is_axis]. split; [destruct (tn_dims t); [congruence|cbn; lia]|reflexivity].
    - unfold n. lia.
    - rewrite E. cbn [bind]. rewrite Ed. cbn [m_dims]. rewrite rows_len by (unfold n in *; lia). cbn [bind].
      rewrite !sh_resize_dim_spec by (rewrite ?upd_length; destruct (tn_dims t); [congruence|cbn; lia]).
      rewrite (proj2 (accepts_typed _ _) (TensorOps.typed_head a HT HH HD')). cbn [bind]. rewrite rows_set by (unfold n in *; lia). cbn [bind].
      rewrite rows_len by (unfold n in *; lia). cbn [bind].
      rewrite sh_resize_dim_spec by (rewrite ?upd_length; destruct (tn_dims t); [congruence|cbn; lia]).
      rewrite upd_upd0. rewrite (proj2 (accepts_typed _ _) (TensorOps.typed_head (b - a) HT HH HD')). cbn [bind].
      unfold drained. f_equal. f_equal. unfold n, P. lia.
  Qed.

  Let d := drained t a b.

  Lemma x_drain_take_at k x : nth_error (rows t a b) k = Some x ->
    xt_drain_take dbg (drain_at k d) = Ok (x, drain_at (S k) d).
  Proof.
    intros E. pose proof (drain_take_at Ht HO Ha Hb E) as EX. fold d in EX.
    pose proof (rows_length Ht HO Ha Hb) as HL. fold P in HL. unfold zlen in HL.
    assert (Hk : (k < length (rows t a b))%nat) by (apply nth_error_Some; congruence).
    assert (EV : x_len dbg (d_view (drain_at k d)) = Ok ((b - a) * P)) by (apply rows_len; unfold n; lia).
    assert (HB : (b - a) * P <= usize_max).
    { destruct (sm_count HS) as [H _]. rewrite (dims_cons HD), prodZ_cons in H. fold n P in H. pose proof HP. unfold n in *. nia. }
    unfold xt_drain_take. rewrite EV. cbn [bind]. change (d_index (drain_at k d)) with (Z.of_nat k).
    destruct (Z.ltb_spec (Z.of_nat k) ((b - a) * P)); [|lia].
    rewrite if_ok by reflexivity. cbn [bind].
    rewrite u_res_fit by (unfold is_usize; lia). cbn [bind]. rewrite u_res_fit by (unfold is_usize; lia). cbn [bind].
    unfold drain_take in EX. change (d_index (drain_at k d)) with (Z.of_nat k) in EX.
    replace (Z.of_nat k + 1 - 1) with (Z.of_nat k) by lia. exact EX.
  Qed.

  Lemma x_drain_dims : zlen (rows t a b) = prodZ (e_dims (x_e_drain dbg d)).
  Proof. exact (drain_moving_dims Ht HO Ha Hb). Qed.

  Lemma x_drain_honest : honest (x_e_drain dbg d).
  Proof.
    apply (@moving_honest T (x_e_drain dbg d) (rows t a b) (fun k => drain_at k d)); auto.
    - intros i k x E. now apply x_drain_take_at.
    - apply x_drain_dims.
    - cbn [x_e_drain e_dims]. apply nonneg_upd; [apply (to_nonneg Ht)|lia].
  Qed.

  Lemma x_drain_operand : machine_operand dbg (x_e_drain dbg d).
  Proof.
    assert (HC : counted dbg (upd (tn_dims t) 0 (b - a))) by (apply counted_upd; [apply (to_nonneg Ht)|lia|apply HS]).
    split; [|split; exact HC]. cbn [x_e_drain e_dims d_view d drained]. apply machine_upd; [apply HS|]. pose proof n_machine. unfold n in *. lia.
  Qed.

  Lemma x_drain_trace : e_trace (x_e_drain dbg d) = (rows t a b, Ok tt).
  Proof.
    apply (@moving_trace T (x_e_drain dbg d) (rows t a b) (fun k => drain_at k d)); auto.
    - intros i k x E. now apply x_drain_take_at.
    - apply x_drain_dims.
  Qed.

  Lemma x_drain_nexts k :
    exists it, (let* it := x_it_new dbg (x_e_drain dbg d) in x_nexts dbg k it) =
        Ok (map Some (firstn k (rows t a b)) ++ repeat None (k - length (rows t a b)), it) /\
      it_st it = drain_at (Nat.min k (length (rows t a b))) d.
  Proof.
    destruct (@moving_nexts T (x_e_drain dbg d) (rows t a b) (fun k => drain_at k d)) with (n := k) as (it & E1 & E2); auto.
    - intros i k' x E. now apply x_drain_take_at.
    - apply x_drain_dims.
    - destruct x_drain_operand as (O1 & O2 & O3).
      destruct (@x_new_counted dbg T (x_e_drain dbg d)) as [E HI]; auto.
      { cbn [x_e_drain e_dims]. apply nonneg_upd; [apply (to_nonneg Ht)|lia]. }
      rewrite E. cbn [bind]. exists it. split; [|exact E2].
      destruct (@x_nexts_ok dbg T (x_e_drain dbg d) k (it_new (x_e_drain dbg d)) HI (or_introl eq_refl)) as [EN _] || 
        pose proof (@x_nexts_ok dbg T (x_e_drain dbg d) k (it_new (x_e_drain dbg d)) HI (or_introl eq_refl)) as EN.
      rewrite EN. exact E1.
  Qed.

  Lemma x_drain_drop_eq {C} k (w : world T C) : (k <= length (rows t a b))%nat ->
    xt_drain_drop dbg (drain_at k d) w = drain_drop (drain_at k d) w.
  Proof.
    intros Hk. pose proof HD as HD'. pose proof (to_typed Ht) as HT. destruct (outer_ok_inv HO) as [_ HH].
    pose proof (rows_length Ht HO Ha Hb) as HL. fold P in HL. unfold zlen in HL. pose proof HP.
    assert (EV : x_len dbg (d_view (drain_at k d)) = Ok ((b - a) * P)) by (apply rows_len; unfold n; lia).
    assert (HB : (b - a) * P <= usize_max).
    { destruct (sm_count HS) as [H1 _]. rewrite (dims_cons HD), prodZ_cons in H1. fold n P in H1. unfold n in *. nia. }
    assert (ES : sh_len (d_view (drain_at k d)) = (b - a) * P).
    { rewrite sh_len_prod. change (d_view (drain_at k d)) with (upd (tn_dims t) 0 (b - a)). now rewrite prodZ_upd0. }
    unfold xt_drain_drop, drain_drop. rewrite EV, ES. cbn [bind]. change (d_index (drain_at k d)) with (Z.of_nat k).
    rewrite u_res_fit by (unfold is_usize; lia). cbn [bind].
    assert (ER : sh_resize_dim (d_ty (drain_at k d)) (d_dims (drain_at k d)) 0 (d_new_size (drain_at k d)) = Ok (upd (tn_dims t) 0 (n - (b - a)))).
    { cbn [drain_at d drained d_ty d_dims d_new_size]. rewrite sh_resize_dim_spec by (rewrite ?upd_length; destruct (tn_dims t); [congruence|cbn; lia]).
      rewrite upd_upd0. fold n. rewrite (proj2 (accepts_typed _ _) (TensorOps.typed_head (n - (b - a)) HT HH HD')). reflexivity. }
    rewrite ER. cbn [bind]. change (d_cap (drain_at k d)) with (tn_cap t). rewrite rows_set by (unfold n in *; lia). cbn [bind].
    rewrite rows_len by (unfold n in *; lia). cbn [bind]. rewrite sh_len_prod, prodZ_upd0, Z.eqb_refl by auto. fold P.
    destruct (Z.leb_spec 0 ((b - a) * P - Z.of_nat k)); [|lia]. reflexivity.
  Qed.

  Lemma x_drain_leak_eq k : xt_drain_leak dbg (drain_at k d) = drain_leak (drain_at k d).
  Proof.
    unfold xt_drain_leak, drain_leak. change (d_dims (drain_at k d)) with (upd (tn_dims t) 0 a).
    rewrite rows_len by (unfold n; lia). rewrite sh_len_prod, prodZ_upd0 by apply HD. reflexivity.
  Qed.

  Lemma rows_small k (mem : list T) : 0 <= k <= n -> small dbg (mkTensor (tn_ty t) (upd (tn_dims t) 0 k) mem (tn_cap t)).
  Proof.
    intros Hk. pose proof n_machine. constructor; cbn [tn_dims tn_cap].
    - apply machine_upd; [apply HS|lia].
    - apply counted_upd; [apply (to_nonneg Ht)|exact Hk|apply HS].
    - apply HS.
  Qed.
End Drain.

Lemma range_lo_nonneg lo : bound_arg lo -> 0 <= range_lo lo.
Proof. destruct lo; unfold bound_arg, usize, range_lo; lia. Qed.

Lemma x_drain_eq dbg {T} (t : tensor T) lo hi : tensor_ok t -> small dbg t -> bound_arg lo -> bound_arg hi ->
  xt_drain dbg t lo hi = tn_drain t lo hi.
Proof.
  intros Ht HS Hl Hh. unfold xt_drain, tn_drain.
  destruct (assert (0 <? length (tn_dims t))%nat) eqn:E1; try reflexivity. destruct (assert (head_dyn (tn_ty t))) eqn:E2; try reflexivity. cbn [bind].
  rewrite ix_range_spec by (auto; apply (head_machine HS)).
  set (n := nth 0 (tn_dims t) 0).
  destruct (Z.leb_spec (range_lo lo) (range_hi n hi)); cbn [andb]; [|reflexivity].
  destruct (Z.leb_spec (range_hi n hi) n); [|reflexivity]. cbn [bind].
  assert (HO : outer_ok t = true).
  { unfold outer_ok. unfold assert in E1, E2. destruct (0 <? length (tn_dims t))%nat; [|discriminate]. destruct (head_dyn (tn_ty t)); [reflexivity|discriminate]. }
  pose proof (range_lo_nonneg Hl). rewrite x_drain_new_eq, drain_new_eq; auto.
Qed.

Section DrainedBy.
  Context (dbg : bool) {T C : Type} (t : tensor T) (w : world T C) (lo hi : bound) (k : nat).
  Hypothesis Ht : tensor_ok t.
  Hypothesis HS : small dbg t.
  Hypothesis Hl : bound_arg lo.
  Hypothesis Hh : bound_arg hi.

  Lemma x_drained_by_eq close close' :
    (forall a b j w, outer_ok t = true -> 0 <= a <= b -> b <= nth 0 (tn_dims t) 0 -> (j <= length (rows t a b))%nat ->
      close' (drain_at j (drained t a b)) w = close (drain_at j (drained t a b)) w /\
      small_res dbg (close (drain_at j (drained t a b)) w)) ->
    x_drained_by dbg lo hi k close' (t, w) = drained_by lo hi k close (t, w) /\
    small_res dbg (C := C) (drained_by lo hi k close (t, w)).
  Proof.
    intros HC. unfold x_drained_by, drained_by. cbn [fst snd]. rewrite x_drain_eq by auto.
    rewrite drain_ok_eq by (auto; apply (head_machine HS)).
    destruct (outer_ok t) eqn:HO; cbn [andb]; [|split; [reflexivity|exact HS]].
    destruct (Z.leb_spec (range_lo lo) (range_hi (nth 0 (tn_dims t) 0) hi)) as [L1|]; cbn [andb]; [|split; [reflexivity|exact HS]].
    destruct (Z.leb_spec (range_hi (nth 0 (tn_dims t) 0) hi) (nth 0 (tn_dims t) 0)) as [L2|]; [|split; [reflexivity|exact HS]].
    set (a := range_lo lo) in *. set (b := range_hi (nth 0 (tn_dims t) 0) hi) in *.
    assert (HAB : 0 <= a <= b) by (pose proof (range_lo_nonneg Hl); unfold a in *; lia).
    destruct (x_drain_nexts Ht HS HO HAB L2 k) as (it & E1 & E2). rewrite E1.
    destruct (drain_nexts Ht HO HAB L2 k) as (it' & E3 & E4). rewrite E3, E2, E4. apply HC; auto. lia.
  Qed.

  Lemma x_drain_take_ok : x_drained_by dbg lo hi k (xt_drain_drop dbg) (t, w) = drained_by lo hi k drain_drop (t, w) /\
    small_res dbg (C := C) (drained_by lo hi k drain_drop (t, w)).
  Proof.
    apply x_drained_by_eq. intros a b j w' HO Ha Hb Hj. split; [now apply x_drain_drop_eq|].
    rewrite drain_drop_eq by auto. cbn [small_res fst]. unfold remaining. apply rows_small; auto. lia.
  Qed.
  Lemma x_drain_leak_ok :
    x_drained_by dbg lo hi k (fun d w => match xt_drain_leak dbg d with Some t => Done tt (t, w) | None => Fault end) (t, w) =
    drained_by lo hi k (fun d w => match drain_leak d with Some t => Done tt (t, w) | None => Fault end) (t, w) /\
    small_res dbg (C := C) (drained_by lo hi k (fun d w => match drain_leak d with Some t => Done tt (t, w) | None => Fault end) (t, w)).
  Proof.
    apply x_drained_by_eq. intros a b j w' HO Ha Hb Hj. rewrite x_drain_leak_eq, drain_leak_eq by auto. split; [reflexivity|].
    cbn [small_res fst]. apply rows_small; auto. lia.
  Qed.
End DrainedBy.

(** ** Append *)

Lemma expand_trace {T Y C} al (e e' : expression Y) (cl : Y -> C -> call T C) s :
  e_dims e = e_dims e' -> e_trace e = e_trace e' -> tn_expand al e cl s = tn_expand al e' cl s.
Proof. intros E1 E2. unfold tn_expand, clone_into_vec. rewrite E1, E2. reflexivity. Qed.

(** The number of elements moved so far. *)
Definition pcount {T} (p : parts T Z) : Prop := 0 <= w_clo (p_w p).
Lemma expand_count {T Y} al (e : expression Y) (cl : Y -> Z -> call T Z) t (w : world T Z) :
  (forall y n, match cl y n with Gives _ m | Throws m => n <= m end) -> 0 <= w_clo w ->
  match tn_expand al e cl (t, w) with Done _ s | Unwound s => 0 <= w_clo (snd s) | _ => True end.
Proof.
  intros HC HW. unfold tn_expand. pose proof (check_outer_spec t w) as EC.
  destruct (outer_ok t); [|rewrite (seq_unwound _ EC); exact HW]. rewrite (seq_done _ EC). cbv zeta.
  destruct (0 <? _); [|exact HW].
  assert (K : keeps (@pcount T) (vec_reserve al (sh_len (e_dims e)) ;;; expand_dims (tn_ty t) (e_dims e) ;;; clone_into_vec e cl)).
  { assert (KL : forall A (o : outcome A), keeps (@pcount T) (lift o)) by (intros A o p HP; unfold lift; destruct o; auto).
    assert (KK : forall b, keeps (@pcount T) (check b)) by (intros b p HP; unfold check; destruct b; auto).
    assert (KS : forall ty d, keeps (@pcount T) (p_store ty d)) by (intros ty d; apply keeps_seq; [apply KL|]; intros d' p HP; exact HP).
    apply keeps_seq; [|intros _; apply keeps_seq; [|intros _]].
    - intros p HP. unfold vec_reserve. destruct (_ <=? _); auto. destruct (al_ok _ _); auto.
    - intros p HP. unfold expand_dims. destruct (sh_is_empty _).
      + destruct (_ =? _)%nat; [now apply KS|]. apply (@keeps_seq _ _ _ (@pcount T) (lift (sh_from_dims (tn_ty t) (e_dims e)))); auto.
        intros d q HQ. exact HQ.
      + apply (@keeps_seq _ _ _ (@pcount T) (check (length (e_dims e) =? length (p_dims p))%nat)); auto. intros _.
        apply keeps_seq; auto.
    - intros p. revert p. apply (@keeps_seq (parts T Z) unit unit (@pcount T) (fun p => check (sh_len (e_dims e) <=? p_cap p - zlen (p_items p)) p)).
      + intros p. apply KK.
      + intros _. apply keeps_seq; [|intros _; apply KL]. induction (fst (e_trace e)) as [|y ys IH]; cbn [clone_loop]; [intros p HP; exact HP|].
        apply keeps_seq; [|intros x; apply keeps_seq; [|intros _; exact IH]].
        * intros p HP. unfold vec_call. specialize (HC y (w_clo (p_w p))). unfold pcount in *. destruct (cl y _); cbn; lia.
        * intros p HP. unfold vec_write. destruct (_ <? _); auto. }
  unfold with_mut_parts. destruct (to_vec_raw t) as [items|]; [|exact I].
  specialize (K (mkParts items (tn_cap t) (tn_dims t) w) HW).
  destruct (seqM _ _ _) as [a p|p| |]; auto.
  - destruct (_ =? _); auto.
  - destruct (_ =? _); auto. destruct (_ =? _); auto.
Qed.

Lemma x_append_ok dbg {T C} al (t1 t2 : tensor T) (w : world T C) : al_machine al ->
  tensor_ok t1 -> small dbg t1 -> tensor_ok t2 -> small dbg t2 -> tn_append al (t1, t2, w) <> Fault ->
  xt_append dbg al (t1, t2, w) = tn_append al (t1, t2, w) /\
  match tn_append al (t1, t2, w) with
  | Done _ (a, b, _) | Unwound (a, b, _) => small dbg a /\ small dbg b
  | _ => True
  end.
Proof.
  intros HA H1 S1 H2 S2 HF. unfold xt_append. rewrite x_drain_eq by (auto; exact I).
  destruct (outer_ok t2) eqn:HO.
  2:{ rewrite append_other by auto. unfold tn_drain. unfold outer_ok in HO.
      destruct (0 <? length (tn_dims t2))%nat; cbn [andb assert bind] in *; [rewrite HO|]; split; auto. }
  destruct (drain_all H2 HO) as (Hn & ER & _). set (n := nth 0 (tn_dims t2) 0) in *.
  unfold tn_append in *. rewrite append_drain in * by auto. fold n in HF. fold n. set (d := drained t2 0 n) in *.
  assert (HAB : 0 <= 0 <= n) by lia. assert (HB : n <= nth 0 (tn_dims t2) 0) by (unfold n; lia).
  set (w0 := mkWorld 0 [] [] (w_dropped w)) in *. set (cl := fun (x : T) (m : Z) => Gives x (m + 1)) in *.
  assert (EQ : tn_expand al (x_e_drain dbg d) cl (t1, w0) = tn_expand al (e_drain d) cl (t1, w0)).
  { apply expand_trace; [reflexivity|]. unfold d. rewrite x_drain_trace, drain_trace by auto. reflexivity. }
  assert (HX : same_small dbg (xt_expand dbg al (x_e_drain dbg d) cl (t1, w0)) (tn_expand al (x_e_drain dbg d) cl (t1, w0))).
  { apply x_expand_ok; auto; [|apply x_drain_operand; auto]. cbn [x_e_drain e_dims]. apply nonneg_upd; [apply (to_nonneg H2)|lia]. }
  rewrite EQ in HX. pose proof (@expand_count T T al (e_drain d) cl t1 w0) as HC.
  destruct (tn_expand al (e_drain d) cl (t1, w0)) as [a [t1' w']|[t1' w']| |] eqn:EE; try congruence;
    (destruct (HX ltac:(discriminate)) as [EX KX]; rewrite EX; cbn [small_res fst snd] in *).
  3:{ split; auto. }
  all: assert (HW : 0 <= w_clo w') by (apply HC; [intros y m; cbn; lia|cbn; lia]).
  all: set (wd := mkWorld _ _ _ _) in *.
  all: assert (ED : mkDrain (d_ty d) (d_dims d) (d_mem d) (d_cap d) (d_ptr d) (d_view d) (d_new_size d) (d_tail d) (w_clo w') = drain_at (Z.to_nat (w_clo w')) d)
    by (unfold drain_at; f_equal; lia).
  all: rewrite ED in *.
  all: assert (HK : (Z.to_nat (w_clo w') <= length (rows t2 0 n))%nat).
  1,3: destruct (Nat.le_gt_cases (Z.to_nat (w_clo w')) (length (rows t2 0 n))) as [L|L]; [exact L|exfalso].
  1,2: apply HF; unfold drain_drop; change (d_index (drain_at (Z.to_nat (w_clo w')) d)) with (Z.of_nat (Z.to_nat (w_clo w')));
    pose proof (drain_moving_dims H2 HO HAB HB) as DM; cbn [e_drain e_dims] in DM; change (d_view (drain_at (Z.to_nat (w_clo w')) d)) with (d_view d);
    rewrite sh_len_prod; unfold d; rewrite <- DM; unfold zlen;
    destruct (Z.leb_spec 0 (Z.of_nat (length (rows t2 0 n)) - Z.of_nat (Z.to_nat (w_clo w')))); [lia|reflexivity].
  all: unfold d in *; rewrite x_drain_drop_eq by auto; rewrite drain_drop_eq in * by auto; split; [reflexivity|]; split; auto; apply rows_small; auto; lia.
Qed.

(** ** Creation and conversions *)

Definition osmall dbg {T C} (r : result (world T C) (tensor T)) : Prop := match r with Done t _ => small dbg t | _ => True end.

Lemma x_from_parts_ok dbg {T C} ty dims (items : list T) cap (w : world T C) :
  nonneg dims -> machine_dims dims -> counted dbg dims -> cap <= isize_max -> from_parts ty dims items cap w <> Fault ->
  xt_from_parts dbg ty dims items cap w = from_parts ty dims items cap w /\ osmall dbg (from_parts ty dims items cap w).
Proof.
  intros HN HM HC HI. unfold xt_from_parts, from_parts. rewrite sh_len_prod.
  destruct (zlen items =? prodZ dims) eqn:E; [|congruence]. intros _.
  split; [|now constructor]. destruct dbg.
  - now rewrite (counted_checked HC), E.
  - now rewrite (counted_len HN HC), E.
Qed.

Lemma flat_counted dbg n : 0 <= n <= usize_max -> nonneg [n] /\ machine_dims [n] /\ counted dbg [n].
Proof.
  intros H. split; [repeat constructor; lia|]. split; [repeat constructor; lia|].
  assert (EP : prodZ [n] = n) by (rewrite prodZ_cons; change (prodZ []) with 1; lia).
  apply counted_fits. intros [|[|k]]; cbn [firstn]; rewrite ?firstn_nil, ?EP; [unfold usize_max; cbn; lia|lia|lia].
Qed.

Lemma reshape_small dbg old ty req nd : nonneg old -> nonneg req -> machine_dims req -> counted dbg old ->
  match sh_rank ty with Some k => length req = k | None => True end -> sh_reshape old ty req = Ok nd ->
  nonneg nd /\ machine_dims nd /\ counted dbg nd.
Proof.
  intros HO HN HM HC HL E. destruct (sh_reshape_sound ty HO HN HL E) as (_ & NN & _ & EP).
  pose proof (prodZ_nonneg HO) as PO. destruct HC as [HC1 HC2]. split; auto.
  unfold sh_reshape in E. apply bind_ok in E as ([inf ones] & EI & E). destruct (infer_loop_inv _ _ EI HN) as [_ N1].
  assert (M1 : machine_dims ones).
  { clear - EI HM. revert EI. generalize (@None nat), 0%nat. intros o i. revert o i inf ones.
    induction HM as [|d ds Hd HM IH]; intros o i inf ones; cbn [infer_loop]; [intros [= <- <-]; constructor|].
    destruct (d =? usize_max).
    - intros H. apply bind_ok in H as (u & _ & H). apply bind_ok in H as ([x y] & H1 & H). injection H as <- <-.
      constructor; [unfold usize_max; lia|]. exact (IH _ _ _ _ H1).
    - intros H. apply bind_ok in H as ([x y] & H1 & H). injection H as <- <-. constructor; auto. exact (IH _ _ _ _ H1). }
  apply bind_ok in E as (d1 & ES & E). apply store_id in ES. subst d1. cbv zeta in E. rewrite sh_len_prod in E.
  destruct (sh_checked_len ones) as [nl|] eqn:ECL; [|discriminate]. destruct (checked_len_inv _ ECL) as [EN HF]. subst nl.
  pose proof (counted_fits dbg HF) as C1.
  assert (BIG : 0 < prodZ old -> counted dbg nd).
  { intros PP. apply counted_positive; [apply prodZ_pos_inv; auto; lia|lia]. }
  destruct inf as [i|].
  - apply bind_ok in E as (u1 & E1 & E). apply bind_ok in E as (u2 & E2 & E). apply store_id in E.
    pose proof (prodZ_nonneg N1) as P1. assert (PN : prodZ ones <> 0) by (destruct (Z.eqb_spec (prodZ ones) 0); [discriminate|auto]).
    pose proof (Z.div_le_upper_bound (prodZ old) (prodZ ones) (prodZ old)) as DU.
    split.
    + subst nd. apply machine_upd; auto. nia.
    + destruct (Z.eq_dec (prodZ old) 0) as [E0|E0]; [|apply BIG; lia].
      subst nd. rewrite E0, Z.div_0_l by auto. apply counted_upd; auto. split; [lia|].
      destruct (Nat.lt_ge_cases i (length ones)) as [L|L]; [|rewrite nth_overflow by exact L; lia].
      unfold nonneg in N1. rewrite Forall_forall in N1. apply N1, nth_In, L.
  - apply bind_ok in E as (u1 & E1 & E). injection E as <-. auto.
Qed.

Section Own.
  Context (dbg : bool) {T C : Type} (al : allocator) (t : tensor T) (w : world T C).
  Hypothesis HA : al_machine al.
  Hypothesis Ht : tensor_ok t.
  Hypothesis HS : small dbg t.

  Definition same_osmall (x r : result (world T C) (tensor T)) : Prop := r <> Fault -> x = r /\ osmall dbg r.

  Lemma mem_small : zlen (tn_mem t) <= isize_max.
  Proof. pose proof (to_cap Ht). pose proof (sm_cap HS). unfold zlen. lia. Qed.

  Lemma x_clone_ok cl : same_osmall (xt_clone dbg cl t w) (tn_clone cl t w).
  Proof.
    unfold same_osmall, xt_clone, tn_clone. rewrite (to_vec_ok Ht).
    assert (E0 : lift (xt_to_vec dbg t) w = Done (tn_mem t) w) by (unfold lift; now rewrite (x_to_vec_ok Ht HS)).
    rewrite (seq_done _ E0).
    unfold seqM. destruct (clone_items cl [] (tn_mem t) w) as [ys w'|w'| |]; auto; try (split; auto; exact I).
    intros HF. apply x_from_parts_ok; auto; try apply HS; [apply (to_nonneg Ht)|].
    unfold from_parts in HF. rewrite sh_len_prod in HF. destruct (Z.eqb_spec (zlen ys) (prodZ (tn_dims t))) as [E|]; [|congruence].
    rewrite E, <- (to_len Ht). exact mem_small.
  Qed.

  Lemma x_into_vec_ok {S} (s : S) : xt_into_vec dbg t s = Done (tn_mem t, tn_cap t) s.
  Proof. unfold xt_into_vec. 
    assert (E0 : lift (xt_to_vec dbg t) s = Done (tn_mem t) s) by (unfold lift; now rewrite (x_to_vec_ok Ht HS)).
    now rewrite (seq_done _ E0). Qed.

  Lemma x_into_flat_ok : same_osmall (xt_into_flat dbg t w) (tn_into_flat t w).
  Proof.
    unfold same_osmall, xt_into_flat, tn_into_flat. rewrite (seq_done _ (x_into_vec_ok w)), (seq_done _ (into_vec_done w Ht)).
    pose proof mem_small. pose proof (@zlen_nonneg _ (tn_mem t)). pose proof isize_usize. cbn [fst snd].
    destruct (@flat_counted dbg (zlen (tn_mem t))) as (F1 & F2 & F3); [lia|]. apply x_from_parts_ok; auto. apply HS.
  Qed.

  Lemma x_into_mapping_ok ty : same_osmall (xt_into_mapping dbg ty t w) (tn_into_mapping ty t w).
  Proof.
    unfold same_osmall, xt_into_mapping, tn_into_mapping. rewrite (seq_done _ (x_into_vec_ok w)), (seq_done _ (into_vec_done w Ht)). cbn [fst snd].
    assert (EM : x_remap dbg Dense ty (DenseM (tn_ty t) (tn_dims t)) = m_remap Dense ty (DenseM (tn_ty t) (tn_dims t))) by reflexivity.
    rewrite EM. unfold seqM, owning, lift. rewrite m_remap_dense. cbn [is_contiguous m_dims andb].
    destruct (accepts ty (tn_dims t)); [|split; auto; exact I]. cbn [m_dims].
    apply x_from_parts_ok; try apply HS. apply (to_nonneg Ht).
  Qed.

  Lemma x_into_shape_ok ty dims : nonneg dims -> machine_dims dims ->
    match sh_rank ty with Some k => length dims = k | None => True end ->
    same_osmall (xt_into_shape dbg ty dims t w) (tn_into_shape ty dims t w).
  Proof.
    intros HN HM HL. unfold same_osmall, xt_into_shape, tn_into_shape.
    rewrite (seq_done _ (x_into_vec_ok w)), (seq_done _ (into_vec_done w Ht)). cbn [fst snd].
    assert (EM : x_reshape dbg (DenseM (tn_ty t) (tn_dims t)) ty dims = m_reshape (DenseM (tn_ty t) (tn_dims t)) ty dims).
    { cbn [x_reshape m_reshape]. unfold x_sh_reshape, sh_reshape. rewrite (counted_len (to_nonneg Ht) (sm_count HS)), sh_len_prod. reflexivity. }
    rewrite EM. unfold seqM, owning, lift. cbn [m_reshape].
    destruct (sh_reshape (tn_dims t) ty dims) as [nd| | |] eqn:E; cbn [bind]; try (split; auto; exact I); try congruence.
    destruct (reshape_small (to_nonneg Ht) HN HM (sm_count HS) HL E) as (N1 & N2 & N3).
    apply x_from_parts_ok; auto. apply HS.
  Qed.

  Lemma x_into_scalar_ok : xt_into_scalar dbg t w = tn_into_scalar t w.
  Proof.
    unfold xt_into_scalar, tn_into_scalar, tn_len. rewrite (counted_len (to_nonneg Ht) (sm_count HS)), (x_to_vec_ok Ht HS), (to_vec_ok Ht), sh_len_prod.
    reflexivity.
  Qed.

  Lemma x_into_get k x i : nth_error (tn_mem t) k = Some x ->
    e_get (x_into dbg (tn_ty t) (tn_dims t) (tn_mem t)) i (Z.of_nat k) = Ok (x, Z.of_nat (S k)).
  Proof.
    intros E. assert (Hk : (k < length (tn_mem t))%nat) by (apply nth_error_Some; congruence).
    pose proof (to_len Ht). pose proof mem_small as HM. unfold zlen in HM. pose proof isize_usize.
    cbn [x_into e_get]. rewrite (counted_len (to_nonneg Ht) (sm_count HS)). cbn [bind].
    destruct (Z.ltb_spec (Z.of_nat k) (prodZ (tn_dims t))); [|lia]. rewrite if_ok by reflexivity. cbn [bind].
    rewrite u_res_fit by (unfold is_usize; lia). cbn [bind]. rewrite u_res_fit by (unfold is_usize; lia). cbn [bind].
    replace (Z.to_nat (Z.of_nat k + 1 - 1)) with k by lia. rewrite E, Nat2Z.inj_succ. reflexivity.
  Qed.

  Lemma x_into_nexts k :
    exists it it', (let* _ := xt_to_vec dbg t in let* it := x_it_new dbg (x_into dbg (tn_ty t) (tn_dims t) (tn_mem t)) in x_nexts dbg k it) =
        Ok (map Some (firstn k (tn_mem t)) ++ repeat None (k - length (tn_mem t)), it) /\
      it_nexts k (it_new (e_into (tn_ty t) (tn_dims t) (tn_mem t))) =
        Ok (map Some (firstn k (tn_mem t)) ++ repeat None (k - length (tn_mem t)), it') /\
      it_st it = it_st it' /\ 0 <= it_st it <= zlen (tn_mem t).
  Proof.
    set (e := x_into dbg (tn_ty t) (tn_dims t) (tn_mem t)).
    destruct (@moving_nexts T e (tn_mem t) (fun k => Z.of_nat k)) with (n := k) as (it & E1 & E2); auto.
    - intros i k' x E. now apply x_into_get.
    - exact (to_len Ht).
    - destruct (@moving_nexts T (e_into (tn_ty t) (tn_dims t) (tn_mem t)) (tn_mem t) (fun k => Z.of_nat k)) with (n := k) as (it' & E3 & E4); auto.
      + intros i k' x E. cbn [e_into e_get]. rewrite Nat2Z.id, E, Nat2Z.inj_succ. reflexivity.
      + exact (to_len Ht).
      + exists it, it'. destruct (@x_new_counted dbg T e) as [E HI]; [apply (to_nonneg Ht)|apply HS|apply HS|].
        rewrite (x_to_vec_ok Ht HS). cbn [bind]. fold e. rewrite E. cbn [bind].
        destruct (@x_nexts_ok dbg T e k (it_new e) HI (or_introl eq_refl)) as [EN _]. rewrite EN. split; [exact E1|]. split; [exact E3|].
        rewrite E2, E4. split; [reflexivity|]. unfold zlen. lia.
  Qed.

  Lemma x_from_vec_ok (items : list T) cap : zlen items <= cap -> cap <= isize_max -> same_osmall (xt_from_vec dbg items cap w) (tn_from_vec items cap w).
  Proof.
    intros H1 H2. pose proof (@zlen_nonneg _ items). pose proof isize_usize.
    destruct (@flat_counted dbg (zlen items)) as (F1 & F2 & F3); [lia|]. unfold same_osmall. now apply x_from_parts_ok.
  Qed.

  Lemma x_with_capacity_ok ty cap : nonneg (sh_default ty) -> machine_dims (sh_default ty) ->
    same_osmall (xt_with_capacity dbg al ty cap w) (tn_with_capacity al ty cap w).
  Proof.
    intros HN HM. unfold same_osmall, xt_with_capacity, tn_with_capacity.
    destruct (sh_checked_len (sh_default ty)) as [n|] eqn:EC; [|intros _; split; [reflexivity|exact I]].
    destruct (checked_len_inv _ EC) as [EN HF]. subst n. destruct (Z.eqb_spec (prodZ (sh_default ty)) 0); [|intros _; split; [reflexivity|exact I]].
    rewrite !(@seq_done _ _ _ (check true) _ _ tt w eq_refl).
    destruct (al_ok al cap) eqn:EA; destruct (cap =? 0) eqn:E0; cbn [orb]; try (intros _; split; [reflexivity|exact I]);
      apply x_from_parts_ok; auto using counted_fits; try (unfold isize_max; lia).
    destruct (HA EA) as [A1 A2]. specialize (A2 0). lia.
  Qed.

  Lemma x_from_expr_ok (e : expression T) : nonneg (e_dims e) -> machine_operand dbg e ->
    same_osmall (xt_from_expr dbg al e w) (tn_from_expr al e w).
  Proof.
    intros HN HO. destruct HO as (HM & HC & HI). assert (HO : machine_operand dbg e) by (split; auto).
    unfold same_osmall, xt_from_expr, tn_from_expr. rewrite (counted_len HN HC), sh_len_prod. cbv zeta.
    destruct ((prodZ (e_dims e) =? 0) || al_ok al (prodZ (e_dims e))) eqn:EA; [|intros _; split; [reflexivity|exact I]].
    set (cap := if prodZ (e_dims e) =? 0 then 0 else Z.max (prodZ (e_dims e)) (al_grow al 0 (prodZ (e_dims e)))).
    assert (HCap : 0 <= cap <= isize_max).
    { unfold cap. pose proof (prodZ_nonneg HN). destruct (prodZ (e_dims e) =? 0); [unfold isize_max; lia|]. cbn [orb] in EA.
      destruct (HA EA) as [A1 A2]. specialize (A2 0). lia. }
    assert (HP : psmall dbg (mkParts [] cap [] w)).
    { assert (C0 : counted dbg []) by (apply counted_fits; intros k; rewrite firstn_nil; unfold usize_max; cbn; lia).
      constructor; cbn [p_dims p_cap p_items]; auto; [constructor|constructor|unfold zlen; cbn [length]; lia|apply HCap]. }
    rewrite (x_clone_into_ok (T := T) moved HN HO HP).
    pose proof (@keeps_clone_into dbg T T C e moved _ HP) as HK.
    destruct (clone_into_vec e moved _) as [a p|p| |]; auto; try (intros _; split; [reflexivity|exact I]).
    apply x_from_parts_ok; auto. apply HK.
  Qed.
End Own.
