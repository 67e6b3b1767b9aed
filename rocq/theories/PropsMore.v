(** Constructors, capacities and the checks made only by debug builds: what the theorems on the
    operations that use them leave open. *)
From Verif Require Import Base Spec SpecFacts Shape Mapping Index View Wf MappingFacts MapOps ReshapeFacts IndexFacts ViewFacts.
From Verif Require Import Expr ExprSpec ExprFacts IterFacts SourceFacts ExprTree ExprMore PropsView PropsExpr.
From Verif Require Import Tensor TraceFacts TensorSpec TensorFacts ResizeFacts TensorOps OwnFacts ZipFacts OwnMore PropsTensor.
From Verif Require Import Ops OpsFacts PropsOps Machine MachineSpec MachineFacts PropsMachine.
Unset Strict Implicit.

(** ** C62: mappings and their offsets *)

(** [StridedMapping::new] takes as many strides as dimensions and keeps them; anything else panics. *)
Theorem c62_strided_new : forall ty dims strides,
  (length dims = length strides /\ exists m, strided_new ty dims strides = Ok m /\
     m_ty m = ty /\ m_dims m = dims /\ m_layout m = Strided /\
     forall i, (i < length dims)%nat -> m_stride m i = Ok (nth i strides 0)) \/
  (length dims <> length strides /\ strided_new ty dims strides = Panic).
Proof.
  intros ty dims strides. unfold strided_new. destruct (Nat.eqb_spec (length dims) (length strides)) as [E|E].
  - left. split; [exact E|]. eexists. split; [reflexivity|]. repeat split. intros i Hi.
    cbn [m_stride]. destruct (Nat.ltb_spec i (length dims)); [|lia]. cbn [assert bind]. unfold get_nth.
    destruct (nth_error strides i) eqn:EN; [|apply nth_error_None in EN; lia].
    now rewrite (nth_error_nth _ _ 0 EN).
  - right. split; [exact E|reflexivity].
Qed.
Print Assumptions c62_strided_new.

Example c62_strided_new_example :
  strided_new ty2 [2; 3] [-7; 4] = Ok (StridedM ty2 [2; 3] [-7; 4]) /\ strided_new ty2 [2; 3] [1] = Panic.
Proof. vm_all. Qed.

(** A default mapping has the default dimensions; its strides are those of a dense array, or zero. *)
Theorem c62_default : forall l ty i,
  let m := m_default l ty in
  m_ty m = ty /\ m_dims m = sh_default ty /\ m_layout m = l /\
  ((i < length (sh_default ty))%nat ->
   m_stride m i = Ok (match l with Dense => prodZ (skipn (i + 1) (sh_default ty)) | Strided => 0 end)).
Proof.
  intros l ty i. destruct l; cbn [m_default m_ty m_dims m_layout]; repeat split; intros Hi; cbn [m_stride];
    destruct (Nat.ltb_spec i (length (sh_default ty))); try lia; cbn [assert bind].
  - now rewrite <- sh_len_prod.
  - unfold get_nth. rewrite nth_error_repeat by lia. reflexivity.
Qed.
Print Assumptions c62_default.

Example c62_default_example : m_default Strided ty2 = StridedM ty2 [0; 0] [0; 0] /\
  m_default Dense (STuple [DConst 2; DConst 3]) = DenseM (STuple [DConst 2; DConst 3]) [2; 3].
Proof. vm_all. Qed.

(** With debug assertions, [offset] panics for every index outside the bounds, of any length, and
    [linear_offset] for every index from the length on: neither gives a wrong offset. *)
Lemma bind_fine {A B} (x : outcome A) (f : A -> outcome B) :
  (x = Panic \/ exists a, x = Ok a) -> (forall a, x = Ok a -> f a = Panic \/ exists b, f a = Ok b) ->
  bind x f = Panic \/ exists b, bind x f = Ok b.
Proof. intros [->|[a ->]] H; [now left|]. cbn [bind]. now apply H. Qed.

Lemma i_res_fine dbg z : i_res dbg z = Panic \/ exists a, i_res dbg z = Ok a.
Proof. unfold i_res. destruct (i_fits z); [eauto|]. destruct dbg; eauto. Qed.
Lemma u_res_fine dbg z : u_res dbg z = Panic \/ exists a, u_res dbg z = Ok a.
Proof. unfold u_res. destruct (u_fits z); [eauto|]. destruct dbg; eauto. Qed.

Lemma offset_loop_fine dims idx calls : forall o,
  let r := x_offset_loop true dims idx calls o in
  r = Panic \/ (exists a, r = Ok a) /\ Forall (fun c => exists k, nth_error idx (fst c) = Some k /\ k < nth (fst c) dims 0) calls.
Proof.
  induction calls as [|[i s] ct IH]; intros o; cbn [x_offset_loop]; cbv zeta.
  - right. split; [eauto|constructor].
  - unfold get_nth. destruct (nth_error idx i) as [k|] eqn:EK; cbn [bind]; [|now left].
    unfold dassert. destruct (Z.ltb_spec k (nth i dims 0)); cbn [assert bind]; [|now left].
    destruct (i_res_fine true (s * as_isize k)) as [->|[p ->]]; cbn [bind]; [now left|].
    destruct (i_res_fine true (o + p)) as [->|[q ->]]; cbn [bind]; [now left|].
    destruct (IH q) as [->|[HA HF]]; [now left|]. right. split; [exact HA|]. constructor; [|exact HF]. cbn [fst]. eauto.
Qed.

Lemma dense_calls_fine dims : forall n s,
  let r := x_dense_calls true n dims s in
  r = Panic \/ exists l, r = Ok l /\ map fst l = rev (seq 0 n).
Proof.
  induction n as [|n IH]; intros s; cbn [x_dense_calls]; cbv zeta.
  - right. exists []. auto.
  - destruct (u_res_fine true (s * nth n dims 0)) as [->|[q ->]]; cbn [bind]; [now left|].
    destruct (IH q) as [->|(l & -> & E)]; cbn [bind]; [now left|]. right. eexists. split; [reflexivity|].
    rewrite seq_S, rev_app_distr. cbn [map fst rev app Nat.add]. now rewrite E.
Qed.

Theorem c62_offset_debug : forall m idx,
  Forall (fun k => 0 <= k) idx -> ~ in_bounds (m_dims m) idx -> x_offset true m idx = Panic.
Proof.
  intros m idx HN HB. unfold x_offset, dassert. destruct (Nat.eqb_spec (length idx) (m_rank m)) as [EL|]; [|reflexivity].
  cbn [assert bind]. unfold m_rank in EL.
  assert (HC : x_calls true m = Panic \/ exists l, x_calls true m = Ok l /\ forall i, (i < length (m_dims m))%nat -> In i (map fst l)).
  { destruct m as [ty dims|ty dims ss]; cbn [x_calls m_dims].
    - destruct (@dense_calls_fine dims (length dims) 1) as [->|(l & -> & E)]; [now left|]. right. eexists. split; [reflexivity|].
      intros i Hi. rewrite E. apply -> in_rev. apply in_seq. lia.
    - right. eexists. split; [reflexivity|]. intros i Hi. rewrite map_map. cbn [fst]. rewrite map_id. apply in_seq. lia. }
  destruct HC as [->|(l & -> & HI)]; [reflexivity|]. cbn [bind].
  destruct (@offset_loop_fine (m_dims m) idx l 0) as [->|[_ HF]]; [reflexivity|]. exfalso. apply HB.
  assert (HD : forall i, (i < length (m_dims m))%nat -> exists k, nth_error idx i = Some k /\ k < nth i (m_dims m) 0).
  { intros i Hi. apply HI in Hi. apply in_map_iff in Hi. destruct Hi as (c & <- & Hc). rewrite Forall_forall in HF. auto. }
  clear HF HI HB l. revert EL HD HN. generalize (m_dims m) as ds. clear m.
  induction idx as [|k idx IH]; intros [|d ds] EL HD HN; cbn in EL; try lia; [constructor|].
  inversion HN; subst. constructor.
  - destruct (HD 0%nat) as (k' & E & Hk); [cbn; lia|]. cbn in E, Hk. injection E as <-. lia.
  - apply IH; auto. intros i Hi. apply (HD (S i)). cbn. lia.
Qed.
Print Assumptions c62_offset_debug.

Theorem c62_linear_debug : forall m k,
  nonneg (m_dims m) -> prodZ (m_dims m) <= k -> x_linear_offset true m k = Panic.
Proof.
  intros m k HN HK. unfold x_linear_offset. unfold x_len.
  assert (H : forall ds a, nonneg ds -> 0 <= a -> x_prod true a ds = Panic \/ x_prod true a ds = Ok (a * prodZ ds)).
  { clear. induction ds as [|d ds IH]; intros a HN Ha; cbn [x_prod].
    - right. f_equal. unfold prodZ. cbn [fold_right]. lia.
    - inversion HN; subst. unfold u_res. destruct (u_fits (a * d)); cbn [bind]; [|now left].
      destruct (IH (a * d)) as [->| ->]; auto; try nia. right. f_equal. unfold prodZ. cbn [fold_right]. lia. }
  destruct (H (m_dims m) 1 HN ltac:(lia)) as [->| ->]; [reflexivity|]. cbn [bind].
  destruct (Z.ltb_spec k (1 * prodZ (m_dims m))); [lia|]. reflexivity.
Qed.
Print Assumptions c62_linear_debug.

(** Without them, [offset] panics exactly when there are too few entries. *)
Theorem c62_offset_release : forall m idx,
  (length idx < length (m_dims m))%nat <-> x_offset false m idx = Panic.
Proof.
  intros m idx. unfold x_offset, dassert. cbn [bind].
  assert (HC : exists l, x_calls false m = Ok l /\ forall i, (i < length (m_dims m))%nat <-> In i (map fst l)).
  { destruct m as [ty dims|ty dims ss]; cbn [x_calls m_dims].
    - assert (H : forall n s, exists l, x_dense_calls false n dims s = Ok l /\ map fst l = rev (seq 0 n)).
      { induction n as [|n IH]; intros s; cbn [x_dense_calls]; [exists []; auto|].
        assert (E : exists q, u_res false (s * nth n dims 0) = Ok q) by (unfold u_res; destruct (u_fits _); eauto).
        destruct E as [q ->]. cbn [bind]. destruct (IH q) as (l & -> & E). cbn [bind]. eexists. split; [reflexivity|].
        rewrite seq_S, rev_app_distr. cbn [map fst rev app Nat.add]. now rewrite E. }
      destruct (H (length dims) 1) as (l & -> & E). eexists. split; [reflexivity|]. intros i. rewrite E, <- in_rev, in_seq. lia.
    - eexists. split; [reflexivity|]. intros i. rewrite map_map. cbn [fst]. rewrite map_id, in_seq. lia. }
  destruct HC as (l & -> & HI). cbn [bind].
  assert (HL : forall l o, x_offset_loop false (m_dims m) idx l o = Panic <-> exists i, In i (map fst l) /\ (length idx <= i)%nat).
  { clear. induction l as [|[i s] l IH]; intros o; cbn [x_offset_loop map fst In].
    - split; [discriminate|]. intros (i & [] & _).
    - unfold get_nth. destruct (nth_error idx i) as [k|] eqn:EK; cbn [bind].
      + assert (i < length idx)%nat by (apply nth_error_Some; congruence).
        assert (E : forall z, exists q, i_res false z = Ok q) by (intros z; unfold i_res; destruct (i_fits z); eauto).
        unfold dassert. cbn [bind].
        destruct (E (s * as_isize k)) as [p ->]. cbn [bind]. destruct (E (o + p)) as [q ->]. cbn [bind]. rewrite IH.
        split; intros (j & Hj & Hl); exists j; split; auto; try lia. destruct Hj as [<-|]; [lia|auto].
      + apply nth_error_None in EK. split; [|reflexivity]. intros _. exists i. auto. }
  rewrite HL. split.
  - intros H. exists (length idx). split; [now apply HI|lia].
  - intros (i & Hi & Hl). apply HI in Hi. lia.
Qed.
Print Assumptions c62_offset_release.

Example c62_offset_example :
  let m := StridedM ty2 [2; 3] [3; 1] in
  x_offset true m [1; 2] = Ok 5 /\ x_offset true m [1; 3] = Panic /\ x_offset true m [1] = Panic /\
  x_offset true m [1; 2; 0] = Panic /\ x_offset false m [1; 3] = Ok 6 /\ x_offset false m [1] = Panic /\
  x_offset false m [1; 2; 0] = Ok 5 /\ x_linear_offset true m 5 = Ok 5 /\ x_linear_offset true m 6 = Panic.
Proof. cbv zeta. vm_all. Qed.

(** ** C50 *)
Theorem c50_new : forall rank, dr_dims (dr_new rank) = repeat 0 rank /\ dr_dims dr_default = [0].
Proof.
  intros rank. unfold dr_new. destruct (Nat.eqb_spec rank 1) as [->|]; split; reflexivity.
Qed.
Print Assumptions c50_new.

(** ** C21: [lanes] panics when the other dimensions overflow, and only then *)
Theorem c21_panics : forall n rep v a i,
  valid_view n v -> is_axis a (length (v_dims v)) i ->
  (fits (remove_at i (v_dims v)) /\ exists e, e_lanes rep v a = Ok e /\ e_dims e = remove_at i (v_dims v)) \/
  (~ fits (remove_at i (v_dims v)) /\ e_lanes rep v a = Panic).
Proof.
  intros n rep v a i Hv HA. unfold e_lanes.
  destruct (ax_remove_map_ok (vv_wf Hv) HA) as (m & -> & Hd & _). cbn [bind]. fold (v_dims v) in Hd. rewrite Hd.
  destruct (checked_len_cases (remove_at i (v_dims v))) as [F|E].
  - left. rewrite checked_len_fits by auto. split; [exact F|]. eexists. split; [reflexivity|]. reflexivity.
  - right. rewrite E. split; [|reflexivity]. intros F. rewrite checked_len_fits in E by auto. discriminate.
Qed.
Print Assumptions c21_panics.

Example c21_panics_example : let v := whole (STuple [DDyn; DDyn; DDyn]) [2 ^ 40; 2 ^ 40; 0] in
  e_lanes true v (AxConst 2) = Panic /\ ~ fits (remove_at 2 (v_dims v)).
Proof.
  split; [vm_compute; reflexivity|]. intros F. specialize (F 2%nat). revert F. vm_compute. congruence.
Qed.

(** ** C26: a drained range, like an array by value, cannot be repeated *)
Theorem c26_drain : forall T B (d : drain T) (b : expression B),
  (length (d_view d) < e_rank b)%nat -> e_zip (e_drain d) b = Panic /\ e_zip b (e_drain d) = Panic.
Proof.
  intros T B d b H. split.
  - unfold e_zip. unfold e_rank at 2. cbn [e_drain e_rep e_dims orb].
    destruct (Nat.leb_spec (e_rank b) (length (d_view d))); [lia|]. reflexivity.
  - unfold e_zip. unfold e_rank at 1. cbn [e_drain e_rep e_dims orb].
    destruct (Nat.leb_spec (length (d_view d)) (e_rank b)); [|lia]. rewrite orb_true_r. cbn [assert bind].
    change (e_rank (e_drain d)) with (length (d_view d)).
    destruct (Nat.leb_spec (e_rank b) (length (d_view d))); [lia|]. reflexivity.
Qed.
Print Assumptions c26_drain.

Example c26_drain_example : exists d, tn_drain t42 (Included 1) (Excluded 3) = Ok d /\ d_view d = [2; 2] /\
  (length (d_view d) < e_rank (e_view 24 true ex_rev))%nat.
Proof. eexists. split; [vm_compute; reflexivity|]. split; vm_compute; [reflexivity|lia]. Qed.

(** ** C61: capacities *)

(** [reserve] and [try_reserve] (and their exact forms) make room for [k] more elements, keep the
    capacity if it suffices, and change nothing else; when the allocator refuses, [reserve] panics and
    [try_reserve] reports it, leaving the tensor as it was. *)
Theorem c61_reserve : forall T C al k (t : tensor T) (w : world T C),
  tensor_ok t ->
  let room := prodZ (tn_dims t) + k <=? tn_cap t in
  (al_ok al (prodZ (tn_dims t) + k) = true \/ room = true ->
   exists cap, tn_reserve al k (t, w) = Done tt (mkTensor (tn_ty t) (tn_dims t) (tn_mem t) cap, w) /\
     tn_try_reserve al k (t, w) = Done true (mkTensor (tn_ty t) (tn_dims t) (tn_mem t) cap, w) /\
     prodZ (tn_dims t) + k <= cap /\ tn_cap t <= cap /\ (room = true -> cap = tn_cap t)) /\
  (al_ok al (prodZ (tn_dims t) + k) = false /\ room = false ->
   tn_reserve al k (t, w) = Unwound (t, w) /\ tn_try_reserve al k (t, w) = Done false (t, w)).
Proof.
  intros T C al k t w Ht room. destruct (start_pok w Ht) as [(_ & _ & Hc) I]. cbn [p_items p_cap] in Hc.
  assert (EL : zlen (tn_mem t) = prodZ (tn_dims t)) by apply (to_len Ht).
  set (p := mkParts (tn_mem t) (tn_cap t) (tn_dims t) w).
  assert (ER : vec_reserve al k p = if room then Done tt p else
    if al_ok al (prodZ (tn_dims t) + k)
    then Done tt (mkParts (tn_mem t) (Z.max (prodZ (tn_dims t) + k) (al_grow al (tn_cap t) (prodZ (tn_dims t) + k))) (tn_dims t) w)
    else Unwound p) by (unfold vec_reserve, p; cbn [p_items p_cap p_dims p_w]; now rewrite EL).
  assert (ET : vec_try_reserve al k p = if room then Done true p else
    if al_ok al (prodZ (tn_dims t) + k)
    then Done true (mkParts (tn_mem t) (Z.max (prodZ (tn_dims t) + k) (al_grow al (tn_cap t) (prodZ (tn_dims t) + k))) (tn_dims t) w)
    else Done false p).
  { unfold vec_try_reserve. rewrite ER. destruct room; [reflexivity|]. destruct (al_ok al _); reflexivity. }
  unfold tn_reserve, tn_try_reserve. destruct room eqn:EM; subst room; unfold p in *.
  - apply Z.leb_le in EM. split; [|intros [_ H]; discriminate]. intros _. exists (tn_cap t).
    split; [exact (wmp_done (m := fun _ => vec_reserve al k) Ht ER I)|].
    split; [exact (wmp_done (m := fun _ => vec_try_reserve al k) Ht ET I)|]. auto with zarith.
  - apply Z.leb_gt in EM. split.
    + intros [Ho|]; [|discriminate]. rewrite Ho in ER, ET. eexists.
      split; [exact (wmp_done (m := fun _ => vec_reserve al k) Ht ER I)|].
      split; [exact (wmp_done (m := fun _ => vec_try_reserve al k) Ht ET I)|]. cbn [p_cap].
      split; [lia|]. split; [lia|discriminate].
    + intros [Ho _]. rewrite Ho in ER, ET.
      pose proof (wmp_unwound (m := fun _ => vec_reserve al k) Ht ER I) as H1.
      pose proof (wmp_done (m := fun _ => vec_try_reserve al k) Ht ET I) as H2.
      cbn [p_items p_cap p_dims p_w] in H1, H2. rewrite H1, H2. now destruct t.
Qed.
Print Assumptions c61_reserve.

(** [shrink_to k] reduces the capacity to [k], but not below the number of elements ([shrink_to_fit]:
    [k = 0]), and never increases it. *)
Theorem c61_shrink : forall T C k (t : tensor T) (w : world T C),
  tensor_ok t ->
  exists cap, tn_shrink_to k (t, w) = Done tt (mkTensor (tn_ty t) (tn_dims t) (tn_mem t) cap, w) /\
    prodZ (tn_dims t) <= cap <= tn_cap t /\ (k <= tn_cap t -> cap = Z.max (prodZ (tn_dims t)) k) /\
    (tn_cap t <= k -> cap = tn_cap t).
Proof.
  intros T C k t w Ht. destruct (start_pok w Ht) as [(_ & _ & Hc) I]. cbn [p_items p_cap] in Hc.
  assert (EL : zlen (tn_mem t) = prodZ (tn_dims t)) by apply (to_len Ht).
  exists (Z.min (tn_cap t) (Z.max (zlen (tn_mem t)) k)). split.
  - exact (wmp_done (m := fun _ => vec_shrink k) (t := t) (w := w) (a := tt)
      (p := mkParts (tn_mem t) (Z.min (tn_cap t) (Z.max (zlen (tn_mem t)) k)) (tn_dims t) w) Ht eq_refl I).
  - rewrite EL in *. lia.
Qed.
Print Assumptions c61_shrink.

(** [new] and [with_capacity] give an empty tensor of the default shape with at least that capacity
    ([new]: none), or panic: when the default shape has elements or overflows, or the allocator refuses. *)
Theorem c61_with_capacity : forall T C al ty cap (w : world T C),
  nonneg (sh_default ty) -> ty_wf ty -> 0 <= cap ->
  let ok := prodZ (sh_default ty) = 0 /\ fits (sh_default ty) /\ (cap = 0 \/ al_ok al cap = true) in
  (ok /\ exists cap', tn_with_capacity (T := T) al ty cap w = Done (mkTensor ty (sh_default ty) [] cap') w /\
     cap <= cap' /\ (cap = 0 -> cap' = 0) /\ tensor_ok (mkTensor ty (sh_default ty) (@nil T) cap')) \/
  (~ ok /\ tn_with_capacity (T := T) al ty cap w = Unwound w).
Proof.
  intros T C al ty cap w Hn Hty Hcap ok. unfold tn_with_capacity, seqM, check.
  destruct (checked_len_cases (sh_default ty)) as [F|E].
  - rewrite checked_len_fits by auto. destruct (Z.eqb_spec (prodZ (sh_default ty)) 0) as [E0|E0].
    + destruct ((cap =? 0) || al_ok al cap) eqn:EA.
      * left. split.
        { split; auto. split; auto. apply orb_true_iff in EA. destruct EA as [EA|EA]; [left|right; auto]. now apply Z.eqb_eq. }
        unfold from_parts. rewrite sh_len_prod, E0. change (zlen [] =? 0) with true. cbn iota.
        eexists. split; [reflexivity|]. split; [destruct (Z.eqb_spec cap 0); lia|]. split; [intros ->; reflexivity|].
        constructor; cbn [tn_dims tn_ty tn_mem tn_cap length]; auto using default_typed. destruct (Z.eqb_spec cap 0); lia.
      * right. split; [|reflexivity]. apply orb_false_iff in EA. destruct EA as [EA EB]. apply Z.eqb_neq in EA.
        intros (_ & _ & [?|?]); congruence.
    + right. split; [|reflexivity]. intros (H & _). congruence.
  - rewrite E. right. split; [|reflexivity]. intros (_ & F & _). rewrite checked_len_fits in E by auto. discriminate.
Qed.
Print Assumptions c61_with_capacity.

Example c61_example :
  let t := mkTensor ty2 [3; 2] [1; 2; 3; 4; 5; 6] 8 in
  tensor_ok t /\ tn_reserve al0 2 (t, w0) = Done tt (t, w0) /\
  tn_reserve al0 3 (t, w0) = Done tt (mkTensor ty2 [3; 2] [1; 2; 3; 4; 5; 6] 9, w0) /\
  tn_try_reserve (mkAlloc (fun n => n <? 9) (fun c _ => 2 * c)) 3 (t, w0) = Done false (t, w0) /\
  tn_reserve (mkAlloc (fun n => n <? 9) (fun c _ => 2 * c)) 3 (t, w0) = Unwound (t, w0) /\
  tn_reserve (mkAlloc (fun n => n <? 10) (fun c _ => 2 * c)) 3 (t, w0) = Done tt (mkTensor ty2 [3; 2] [1; 2; 3; 4; 5; 6] 16, w0) /\
  tn_shrink_to 7 (t, w0) = Done tt (mkTensor ty2 [3; 2] [1; 2; 3; 4; 5; 6] 7, w0) /\
  tn_shrink_to 0 (t, w0) = Done tt (mkTensor ty2 [3; 2] [1; 2; 3; 4; 5; 6] 6, w0) /\
  tn_shrink_to 10 (t, w0) = Done tt (t, w0).
Proof. cbv zeta. split; [constructor; wf_tac|]. vm_all. Qed.
