(** Consequences for views: iteration, subarrays, lanes, assignment. *)
From Verif Require Import Base Spec SpecFacts Shape Mapping Index View Wf MappingFacts MapOps ReshapeFacts.
From Verif Require Import IndexFacts ViewFacts ViewMore Expr ExprSpec ExprFacts IterFacts SourceFacts ExprTree.
Unset Strict Implicit.

(** ** Views *)

(** Views whose internal iteration is right: dense ones, and strided ones of which all dimensions
    but the last are non-zero or whose last dimension is 0. *)
Definition view_fine (v : view) : Prop :=
  v_layout v = Dense \/ positive (removelast (v_dims v)) \/ last (v_dims v) 1 = 0.

Lemma removelast_firstn' {A} (l : list A) : removelast l = firstn (length l - 1) l.
Proof. rewrite removelast_firstn_len. f_equal. lia. Qed.

Lemma view_tree_fine n rep v : wf_map (v_map v) -> view_fine v -> t_fine (TView n rep v).
Proof.
  intros Hw H. split; [cbn; lia|]. unfold t_outer. cbn [t_inner t_dims].
  unfold view_fine, v_layout, v_dims in *. unfold map_inner_rank.
  destruct (m_layout (v_map v)) eqn:EL.
  - destruct (sh_rank (m_ty (v_map v))) as [[|k]|]; try (left; constructor);
      unfold m_rank; rewrite Nat.sub_diag; left; constructor.
  - destruct H as [H|H]; [discriminate|].
    destruct (Nat.ltb_spec 0 (m_rank (v_map v))) as [L|L]; [|left; constructor].
    unfold m_rank in *. destruct H as [H|H].
    + left. now rewrite <- removelast_firstn'.
    + right. destruct (m_dims (v_map v)) as [|d ds] eqn:E using rev_ind; [cbn in L; lia|].
      rewrite last_last in H. rewrite app_length. cbn [length].
      replace (length ds + 1 - 1)%nat with (length ds) by lia.
      rewrite skipn_app, skipn_all, Nat.sub_diag. cbn. lia.
Qed.

Lemma view_built n rep v : valid_view n v -> built (TView n rep v) (e_view n rep v).
Proof.
  intros H. constructor; try reflexivity; [apply (wf_typed (vv_wf H))|now apply computes_view].
Qed.

Lemma view_fold {T} n rep v (f : T -> Z -> outcome T) acc :
  valid_view n v -> view_fine v ->
  e_fold (e_view n rep v) f acc = foldM f (map (v_addr v) (indices (v_dims v))) acc.
Proof.
  intros Hv HF. rewrite (tree_fold f acc (view_built rep Hv) (view_tree_fine n rep (vv_wf Hv) HF)).
  apply run_pure.
Qed.

Lemma foldM_collect {A} (l : list A) : foldM (fun l a => Ok (a :: l)) l [] = Ok (rev l).
Proof. rewrite foldM_rev. now rewrite app_nil_r. Qed.

Lemma view_collect n rep v :
  valid_view n v -> view_fine v -> e_collect (e_view n rep v) = Ok (map (v_addr v) (indices (v_dims v))).
Proof.
  intros Hv HF. unfold e_collect. rewrite view_fold by auto. rewrite foldM_collect. cbn [bind].
  now rewrite rev_involutive.
Qed.

(** ** Stateless expressions *)
Lemma computes_collect {A} (e : expression A) g need :
  computes e (pure_action g) tt need -> (need <= e_rank e - outer_rank e)%nat -> outer_fine e ->
  e_collect e = Ok (map g (indices (e_dims e))).
Proof.
  intros HC Hn HF. unfold e_collect. rewrite (fold_computes _ _ HC Hn HF), run_pure, foldM_collect.
  cbn [bind]. now rewrite rev_involutive.
Qed.

Lemma computes_nexts {A} (e : expression A) g need n :
  computes e (pure_action g) tt need -> (need <= e_rank e - outer_rank e)%nat -> next_fine e ->
  (n <= Z.to_nat (prodZ (e_dims e)))%nat ->
  exists it, it_nexts n (it_new e) = Ok (map Some (map g (firstn n (indices (e_dims e)))), it) /\
    it_size it = prodZ (e_dims e) - Z.of_nat n /\
    (forall T (f : T -> A -> outcome T) acc,
       it_fold f it acc = foldM f (map g (skipn n (indices (e_dims e)))) acc) /\
    (n = Z.to_nat (prodZ (e_dims e)) -> exists it', it_next it = Ok (None, it') /\
       (outer_rank e = 0%nat -> forall m, exists it'',
            it_nexts m it' = Ok (repeat None m, it'') /\ it_size it'' = 0)).
Proof.
  intros HC Hneed HN Hn. pose proof (next_computes HC Hneed HN Hn) as G.
  rewrite items_pure in G. destruct (it_nexts n (it_new e)) as [[l it]| | |]; try contradiction.
  cbn [agree fst snd] in G. destruct G as (-> & H1 & H2 & H3). exists it. repeat split; auto.
  intros T f acc. rewrite H2, run_pure. reflexivity.
Qed.

Definition view_next_fine (v : view) : Prop :=
  v_layout v = Dense \/ (length (v_dims v) <= 1)%nat \/ positive (v_dims v).

Lemma view_outer n rep v :
  outer_rank (e_view n rep v) =
    match v_layout v with Dense => 0%nat | Strided => (length (v_dims v) - 1)%nat end.
Proof.
  unfold outer_rank, e_rank, v_layout, v_dims. cbn [e_view e_inner e_dims]. unfold map_inner_rank, v_dims.
  destruct (m_layout (v_map v)).
  - destruct (sh_rank _) as [[|k]|]; auto; unfold m_rank; lia.
  - unfold m_rank. destruct (Nat.ltb_spec 0 (length (m_dims (v_map v)))); lia.
Qed.

Lemma view_next_ok n rep v : view_next_fine v -> next_fine (e_view n rep v).
Proof.
  intros H. unfold next_fine. rewrite view_outer.
  destruct H as [->|[H|H]]; auto. left. destruct (v_layout v); lia.
Qed.

Lemma view_nexts n rep v k :
  valid_view n v -> view_next_fine v -> (k <= Z.to_nat (prodZ (v_dims v)))%nat ->
  exists it, it_nexts k (it_new (e_view n rep v)) = Ok (map Some (map (v_addr v) (firstn k (indices (v_dims v)))), it) /\
    it_size it = prodZ (v_dims v) - Z.of_nat k /\
    (forall T (f : T -> Z -> outcome T) acc,
       it_fold f it acc = foldM f (map (v_addr v) (skipn k (indices (v_dims v)))) acc) /\
    (k = Z.to_nat (prodZ (v_dims v)) -> exists it', it_next it = Ok (None, it') /\
       (v_layout v = Dense \/ (length (v_dims v) <= 1)%nat -> forall m, exists it'',
            it_nexts m it' = Ok (repeat None m, it'') /\ it_size it'' = 0)).
Proof.
  intros Hv HF Hk.
  destruct (computes_nexts (computes_view rep Hv) (n := k) ltac:(lia) (view_next_ok n rep HF) Hk)
    as (it & H1 & H2 & H3 & H4).
  exists it. split; [exact H1|]. split; [exact H2|]. split; [exact H3|].
  intros E. destruct (H4 E) as (it' & E' & H5). exists it'. split; auto.
  intros HO. apply H5. rewrite view_outer. destruct HO as [->|HO]; auto. destruct (v_layout v); lia.
Qed.

(** ** axis_expr *)
Lemma indices_one d : indices [d] = map (fun k => [k]) (zrange d).
Proof.
  cbn [indices]. induction (zrange d) as [|x l IH]; [reflexivity|]. cbn [flat_map map app] in *. now f_equal.
Qed.

Lemma nth_error_zrange d k : 0 <= k < d -> nth_error (zrange d) (Z.to_nat k) = Some k.
Proof.
  intros H. rewrite (nth_error_nth' _ 0) by (rewrite zrange_length; lia).
  rewrite zrange_nth by lia. f_equal. lia.
Qed.

Lemma insert_at_nth {A} n (x : A) l d : (n <= length l)%nat -> nth n (insert_at n x l) d = x.
Proof.
  intros H. unfold insert_at. rewrite app_nth2 by (rewrite firstn_length; lia).
  rewrite firstn_length, Nat.min_l, Nat.sub_diag by lia. reflexivity.
Qed.

Lemma axis_expr_ok n rep v a i :
  valid_view n v -> is_axis a (length (v_dims v)) i ->
  (0 < nth i (v_dims v) 0 -> fits (remove_at i (v_dims v))) ->
  exists e ws, e_axis rep v a = Ok e /\ e_dims e = [nth i (v_dims v) 0] /\ e_rep e = rep /\
    e_collect e = Ok ws /\ Z.of_nat (length ws) = nth i (v_dims v) 0 /\
    (exists it it', it_nexts (length ws) (it_new e) = Ok (map Some ws, it) /\ it_next it = Ok (None, it')) /\
    (forall k, 0 <= k < nth i (v_dims v) 0 ->
       exists w, nth_error ws (Z.to_nat k) = Some w /\ v_axis_at v a k = Ok w /\
         v_dims w = remove_at i (v_dims v) /\ valid_view n w /\ shows v w (insert_at i k)) /\
    (forall k1 k2 w1 w2 j1 j2, k1 <> k2 ->
       nth_error ws k1 = Some w1 -> nth_error ws k2 = Some w2 ->
       in_bounds (v_dims w1) j1 -> in_bounds (v_dims w2) j2 -> v_addr w1 j1 <> v_addr w2 j2).
Proof.
  intros Hv HA Hfit. pose proof (vv_wf Hv) as Hw.
  assert (Hi : (i < length (v_dims v))%nat) by apply HA.
  assert (Hd0 : 0 <= nth i (v_dims v) 0).
  { pose proof (wf_nonneg Hw) as H. unfold nonneg in H. rewrite Forall_forall in H. apply H, nth_In, Hi. }
  destruct (axis_ok rep Hw HA Hfit) as (e & E & Ety & Ed & Ei & Er & HC).
  set (d := nth i (v_dims v) 0) in *.
  assert (HO : outer_rank e = 0%nat).
  { unfold outer_rank, e_rank. rewrite Ei, Ed. reflexivity. }
  set (ws := map (axis_item v a) (zrange d)).
  assert (EW : map (fun idx => axis_item v a (nth 0 idx 0)) (indices (e_dims e)) = ws).
  { rewrite Ed, indices_one, map_map. reflexivity. }
  assert (HLw : length ws = Z.to_nat d) by (unfold ws; now rewrite map_length, zrange_length).
  assert (ITEM : forall k, 0 <= k < d -> exists w, nth_error ws (Z.to_nat k) = Some w /\ v_axis_at v a k = Ok w /\
         v_dims w = remove_at i (v_dims v) /\ valid_view n w /\ shows v w (insert_at i k)).
  { intros k Hk. destruct (v_axis_at_ok Hw HA Hk) as (w & Ew & Hd & _ & _ & Hww & HS).
    exists w. split; [|split; [exact Ew|split; [exact Hd|split; [|exact HS]]]].
    - unfold ws. rewrite nth_error_map, nth_error_zrange by auto. cbn. unfold axis_item. now rewrite Ew.
    - exact (v_axis_at_valid Hv HA Hk Ew). }
  exists e, ws. split; [exact E|]. split; [exact Ed|]. split; [exact Er|]. split.
  { rewrite <- EW. eapply computes_collect; [exact HC|lia|]. left. rewrite HO. constructor. }
  split; [lia|]. split.
  { assert (EP : prodZ (e_dims e) = d) by (rewrite Ed; cbn; lia).
    destruct (computes_nexts HC (n := Z.to_nat d) ltac:(lia)) as (it & H1 & _ & _ & H4).
    - left. exact HO.
    - rewrite EP. lia.
    - rewrite EP in H4. destruct (H4 eq_refl) as (it' & H5 & _). exists it, it'. split; auto.
      rewrite HLw, H1. rewrite firstn_all2, EW; auto.
      rewrite Ed, indices_one, map_length, zrange_length. lia. }
  split; [exact ITEM|].
  intros k1 k2 w1 w2 j1 j2 NE E1 E2 B1 B2 EA.
  assert (R1 : (k1 < length ws)%nat) by (apply nth_error_Some; congruence).
  assert (R2 : (k2 < length ws)%nat) by (apply nth_error_Some; congruence).
  destruct (ITEM (Z.of_nat k1)) as (w1' & F1 & _ & D1 & _ & S1); [lia|].
  destruct (ITEM (Z.of_nat k2)) as (w2' & F2 & _ & D2 & _ & S2); [lia|].
  rewrite Nat2Z.id in F1, F2. assert (w1' = w1) as -> by congruence. assert (w2' = w2) as -> by congruence.
  destruct (S1 j1 B1) as [I1 A1]. destruct (S2 j2 B2) as [I2 A2].
  assert (EI : insert_at i (Z.of_nat k1) j1 = insert_at i (Z.of_nat k2) j2).
  { apply (vv_inj Hv); auto. congruence. }
  apply in_bounds_length in B1, B2. rewrite D1, remove_at_length in B1 by auto. rewrite D2, remove_at_length in B2 by auto.
  apply (f_equal (fun l => nth i l 0)) in EI. rewrite !insert_at_nth in EI by lia. lia.
Qed.

(** ** lanes *)
Lemma lanes_inner_ok m : m_layout m = Dense \/ (m_rank m <= 1)%nat ->
  match map_inner_rank m with None => 0%nat | Some k => (m_rank m - k)%nat end = 0%nat.
Proof.
  unfold map_inner_rank. intros H. destruct (m_layout m).
  - destruct (sh_rank (m_ty m)) as [[|k]|]; auto; lia.
  - destruct H as [H|H]; [discriminate|]. destruct (Nat.ltb_spec 0 (m_rank m)); lia.
Qed.

Lemma lanes_expr_ok n rep v a i :
  valid_view n v -> is_axis a (length (v_dims v)) i -> fits (remove_at i (v_dims v)) ->
  ax_split a (v_ty v) (v_layout v) = Dense \/ (length (v_dims v) <= 2)%nat ->
  exists e ws, e_lanes rep v a = Ok e /\ e_dims e = remove_at i (v_dims v) /\ e_rep e = rep /\
    e_collect e = Ok ws /\ length ws = length (indices (remove_at i (v_dims v))) /\
    (exists it it', it_nexts (length ws) (it_new e) = Ok (map Some ws, it) /\ it_next it = Ok (None, it')) /\
    (forall idx, in_bounds (remove_at i (v_dims v)) idx ->
       exists w, nth_error ws (Z.to_nat (flat (remove_at i (v_dims v)) idx)) = Some w /\
         v_dims w = [nth i (v_dims v) 0] /\ valid_view n w /\
         shows v w (fun j => insert_at i (nth 0 j 0) idx)) /\
    (forall k1 k2 w1 w2 j1 j2, k1 <> k2 ->
       nth_error ws k1 = Some w1 -> nth_error ws k2 = Some w2 ->
       in_bounds (v_dims w1) j1 -> in_bounds (v_dims w2) j2 -> v_addr w1 j1 <> v_addr w2 j2).
Proof.
  intros Hv HA Hfit HC0. pose proof (vv_wf Hv) as Hw.
  assert (Hi : (i < length (v_dims v))%nat) by apply HA.
  destruct (lanes_ok rep Hw HA Hfit) as (m & e & Em & E & Ety & Ed & Ei & Hl & Hdm & Htm & Er & HC).
  assert (Hnn : nonneg (remove_at i (v_dims v))) by (rewrite <- Ed; apply HC).
  assert (HO : outer_rank e = 0%nat).
  { unfold outer_rank, e_rank. rewrite Ei, Ed, <- Hdm. apply lanes_inner_ok. rewrite Hl. destruct HC0 as [H|H]; auto.
    right. unfold m_rank. rewrite Hdm, remove_at_length by auto. lia. }
  set (R := remove_at i (v_dims v)) in *.
  set (ws := map (lane_item v a i) (indices R)).
  assert (ITEM : forall idx, in_bounds R idx ->
       exists w, nth_error ws (Z.to_nat (flat R idx)) = Some w /\
         v_dims w = [nth i (v_dims v) 0] /\ valid_view n w /\
         shows v w (fun j => insert_at i (nth 0 j 0) idx)).
  { intros idx B. pose proof (lane_item_ok Hw HA B) as G. cbv zeta in G.
    destruct G as (G1 & G2 & G3 & G4 & G5). exists (lane_item v a i idx).
    split; [|split; [exact G1|split; [|exact G5]]].
    - unfold ws. rewrite nth_error_map. pose proof (flat_bounds B).
      rewrite (nth_error_nth' _ []) by (rewrite indices_length by auto; lia).
      rewrite indices_nth by (auto; lia). rewrite Z2Nat.id by lia. rewrite unflat_flat by auto. reflexivity.
    - apply (shows_valid Hv G4 G5). intros j1 j2 B1 B2 EE. rewrite G1 in B1, B2.
      inversion B1 as [|? x ? ? Hx Hx2]; subst. inversion Hx2; subst.
      inversion B2 as [|? y ? ? Hy Hy2]; subst. inversion Hy2; subst. cbn [nth] in EE.
      apply (f_equal (fun l => nth i l 0)) in EE.
      apply in_bounds_length in B. unfold R in B. rewrite remove_at_length in B by auto.
      rewrite !insert_at_nth in EE by lia. now subst. }
  exists e, ws. split; [exact E|]. split; [exact Ed|]. split; [exact Er|]. split.
  { unfold ws. rewrite <- Ed. eapply computes_collect; [exact HC| |].
    - rewrite HO. unfold e_rank. rewrite Ed. lia.
    - left. rewrite HO. constructor. }
  split; [unfold ws; now rewrite map_length|]. split.
  { destruct (computes_nexts HC (n := length ws)) as (it & H1 & _ & _ & H4).
    - rewrite HO. unfold e_rank. rewrite Ed. lia.
    - left. exact HO.
    - unfold ws. rewrite Ed, map_length, indices_length by auto. lia.
    - destruct H4 as (it' & H5 & _).
      { unfold ws. rewrite Ed, map_length, indices_length by auto. lia. }
      exists it, it'. split; auto. rewrite H1. rewrite Ed, firstn_all2; auto. unfold ws. now rewrite map_length. }
  split; [exact ITEM|].
  intros k1 k2 w1 w2 j1 j2 NE E1 E2 B1 B2 EA.
  assert (R1 : (k1 < length ws)%nat) by (apply nth_error_Some; congruence).
  assert (R2 : (k2 < length ws)%nat) by (apply nth_error_Some; congruence).
  unfold ws in R1, R2. rewrite map_length, indices_length in R1, R2 by auto.
  assert (UB1 : forall k, (k < Z.to_nat (prodZ R))%nat -> in_bounds R (unflat R (Z.of_nat k)) /\ flat R (unflat R (Z.of_nat k)) = Z.of_nat k).
  { intros k Hk. split; [apply unflat_in_bounds; auto; lia|apply flat_unflat; auto; lia]. }
  destruct (UB1 k1 R1) as [U1 U1']. destruct (UB1 k2 R2) as [U2 U2'].
  destruct (ITEM _ U1) as (w1' & F1 & D1 & _ & S1).
  destruct (ITEM _ U2) as (w2' & F2 & D2 & _ & S2).
  rewrite U1', Nat2Z.id in F1. rewrite U2', Nat2Z.id in F2.
  assert (w1' = w1) as -> by congruence. assert (w2' = w2) as -> by congruence.
  destruct (S1 j1 B1) as [I1 A1]. destruct (S2 j2 B2) as [I2 A2].
  assert (EI : insert_at i (nth 0 j1 0) (unflat R (Z.of_nat k1)) = insert_at i (nth 0 j2 0) (unflat R (Z.of_nat k2))).
  { apply (vv_inj Hv); auto. congruence. }
  apply (f_equal (remove_at i)) in EI.
  apply in_bounds_length in U1, U2. unfold R in U1, U2. rewrite remove_at_length in U1, U2 by auto. fold R in U1, U2.
  rewrite !remove_insert in EI by lia.
  apply (f_equal (flat R)) in EI. rewrite U1', U2' in EI. lia.
Qed.

(** ** Writing *)

(** The values written in order. *)
Fixpoint store {T : Type} (addrs : list Z) (xs mem : list T) : list T :=
  match addrs, xs with
  | a :: at', x :: xt => store at' xt (upd mem (Z.to_nat a) x)
  | _, _ => mem
  end.

Lemma store_length {T} addrs (xs mem : list T) : length (store addrs xs mem) = length mem.
Proof.
  revert xs mem. induction addrs as [|a l IH]; intros [|x xs] mem; cbn; auto. now rewrite IH, upd_length.
Qed.

Lemma nth_error_upd_same {T} (l : list T) i x : (i < length l)%nat -> nth_error (upd l i x) i = Some x.
Proof. revert i. induction l; intros [|i] H; cbn in *; try lia; auto. apply IHl. lia. Qed.

Lemma nth_error_upd_other {T} (l : list T) i j x : i <> j -> nth_error (upd l i x) j = nth_error l j.
Proof. revert i j. induction l; intros [|i] [|j] H; cbn in *; try lia; auto. Qed.

Lemma store_out {T} addrs (xs mem : list T) a :
  (forall b, In b addrs -> Z.to_nat b <> a) -> nth_error (store addrs xs mem) a = nth_error mem a.
Proof.
  revert xs mem. induction addrs as [|b l IH]; intros [|x xs] mem H; cbn; auto.
  rewrite IH by (intros; apply H; now right). apply nth_error_upd_other. apply H. now left.
Qed.

Lemma store_in {T} addrs (xs mem : list T) k a :
  NoDup (map Z.to_nat addrs) -> length xs = length addrs ->
  (forall b, In b addrs -> 0 <= b < Z.of_nat (length mem)) ->
  nth_error addrs k = Some a ->
  nth_error (store addrs xs mem) (Z.to_nat a) = nth_error xs k /\ nth_error xs k <> None.
Proof.
  revert xs mem k. induction addrs as [|b l IH]; intros [|x xs] mem [|k] ND HL HR E; cbn in *; try discriminate.
  - injection E as ->. inversion ND as [|? ? NI ND']; subst. split; [|discriminate].
    rewrite store_out.
    + apply nth_error_upd_same. pose proof (HR a (or_introl eq_refl)). lia.
    + intros c Hc EE. apply NI. rewrite <- EE. now apply in_map.
  - inversion ND; subst. apply IH; auto.
    intros c Hc. rewrite upd_length. apply HR. now right.
Qed.

Lemma NoDup_map_inj {A B} (f : A -> B) l :
  (forall x y, In x l -> In y l -> f x = f y -> x = y) -> NoDup l -> NoDup (map f l).
Proof.
  intros H ND. induction ND as [|x l NI ND IH]; cbn; constructor.
  - intros HI. apply in_map_iff in HI as (y & E & Hy). apply NI. rewrite <- (H y x); auto; [now right|now left].
  - apply IH. intros; apply H; auto; now right.
Qed.

Lemma store_stored {T} n v (xs mem : list T) :
  valid_view n v -> n = Z.of_nat (length mem) -> length xs = length (indices (v_dims v)) ->
  stored (v_dims v) (v_addr v) xs mem (store (map (v_addr v) (indices (v_dims v))) xs mem).
Proof.
  intros Hv -> HL. pose proof (wf_nonneg (vv_wf Hv)) as Hn.
  assert (ND : NoDup (map Z.to_nat (map (v_addr v) (indices (v_dims v))))).
  { rewrite map_map. apply NoDup_map_inj; [|now apply indices_NoDup].
    intros x y Hx Hy E. apply in_indices in Hx, Hy.
    pose proof (vv_range Hv Hx). pose proof (vv_range Hv Hy). apply (vv_inj Hv); auto. lia. }
  split; [apply store_length|]. split.
  - intros idx B. pose proof (flat_bounds B) as FB.
    destruct (@store_in T (map (v_addr v) (indices (v_dims v))) xs mem (Z.to_nat (flat (v_dims v) idx)) (v_addr v idx)) as [H1 H2]; auto.
    + now rewrite map_length.
    + intros b Hb. apply in_map_iff in Hb as (j & <- & Hj). apply in_indices in Hj. now apply (vv_range Hv).
    + rewrite nth_error_map. rewrite (nth_error_nth' _ []) by (rewrite indices_length by auto; lia).
      rewrite indices_nth by (auto; lia). rewrite Z2Nat.id by lia. rewrite unflat_flat by auto. reflexivity.
    + rewrite H1. auto.
  - intros a Ha. apply store_out. intros b Hb. apply in_map_iff in Hb as (j & <- & Hj).
    apply in_indices in Hj. now apply Ha.
Qed.

(** The item of an operand of rank [r] at an index of the whole. *)
Definition bcast {A S} (r : nat) (act : action A S) : action A S := fun idx s => act (lastn r idx) s.

Lemma items_length {A S} (act : action A S) l s xs s' : items act l s = Ok (xs, s') -> length xs = length l.
Proof.
  revert s xs s'. induction l as [|x l IH]; intros s xs s' H; cbn in H.
  - injection H as <- <-. reflexivity.
  - destruct (act x s) as [[a s1]| | |]; try discriminate. cbn [bind] in H.
    destruct (items act l s1) as [[t s2]| | |] eqn:E; try discriminate. cbn in H.
    injection H as <- <-. cbn. f_equal. eauto.
Qed.

Section Write.
  Context {T Y C S : Type} (cl : Y -> C -> outcome (T * C)) (v : view) (act : action Y S) (rv r : nat).
  Let n := fun mem : list T => Z.of_nat (length mem).
  Let f := fun (s : list T * C) (p : Z * Y) =>
             let* (x, c) := cl (snd p) (snd s) in
             let* mem := write (fst s) (fst p) x in Ok (mem, c).

  Lemma run_write l s mem c :
    (forall idx, In idx l -> lastn rv idx = idx /\ 0 <= v_addr v idx < n mem) ->
    run (zip_action rv r (pure_action (v_addr v)) act) f l (tt, s) (mem, c) =
      let* (xs, s') := items (map_action cl (bcast r act)) l (s, c) in
      Ok ((tt, fst s'), (store (map (v_addr v) l) xs mem, snd s')).
  Proof.
    revert s mem c. induction l as [|idx l IH]; intros s mem c H; [reflexivity|].
    cbn [run items map]. unfold zip_action at 1, map_action at 1, bcast at 1. cbn [fst snd].
    destruct (H idx (or_introl eq_refl)) as [E1 E2]. unfold pure_action at 1. cbn [bind]. rewrite E1.
    destruct (act (lastn r idx) s) as [[y s1]| | |]; cbn [bind]; auto.
    unfold f at 1. cbn [fst snd].
    destruct (cl y c) as [[x c1]| | |]; cbn [bind]; auto.
    unfold write. unfold n in E2.
    destruct (Z.leb_spec 0 (v_addr v idx)); [|lia].
    destruct (Z.ltb_spec (v_addr v idx) (Z.of_nat (length mem))); [|lia]. cbn [andb bind].
    rewrite IH.
    - destruct (items _ l (s1, c1)) as [[xs s2]| | |]; cbn [bind store]; auto.
    - intros j Hj. destruct (H j (or_intror Hj)). unfold n. rewrite upd_length. auto.
  Qed.
End Write.

Lemma lastn_bounds dims idx : in_bounds dims idx -> lastn (length dims) idx = idx.
Proof. intros H. apply lastn_all. apply in_bounds_length in H. lia. Qed.

(** What is visited when the elements of [v] are paired with those of a source tree. *)
Definition with_target {Y} (n : Z) (v : view) (t : tree Y) : tree (Z * Y) := TZip (TView n false v) t.

Lemma assign_eq {T Y C} (cl : Y -> C -> outcome (T * C)) v (t : tree Y) e mem c :
  let n := Z.of_nat (length mem) in
  valid_view n v -> t_leaves t -> t_build t = Ok e ->
  trailing_eq (v_dims v) (t_dims t) -> (length (t_dims t) <= length (v_dims v))%nat ->
  (t_rep t = true \/ length (t_dims t) = length (v_dims v)) ->
  t_fine (with_target n v t) ->
  v_assign cl v e mem c =
    let* (xs, s) := items (map_action cl (bcast (length (t_dims t)) (t_act t))) (indices (v_dims v)) (t_init t, c) in
    Ok (store (map (v_addr v) (indices (v_dims v))) xs mem, snd s).
Proof.
  intros n Hv HL HB HT HR HP HF.
  assert (HZ : t_zips t).
  { destruct (build_cases HL) as [[H _]|[_ H]]; auto. congruence. }
  assert (HLZ : t_leaves (with_target n v t)) by (split; auto).
  assert (HZZ : t_zips (with_target n v t)).
  { split; [exact I|]. split; auto. split; [exact HT|]. split; [right; exact HR|].
    destruct HP as [H|H]; auto. right. cbn [t_dims]. lia. }
  destruct (build_ok HLZ HZZ) as (z & Ez & Bz). unfold with_target in Ez. cbn [t_build bind] in Ez.
  rewrite HB in Ez. cbn [bind] in Ez.
  unfold v_assign. fold n. rewrite Ez. cbn [bind].
  rewrite (tree_fold _ _ Bz HF). cbn [with_target t_act t_init t_dims].
  assert (ED : longer (v_dims v) (t_dims t) = v_dims v).
  { unfold longer. destruct (Nat.ltb_spec (length (v_dims v)) (length (t_dims t))); [lia|reflexivity]. }
  rewrite ED. unfold run_value.
  assert (W := @run_write T Y C _ cl v (t_act t) (length (v_dims v)) (length (t_dims t))
                 (indices (v_dims v)) (t_init t) mem c).
  etransitivity; [eapply (f_equal (fun o => let* (_, t') := o in Ok t')); apply W|].
  - intros idx Hi. apply in_indices in Hi. split; [now apply lastn_bounds|now apply (vv_range Hv)].
  - destruct (items _ _ _) as [[xs s]| | |]; reflexivity.
Qed.

Lemma assign_ok {T Y C} (cl : Y -> C -> outcome (T * C)) v (t : tree Y) e mem c :
  let n := Z.of_nat (length mem) in
  valid_view n v -> t_leaves t -> t_build t = Ok e ->
  trailing_eq (v_dims v) (t_dims t) -> (length (t_dims t) <= length (v_dims v))%nat ->
  (t_rep t = true \/ length (t_dims t) = length (v_dims v)) ->
  t_fine (with_target n v t) ->
  match items (map_action cl (bcast (length (t_dims t)) (t_act t))) (indices (v_dims v)) (t_init t, c) with
  | Ok (xs, s) => exists mem', v_assign cl v e mem c = Ok (mem', snd s) /\
                    stored (v_dims v) (v_addr v) xs mem mem'
  | Panic => v_assign cl v e mem c = Panic
  | UB => v_assign cl v e mem c = UB
  | NoFuel => v_assign cl v e mem c = NoFuel
  end.
Proof.
  intros n Hv HL HB HT HR HP HF. pose proof (assign_eq cl c Hv HL HB HT HR HP HF) as E.
  destruct (items _ _ _) as [[xs s]| | |] eqn:EI; cbn [bind] in E; auto.
  eexists. split; [exact E|]. apply (store_stored Hv eq_refl). apply (items_length EI).
Qed.

Lemma assign_panic {T Y C} (cl : Y -> C -> outcome (T * C)) v (t : tree Y) e mem c :
  valid_view (Z.of_nat (length mem)) v -> t_leaves t -> t_build t = Ok e ->
  ~ (trailing_eq (v_dims v) (t_dims t) /\ (length (t_dims t) <= length (v_dims v))%nat /\
     (t_rep t = true \/ length (t_dims t) = length (v_dims v))) ->
  v_assign cl v e mem c = Panic.
Proof.
  intros Hv HL HB HN. destruct (build_cases HL) as [(HZ & e' & E' & B)|[_ H]]; [|congruence].
  assert (e' = e) by congruence. subst e'. clear E'.
  unfold v_assign. set (n := Z.of_nat (length mem)) in *.
  destruct (@zip_cases _ _ (e_view n false v) e (wf_typed (vv_wf Hv)) (bu_ty B)) as [((H1 & H2 & H3) & _)|[_ ->]]; [|reflexivity].
  exfalso. apply HN. unfold e_rank in *. cbn [e_view e_dims e_rep] in *. rewrite (bu_dims B), (bu_rep B) in *.
  destruct H2 as [H2|H2]; [discriminate|]. repeat split; auto. destruct H3; auto. right. lia.
Qed.

(** [fill] and [fill_with]. *)
Lemma fill_with_ok {T C} (f : C -> outcome (T * C)) v mem c :
  valid_view (Z.of_nat (length mem)) v -> view_fine v ->
  match items (call_action f) (indices (v_dims v)) c with
  | Ok (xs, s) => exists mem', v_fill_with f v mem c = Ok (mem', s) /\
                    stored (v_dims v) (v_addr v) xs mem mem'
  | Panic => v_fill_with f v mem c = Panic
  | UB => v_fill_with f v mem c = UB
  | NoFuel => v_fill_with f v mem c = NoFuel
  end.
Proof.
  intros Hv HF. unfold v_fill_with. rewrite (view_fold _ _ _ Hv HF).
  assert (G : forall l m c, (forall idx, In idx l -> 0 <= v_addr v idx < Z.of_nat (length m)) ->
    foldM (fun s a => let* (x, c) := f (snd s) in let* mem := write (fst s) a x in Ok (mem, c))
      (map (v_addr v) l) (m, c) =
    let* (xs, s) := items (call_action f) l c in Ok (store (map (v_addr v) l) xs m, s)).
  { induction l as [|idx l IH]; intros m c0 H; [reflexivity|]. cbn [map foldM items fst snd].
    unfold call_action at 1. destruct (f c0) as [[x c1]| | |]; cbn [bind]; auto.
    pose proof (H idx (or_introl eq_refl)) as R0. unfold write at 1.
    destruct (Z.leb_spec 0 (v_addr v idx)); [|lia].
    destruct (Z.ltb_spec (v_addr v idx) (Z.of_nat (length m))); [|lia]. cbn [andb bind].
    rewrite IH.
    - destruct (items _ l c1) as [[xs s2]| | |]; cbn [bind store]; auto.
    - intros j Hj. rewrite upd_length. apply H. now right. }
  rewrite G.
  - destruct (items _ _ _) as [[xs s]| | |] eqn:EI; cbn [bind]; auto.
    eexists. split; [reflexivity|]. apply (store_stored Hv eq_refl). apply (items_length EI).
  - intros idx Hi. apply in_indices in Hi. now apply (vv_range Hv).
Qed.

(** ** The guards on empty arrays are needed *)
Lemma inner_loop_extends {A} (e : expression A) n i st acc st' r :
  inner_loop e (fun l a => Ok (a :: l)) n i st acc = Ok (st', r) ->
  exists l, r = l ++ acc /\ length l = n.
Proof.
  revert i st acc. induction n as [|n IH]; intros i st acc H; cbn [inner_loop] in H.
  - injection H as <- <-. now exists [].
  - destruct (e_get e i st) as [[a s1]| | |]; try discriminate. cbn [bind] in H.
    destruct (IH _ _ _ H) as (l & -> & HL). exists (l ++ [a]). rewrite <- app_assoc, app_length. cbn. split; auto. lia.
Qed.

Lemma fold_loop_extends {A} (e : expression A) fuel (it : iter e) acc r :
  fold_loop (fun l a => Ok (a :: l)) fuel it acc = Ok r ->
  exists l, r = l ++ acc /\ (Z.to_nat (it_limit it - it_index it) <= length l)%nat.
Proof.
  revert it acc. induction fuel as [|fuel IH]; intros it acc H; cbn [fold_loop] in H; [discriminate|].
  destruct (inner_loop _ _ _ _ _ _) as [[st a1]| | |] eqn:E; try discriminate. cbn [bind] in H.
  destruct (inner_loop_extends E) as (l & -> & HL).
  destruct (step_outer _) as [[b it']| | |]; try discriminate. cbn [bind] in H. destruct b.
  - destruct (IH _ _ H) as (l' & -> & _). exists (l' ++ l). rewrite <- app_assoc, app_length. split; auto. lia.
  - injection H as <-. exists l. split; auto. lia.
Qed.

Lemma collect_empty {A} (e : expression A) :
  nonneg (e_dims e) -> e_collect e = Ok [] -> prodZ (skipn (outer_rank e) (e_dims e)) = 0.
Proof.
  intros Hn H. unfold e_collect, e_fold, it_fold in H.
  destruct (fold_loop _ _ _ _) as [l| | |] eqn:E; try discriminate. cbn [bind] in H.
  destruct (fold_loop_extends E) as (l' & El & HL). rewrite app_nil_r in El. subst l'.
  assert (l = []). { injection H as H. apply (f_equal (@rev _)) in H. now rewrite rev_involutive in H. }
  subst l. cbn [it_new it_limit it_index length] in HL.
  rewrite fold_mul_prod in HL.
  pose proof (prodZ_nonneg (nonneg_skipn (outer_rank e) Hn)). lia.
Qed.

(** Internal iteration of a view is right exactly for these shapes. *)
Lemma view_collect_iff n rep v :
  valid_view n v ->
  (e_collect (e_view n rep v) = Ok (map (v_addr v) (indices (v_dims v))) <-> view_fine v).
Proof.
  intros Hv. split; [|now apply view_collect]. intros H.
  pose proof (wf_nonneg (vv_wf Hv)) as Hn.
  destruct (Z.eq_dec (prodZ (v_dims v)) 0) as [HZ|HZ].
  - assert (E0 : indices (v_dims v) = []).
    { apply length_zero_iff_nil. rewrite indices_length by auto. lia. }
    rewrite E0 in H. cbn [map] in H. apply collect_empty in H; [|exact Hn].
    rewrite view_outer in H. cbn [e_view e_dims] in H.
    destruct (v_layout v) eqn:EL; [left; auto|]. right. right.
    destruct (v_dims v) as [|d ds _] eqn:E using rev_ind; [cbn in HZ; lia|].
    rewrite app_length in H. cbn [length] in H. replace (length ds + 1 - 1)%nat with (length ds) in H by lia.
    rewrite skipn_app, skipn_all, Nat.sub_diag in H. cbn in H. rewrite last_last. lia.
  - right. left. assert (HP : positive (v_dims v)).
    { apply prodZ_pos_inv; auto. pose proof (prodZ_nonneg Hn). unfold v_dims in *. lia. }
    destruct (v_dims v) as [|d ds _] eqn:E using rev_ind; [constructor|].
    rewrite removelast_last. apply Forall_app in HP. apply HP.
Qed.

(** ** Fused iteration *)
Lemma it_nexts_app {A} (e : expression A) a b (it : iter e) :
  it_nexts (a + b) it = let* (l, it) := it_nexts a it in let* (l', it) := it_nexts b it in Ok (l ++ l', it).
Proof.
  revert it. induction a as [|a IH]; intros it; cbn [Nat.add it_nexts].
  - cbn [bind]. destruct (it_nexts b it) as [[l' it']| | |]; reflexivity.
  - destruct (it_next it) as [[x it1]| | |]; cbn [bind]; auto. rewrite IH.
    destruct (it_nexts a it1) as [[l it2]| | |]; cbn [bind]; auto.
    destruct (it_nexts b it2) as [[l' it3]| | |]; reflexivity.
Qed.

Lemma view_fused n rep v m :
  valid_view n v -> v_layout v = Dense \/ (length (v_dims v) <= 1)%nat ->
  let len := Z.to_nat (prodZ (v_dims v)) in
  exists it, it_nexts (len + m) (it_new (e_view n rep v)) =
    Ok (map Some (map (v_addr v) (indices (v_dims v))) ++ repeat None m, it) /\ it_size it = 0.
Proof.
  intros Hv HF len.
  destruct (@view_nexts n rep v len Hv) as (it & E & HS & _ & HN).
  { destruct HF; [now left|right; now left]. }
  { lia. }
  pose proof (wf_nonneg (vv_wf Hv)) as Hn. pose proof (prodZ_nonneg Hn).
  rewrite firstn_all2 in E by (rewrite indices_length by exact Hn; unfold len, v_dims; lia).
  destruct (HN eq_refl) as (it' & E' & HM). specialize (HM HF).
  rewrite it_nexts_app, E. cbn [bind]. destruct m as [|m].
  - exists it. cbn. split; auto. rewrite HS. unfold len, v_dims in *. lia.
  - destruct (HM m) as (it2 & E2 & S2). exists it2. cbn [it_nexts]. rewrite E'. cbn [bind]. rewrite E2. cbn.
    split; auto.
Qed.

(** ** Items of adapters, as lists *)
Lemma items_map {A B S F} (f : A -> F -> outcome (B * F)) (act : action A S) l s f0 xs s' :
  items act l s = Ok (xs, s') ->
  items (map_action f act) l (s, f0) = let* (ys, f') := traverse f xs f0 in Ok (ys, (s', f')).
Proof.
  revert s f0 xs s'. induction l as [|idx l IH]; intros s f0 xs s' H; cbn [items] in *.
  - injection H as <- <-. reflexivity.
  - unfold map_action at 1. cbn [fst snd]. destruct (act idx s) as [[a s1]| | |]; try discriminate. cbn [bind] in *.
    destruct (items act l s1) as [[t s2]| | |] eqn:E; try discriminate. cbn [bind] in H. injection H as <- <-.
    cbn [traverse]. destruct (f a f0) as [[b f1]| | |]; cbn [bind]; auto.
    rewrite (IH _ _ _ _ E). destruct (traverse f t f1) as [[ys f2]| | |]; reflexivity.
Qed.

Lemma items_fun {A B S} (f : A -> outcome B) (act : action A S) l s xs s' :
  items act l s = Ok (xs, s') ->
  items (fun_action f act) l s =
    let* (ys, _) := traverse (fun a (_ : unit) => let* b := f a in Ok (b, tt)) xs tt in Ok (ys, s').
Proof.
  revert s xs s'. induction l as [|idx l IH]; intros s xs s' H; cbn [items] in *.
  - injection H as <- <-. reflexivity.
  - unfold fun_action at 1. cbn [fst snd]. destruct (act idx s) as [[a s1]| | |]; try discriminate. cbn [bind] in *.
    destruct (items act l s1) as [[t s2]| | |] eqn:E; try discriminate. cbn [bind] in H. injection H as <- <-.
    cbn [traverse]. destruct (f a) as [b| | |]; cbn [bind]; auto.
    rewrite (IH _ _ _ E). destruct (traverse _ t tt) as [[ys f2]| | |]; reflexivity.
Qed.

Lemma items_enum {A S} (act : action A S) l s k xs s' :
  items act l s = Ok (xs, s') ->
  items (enum_action act) l (s, k) =
    Ok (combine (map (Z.add k) (zrange (Z.of_nat (length xs)))) xs, (s', k + Z.of_nat (length xs))).
Proof.
  revert s k xs s'. induction l as [|idx l IH]; intros s k xs s' H; cbn [items] in *.
  - injection H as <- <-. cbn. now rewrite Z.add_0_r.
  - unfold enum_action at 1. cbn [fst snd]. destruct (act idx s) as [[a s1]| | |]; try discriminate. cbn [bind] in *.
    destruct (items act l s1) as [[t s2]| | |] eqn:E; try discriminate. cbn [bind] in H. injection H as <- <-.
    rewrite (IH _ _ _ _ E). cbn [bind length]. rewrite Nat2Z.inj_succ.
    f_equal. f_equal; [|f_equal; lia].
    unfold zrange. rewrite !Nat2Z.id. rewrite <- Nat2Z.inj_succ, Nat2Z.id. cbn [seq map combine]. f_equal; [f_equal; lia|].
    f_equal. rewrite <- seq_shift, !map_map. apply map_ext. intros; lia.
Qed.

Lemma items_call {A F} (f : F -> outcome (A * F)) l s :
  items (call_action f) l s = traverse (fun _ s => f s) l s.
Proof.
  revert s. induction l as [|idx l IH]; intros s; cbn [items traverse]; auto.
  unfold call_action at 1. destruct (f s) as [[a s1]| | |]; cbn [bind]; auto. now rewrite IH.
Qed.

Lemma items_index {A F} (f : list Z -> F -> outcome (A * F)) l s :
  items (index_action f) l s = traverse f l s.
Proof.
  revert s. induction l as [|idx l IH]; intros s; cbn [items traverse]; auto.
  unfold index_action at 1. destruct (f idx s) as [[a s1]| | |]; cbn [bind]; auto. now rewrite IH.
Qed.

Lemma items_zip {A B S S'} ra rb (a : action A S) (b : action B S') l sa sb xs sa' ys sb' :
  items a (map (lastn ra) l) sa = Ok (xs, sa') -> items b (map (lastn rb) l) sb = Ok (ys, sb') ->
  items (zip_action ra rb a b) l (sa, sb) = Ok (combine xs ys, (sa', sb')).
Proof.
  revert sa sb xs ys sa' sb'. induction l as [|idx l IH]; intros sa sb xs ys sa' sb' Ha Hb; cbn [items map] in *.
  - injection Ha as <- <-. injection Hb as <- <-. reflexivity.
  - unfold zip_action at 1. cbn [fst snd].
    destruct (a (lastn ra idx) sa) as [[x s1]| | |]; try discriminate. cbn [bind] in *.
    destruct (items a (map (lastn ra) l) s1) as [[t s2]| | |] eqn:Ea; try discriminate. cbn [bind] in Ha. injection Ha as <- <-.
    destruct (b (lastn rb idx) sb) as [[y s1']| | |]; try discriminate. cbn [bind] in *.
    destruct (items b (map (lastn rb) l) s1') as [[t' s2']| | |] eqn:Eb; try discriminate. cbn [bind] in Hb. injection Hb as <- <-.
    rewrite (IH _ _ _ _ _ _ Ea Eb). reflexivity.
Qed.

Lemma list_action_items {A} dims (l : list A) :
  nonneg dims -> Z.of_nat (length l) = prodZ dims -> items (list_action dims l) (indices dims) tt = Ok (l, tt).
Proof.
  intros Hn HL.
  assert (G : forall ks, (forall k, In k ks -> 0 <= k < prodZ dims) -> forall xs,
    map (fun k => nth_error l (Z.to_nat k)) ks = map Some xs ->
    items (list_action dims l) (map (unflat dims) ks) tt = Ok (xs, tt)).
  { induction ks as [|k ks IH]; intros Hk xs E; destruct xs as [|x xs]; try discriminate; [reflexivity|].
    cbn [map items] in *. injection E as E1 E2. unfold list_action at 1.
    rewrite flat_unflat by (auto; apply Hk; now left). rewrite E1. cbn [bind].
    rewrite (IH (fun k H => Hk k (or_intror H)) _ E2). reflexivity. }
  assert (EI : indices dims = map (unflat dims) (zrange (prodZ dims))).
  { pose proof (flat_bijection Hn) as (_ & _ & _ & E). rewrite <- E, map_map.
    rewrite <- (map_id (indices dims)) at 1. apply map_ext_in. intros idx Hi. apply in_indices in Hi.
    symmetry. now apply unflat_flat. }
  rewrite EI. apply G.
  - intros k Hk. now apply in_zrange in Hk.
  - rewrite <- HL. clear. unfold zrange. rewrite Nat2Z.id, map_map.
    rewrite (map_ext _ (fun k => nth_error l k)) by (intros; now rewrite Nat2Z.id).
    induction l as [|x l IH]; [reflexivity|]. cbn [length seq map]. f_equal. rewrite <- seq_shift, map_map. exact IH.
Qed.

Lemma build_built {A} (t : tree A) e : t_leaves t -> t_build t = Ok e -> built t e.
Proof.
  intros HL E. destruct (build_cases HL) as [(_ & e' & E' & B)|[_ E']]; [|congruence].
  assert (e' = e) by congruence. now subst.
Qed.

Lemma tree_fold_built {A T} (t : tree A) e (f : T -> A -> outcome T) acc :
  t_leaves t -> t_build t = Ok e -> t_fine t ->
  e_fold e f acc = run_value (t_act t) f (indices (t_dims t)) (t_init t) acc.
Proof. intros HL E. apply tree_fold. now apply build_built. Qed.

Lemma tree_next_built {A} (t : tree A) e n xs s :
  t_leaves t -> t_build t = Ok e -> t_next_fine t -> (n <= Z.to_nat (prodZ (t_dims t)))%nat ->
  items (t_act t) (firstn n (indices (t_dims t))) (t_init t) = Ok (xs, s) ->
  exists it, it_nexts n (it_new e) = Ok (map Some xs, it) /\
    it_size it = prodZ (t_dims t) - Z.of_nat n /\
    (forall T (f : T -> A -> outcome T) acc,
       it_fold f it acc = run_value (t_act t) f (skipn n (indices (t_dims t))) s acc) /\
    (n = Z.to_nat (prodZ (t_dims t)) ->
       exists it', it_next it = Ok (None, it') /\
         (t_outer t = 0%nat -> forall k, exists it'', it_nexts k it' = Ok (repeat None k, it'') /\ it_size it'' = 0)).
Proof.
  intros HL E HF Hn EI. pose proof (tree_next (build_built HL E) HF Hn) as H. rewrite EI in H.
  destruct (it_nexts n (it_new e)) as [[ys it]| | |]; cbn in H; try contradiction.
  destruct H as (-> & H). exists it. split; auto.
Qed.

Lemma zip_items {A B} (a : tree A) (b : tree B) e xs ys sa sb :
  t_leaves (TZip a b) -> t_build (TZip a b) = Ok e -> t_fine (TZip a b) ->
  items (t_act a) (map (lastn (length (t_dims a))) (indices (longer (t_dims a) (t_dims b)))) (t_init a) = Ok (xs, sa) ->
  items (t_act b) (map (lastn (length (t_dims b))) (indices (longer (t_dims a) (t_dims b)))) (t_init b) = Ok (ys, sb) ->
  e_dims e = longer (t_dims a) (t_dims b) /\ e_collect e = Ok (combine xs ys).
Proof.
  intros HL E HF Ha Hb. pose proof (build_built HL E) as HB. split; [apply (bu_dims HB)|].
  rewrite (tree_collect HB HF). cbn [t_act t_dims t_init].
  pose proof (items_zip Ha Hb) as HZ. cbn [t_state]. rewrite HZ. reflexivity.
Qed.

Lemma from_elem_panics_iff {A F} ty dims (cl : F -> outcome (A * F)) f0 :
  e_from_elem ty dims cl f0 = Panic <-> ~ fits dims.
Proof.
  split; [|apply from_elem_panic]. unfold e_from_elem.
  destruct (sh_checked_len dims) eqn:E; [discriminate|]. intros _ Hf.
  rewrite (checked_len_fits Hf) in E. discriminate.
Qed.

Lemma from_fn_collect {A F} ty dims (f : list Z -> F -> outcome (A * F)) f0 e :
  nonneg dims -> typed ty dims -> (ty = SDynRank -> dims = []) ->
  e_from_fn ty dims f f0 = Ok e -> positive (removelast dims) \/ last dims 1 = 0 ->
  e_dims e = dims /\
  e_collect e = (let* (xs, _) := traverse f (indices dims) f0 in Ok xs).
Proof.
  intros Hn HT Hd E HF.
  assert (Hf : fits dims).
  { unfold e_from_fn in E. destruct (checked_len_cases dims) as [H|H]; auto. rewrite H in E. discriminate. }
  assert (HL : t_leaves (TFromFn ty dims f f0)) by (repeat split; auto).
  assert (HB : built (TFromFn ty dims f f0) e) by (apply build_built; auto).
  split; [apply (bu_dims HB)|]. rewrite (tree_collect HB).
  - cbn [t_act t_dims t_init]. now rewrite items_index.
  - split; [cbn; lia|]. unfold t_outer. cbn [t_inner t_dims].
    destruct dims as [|d ds _] using rev_ind; [left; constructor|].
    rewrite app_length. cbn [length]. destruct (Nat.ltb_spec 0 (length ds + 1)); [|lia].
    replace (length ds + 1 - 1)%nat with (length ds) by lia.
    rewrite removelast_last, last_last in HF.
    rewrite firstn_app, firstn_all, Nat.sub_diag, skipn_app, skipn_all, Nat.sub_diag. cbn. rewrite app_nil_r.
    destruct HF; [left; auto|right; lia].
Qed.

(** Non-empty trees without lanes need no guard. *)
Lemma positive_firstn n l : positive l -> positive (firstn n l).
Proof. intros H. rewrite <- (firstn_skipn n l) in H. apply positive_app in H. apply H. Qed.

Lemma nonempty_fine {A} (t : tree A) : positive (t_dims t) -> t_need t = 0%nat -> t_fine t /\ t_next_fine t.
Proof.
  intros HP HN. split; (split; [rewrite HN; lia|]).
  - left. now apply positive_firstn.
  - now right.
Qed.
