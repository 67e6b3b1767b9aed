(** The properties of the conversions from and to nested Rust arrays: C44. *)
From Verif Require Import Base Spec SpecFacts Shape Mapping Index View Wf MappingFacts MapOps
  ReshapeFacts IndexFacts ViewFacts ViewMore PropsView.
From Verif Require Import Expr ExprSpec ExprFacts IterFacts SourceFacts ExprTree ExprMore PropsExpr.
From Verif Require Import Tensor TraceFacts TensorSpec TensorFacts ResizeFacts TensorOps DrainFacts OwnFacts ZipFacts OwnMore.
From Verif Require Import Ops OpsFacts SerdeMore Nested NestedSpec NestedFacts.
From Coq Require Import Permutation.
Unset Strict Implicit.

(** A value of type [[[i32; 3]; 2]]. *)
Definition n23 : nested Z := NArr [NArr [NItem 1; NItem 2; NItem 3]; NArr [NItem 4; NItem 5; NItem 6]].
Lemma n23_shaped : shaped [2; 3] n23.
Proof.
  eexists. split; [reflexivity|]. split; [reflexivity|].
  repeat constructor; (eexists; split; [reflexivity|]; split; [reflexivity|]; repeat constructor; eexists; reflexivity).
Qed.
Lemma fits23 : fits [2; 3].
Proof. intros [|[|[|k]]]; vm_compute; discriminate. Qed.
Definition wn : world Z Z := mkWorld 0 [] [] [].

(** ** Tensors from nested arrays

    The tensor has the lengths of the array as dimensions and element [[i, j, ..]] is [a[i][j]..]; no
    element is cloned, dropped or lost.  Missing for the full statement: the product of the lengths
    must not overflow before a zero length is reached ([c44_refuted]). *)
Theorem c44_tensor_partial : forall (T C : Type) (ds : list dimty) (cs : list Z) (n : nested T) (w : world T C),
  typed (STuple ds) cs -> nonneg cs -> ty_wf (STuple ds) -> shaped cs n -> fits cs ->
  exists t, tn_from_nested ds cs n w = Done t w /\ tensor_ok t /\ tn_ty t = STuple ds /\ tn_dims t = cs /\
    Permutation (tn_mem t) (flatten n) /\
    forall idx, in_bounds cs idx -> exists x, n_at n idx = Some x /\ v_get (tn_mem t) (whole (tn_ty t) (tn_dims t)) idx = Ok x.
Proof.
  intros T C ds cs n w TY N W S F. destruct (tn_from_nested_done w TY N W S F) as [E OK].
  exists (mkTensor (STuple ds) cs (flatten n) (prodZ cs)). split; [exact E|]. split; [exact OK|].
  split; [reflexivity|]. split; [reflexivity|]. split; [reflexivity|]. apply (v_from_nested_ok TY N W S F).
Qed.
Print Assumptions c44_tensor_partial.

Example c44_tensor_ex :
  typed (STuple [DConst 2; DDyn]) [2; 3] /\ shaped [2; 3] n23 /\ fits [2; 3] /\
  tn_from_nested [DConst 2; DDyn] [2; 3] n23 wn = Done (mkTensor (STuple [DConst 2; DDyn]) [2; 3] [1; 2; 3; 4; 5; 6] 6) wn /\
  n_at n23 [1; 0] = Some 4 /\ v_get [1; 2; 3; 4; 5; 6] (whole (STuple [DConst 2; DDyn]) [2; 3]) [1; 0] = Ok 4.
Proof. split; [repeat constructor|]. split; [exact n23_shaped|]. split; [exact fits23|]. vm_compute. auto. Qed.

(** The lengths overflow although there are no elements: the conversions panic. *)
Lemma empty_shaped T a b : 0 <= a -> 0 <= b -> exists n : nested T, shaped [a; b; 0] n /\ flatten n = [].
Proof.
  intros A B. exists (NArr (repeat (NArr (repeat (NArr []) (Z.to_nat b))) (Z.to_nat a))). split.
  - eexists. split; [reflexivity|]. split; [unfold zlen; rewrite repeat_length; lia|]. apply Forall_forall. intros x H. apply repeat_spec in H. subst x.
    eexists. split; [reflexivity|]. split; [unfold zlen; rewrite repeat_length; lia|]. apply Forall_forall. intros x H. apply repeat_spec in H. subst x.
    exists []. auto.
  - cbn [flatten]. generalize (Z.to_nat a). intros k.
    assert (H : flatten (@NArr T (repeat (NArr []) (Z.to_nat b))) = []).
    { cbn [flatten]. generalize (Z.to_nat b). induction n as [|n IH]; cbn; auto. }
    induction k as [|k IH]; cbn [repeat flat_map]; [reflexivity|]. now rewrite H, IH.
Qed.
Theorem c44_refuted : exists cs ds (n : nested Z), typed (STuple ds) cs /\ nonneg cs /\ ty_wf (STuple ds) /\ shaped cs n /\
  tn_from_nested ds cs n wn = Unwound wn /\ v_from_nested ds cs = Panic /\
  (forall al, tn_from_array al [DConst (2 ^ 40); DConst (2 ^ 40); DConst 0] [] wn = Unwound wn).
Proof.
  exists [2 ^ 40; 2 ^ 40; 0], [DDyn; DDyn; DDyn].
  destruct (@empty_shaped Z (2 ^ 40) (2 ^ 40)) as (n & S & F); try lia. exists n.
  split; [repeat constructor|]. split; [repeat constructor; lia|]. split; [cbn; lia|]. split; [exact S|].
  split; [unfold tn_from_nested; rewrite F; vm_compute; reflexivity|]. split; [vm_compute; reflexivity|].
  intros al. vm_compute. reflexivity.
Qed.
Print Assumptions c44_refuted.

(** When the product overflows the array is dropped. *)
Theorem c44_unfit : forall (T C : Type) (ds : list dimty) (cs : list Z) (n : nested T) (w : world T C),
  ~ fits cs -> tn_from_nested ds cs n w = Unwound (w_drop (flatten n) w).
Proof. exact @tn_from_nested_unfit. Qed.
Print Assumptions c44_unfit.
Example c44_unfit_ex : ~ fits [2 ^ 40; 2 ^ 40; 0].
Proof. intros F. specialize (F 2%nat). vm_compute in F. apply F. reflexivity. Qed.

(** From a reference: the elements are cloned in order; if a clone panics, the clones made so far are
    dropped and nothing else happens. *)
Theorem c44_tensor_ref_partial : forall (T C F : Type) (al : allocator) (cl : T -> F -> outcome (T * F)) (f0 : F) (ds : list dimty)
    (cs : list Z) (n : nested T) (w : world T C) (xs : list T) (o : outcome F),
  (forall k, al_ok al k = true) -> (forall x s, proper (cl x s)) ->
  typed (STuple ds) cs -> nonneg cs -> ty_wf (STuple ds) -> shaped cs n -> fits cs ->
  clones cl (flatten n) f0 = (xs, o) ->
  match o with
  | Ok _ => exists cap, zlen xs = prodZ cs /\ zlen xs <= cap /\
      tn_from_nested_ref al cl f0 ds cs n w = Done (mkTensor (STuple ds) cs xs cap) (after (w_clo w) xs [] w)
  | _ => tn_from_nested_ref al cl f0 ds cs n w = Unwound (after (w_clo w) xs xs w)
  end.
Proof. exact @tn_from_nested_ref_ok. Qed.
Print Assumptions c44_tensor_ref_partial.
(** A clone that counts, and panics the fourth time. *)
Definition zclone (lim : Z) (x s : Z) : outcome (Z * Z) := if s <? lim then Ok (x + 100, s + 1) else Panic.
Example c44_tensor_ref_ex :
  clones (zclone 10) (flatten n23) 0 = ([101; 102; 103; 104; 105; 106], Ok 6) /\
  tn_from_nested_ref (mkAlloc (fun _ => true) Z.max) (zclone 10) 0 [DDyn; DDyn] [2; 3] n23 wn =
    Done (mkTensor (STuple [DDyn; DDyn]) [2; 3] [101; 102; 103; 104; 105; 106] 6) (mkWorld 0 [101; 102; 103; 104; 105; 106] [] []) /\
  tn_from_nested_ref (mkAlloc (fun _ => true) Z.max) (zclone 3) 0 [DDyn; DDyn] [2; 3] n23 wn =
    Unwound (mkWorld 0 [101; 102; 103] [] [101; 102; 103]).
Proof. vm_compute. auto. Qed.

(** ** Nested arrays from tensors

    Success exactly for equal dimensions, with the elements at the same positions; otherwise the tensor
    is given back unchanged. *)
Theorem c44_try_tensor : forall (T C : Type) (cs : list Z) (t : tensor T) (w : world T C),
  tensor_ok t ->
  (tn_dims t = cs -> exists n, tn_try_into_nested cs t w = Done (inl n) w /\ shaped cs n /\ Permutation (flatten n) (tn_mem t) /\
     forall idx, in_bounds cs idx -> exists x, n_at n idx = Some x /\ v_get (tn_mem t) (whole (tn_ty t) (tn_dims t)) idx = Ok x) /\
  (tn_dims t <> cs -> tn_try_into_nested cs t w = Done (inr t) w).
Proof.
  intros T C cs t w OK. destruct (tn_try_into_nested_ok cs w OK) as [H1 H2]. split; [|exact H2]. intros E.
  destruct (H1 E) as (n & D & S & F). exists n. split; [exact D|]. split; [exact S|]. split; [now rewrite F|].
  intros idx B. rewrite <- F, E. destruct (flatten_at S B) as (x & E1 & E2). exists x. split; [exact E1|].
  rewrite v_get_in by exact B. rewrite whole_addr by exact B. unfold read. pose proof (flat_bounds B).
  destruct (Z.ltb_spec (flat cs idx) 0); [lia|]. now rewrite E2.
Qed.
Print Assumptions c44_try_tensor.
Example c44_try_tensor_ex :
  let t := mkTensor (STuple [DDyn; DDyn]) [2; 3] [1; 2; 3; 4; 5; 6] 8 in
  tn_try_into_nested [2; 3] t wn = Done (inl n23) wn /\ tn_try_into_nested [3; 2] t wn = Done (inr t) wn.
Proof. vm_compute. auto. Qed.

(** The round trip is the identity. *)
Theorem c44_round_partial : forall (T C : Type) (ds : list dimty) (cs : list Z) (n : nested T) (w : world T C),
  typed (STuple ds) cs -> nonneg cs -> ty_wf (STuple ds) -> shaped cs n -> fits cs ->
  exists t, tn_from_nested ds cs n w = Done t w /\ tn_try_into_nested cs t w = Done (inl n) w.
Proof.
  intros T C ds cs n w TY N W S F. destruct (tn_from_nested_done w TY N W S F) as [E OK].
  exists (mkTensor (STuple ds) cs (flatten n) (prodZ cs)). split; [exact E|].
  destruct (tn_try_into_nested_ok cs w OK) as [H _]. destruct (H eq_refl) as (n' & D & S' & F'). cbn [tn_mem] in F'.
  rewrite D. do 2 f_equal. exact (shaped_eq S' S F').
Qed.
Print Assumptions c44_round_partial.

(** ** Views *)

Theorem c44_view_partial : forall (T : Type) (ds : list dimty) (cs : list Z) (n : nested T),
  typed (STuple ds) cs -> nonneg cs -> ty_wf (STuple ds) -> shaped cs n -> fits cs ->
  exists v, v_from_nested ds cs = Ok v /\ valid_view (zlen (flatten n)) v /\ v_ty v = STuple ds /\ v_dims v = cs /\ v_layout v = Dense /\
  forall idx, in_bounds cs idx -> exists x, n_at n idx = Some x /\ v_get (flatten n) v idx = Ok x.
Proof.
  intros T ds cs n TY N W S F. destruct (v_from_nested_ok TY N W S F) as (E & V & G).
  exists (whole (STuple ds) cs). auto 10.
Qed.
Print Assumptions c44_view_partial.

(** Back: exactly for equal dimensions, for a view anywhere in memory; otherwise the view is given
    back. *)
Theorem c44_try_view : forall (T : Type) (cs : list Z) (mem : list T) (v : view),
  v_layout v = Dense -> valid_view (zlen mem) v ->
  (v_dims v = cs -> exists n, v_try_into_nested cs mem v = Ok (inl n) /\ shaped cs n /\
     forall idx, in_bounds cs idx -> exists x, n_at n idx = Some x /\ v_get mem v idx = Ok x) /\
  (v_dims v <> cs -> v_try_into_nested cs mem v = Ok (inr v)).
Proof. exact @v_try_into_nested_ok. Qed.
Print Assumptions c44_try_view.
Example c44_try_view_ex :
  let v := mkView 1 (DenseM (STuple [DDyn; DDyn]) [2; 3]) in
  let mem := [0; 1; 2; 3; 4; 5; 6; 7] in
  valid_view (zlen mem) v /\ v_try_into_nested [2; 3] mem v = Ok (inl n23) /\ v_try_into_nested [2; 2] mem v = Ok (inr v).
Proof.
  cbv zeta. split; [|vm_compute; auto].
  assert (A : forall idx, in_bounds [2; 3] idx -> v_addr (mkView 1 (DenseM (STuple [DDyn; DDyn]) [2; 3])) idx = 1 + flat [2; 3] idx).
  { intros idx B. rewrite <- (whole_addr (STuple [DDyn; DDyn]) B). unfold v_addr, whole. cbn [v_ptr v_map]. lia. }
  constructor; [wf_tac| |].
  - intros idx B. change (in_bounds [2; 3] idx) in B. rewrite A by exact B. pose proof (flat_bounds B) as H. change (prodZ [2; 3]) with 6 in H. change (zlen [0; 1; 2; 3; 4; 5; 6; 7]) with 8. lia.
  - intros i j Hi Hj E. change (in_bounds [2; 3] i) in Hi. change (in_bounds [2; 3] j) in Hj. rewrite !A in E by assumption. apply (flat_inj Hi Hj). lia.
Qed.

(** [AsRef]: the shape has constant dimensions only. *)
Theorem c44_as_ref : forall (T : Type) (mem : list T) (v : view),
  v_layout v = Dense -> valid_view (zlen mem) v ->
  exists n, v_as_nested mem v = Ok n /\ shaped (v_dims v) n /\
    forall idx, in_bounds (v_dims v) idx -> exists x, n_at n idx = Some x /\ v_get mem v idx = Ok x.
Proof. exact @view_read. Qed.
Print Assumptions c44_as_ref.

(** A nested array is determined by its elements. *)
Lemma nth_error_ext' {A} (l : list A) : forall m, (forall k, nth_error l k = nth_error m k) -> l = m.
Proof.
  induction l as [|a l IH]; intros [|b m] H; auto; try (specialize (H 0%nat); discriminate).
  pose proof (H 0%nat) as H0. injection H0 as ->. f_equal. apply IH. intros k. exact (H (S k)).
Qed.
Theorem c44_unique : forall (T : Type) (cs : list Z) (n1 n2 : nested T),
  nonneg cs -> shaped cs n1 -> shaped cs n2 -> (forall idx, in_bounds cs idx -> n_at n1 idx = n_at n2 idx) -> n1 = n2.
Proof.
  intros T cs n1 n2 N S1 S2 H. apply (shaped_eq S1 S2). pose proof (flatten_len S1) as L1. pose proof (flatten_len S2) as L2.
  apply nth_error_ext'. intros k. destruct (Nat.ltb_spec k (Z.to_nat (prodZ cs))) as [K|K].
  - assert (B : 0 <= Z.of_nat k < prodZ cs) by lia. pose proof (unflat_in_bounds N B) as U.
    destruct (flatten_at S1 U) as (x & E1 & E2). destruct (flatten_at S2 U) as (y & E3 & E4).
    rewrite flat_unflat in E2, E4 by auto. rewrite Nat2Z.id in E2, E4. specialize (H _ U). congruence.
  - rewrite (proj2 (nth_error_None _ _)) by (unfold zlen in *; lia). symmetry. apply nth_error_None. unfold zlen in *. lia.
Qed.
Print Assumptions c44_unique.

(** ** Arrays *)

Theorem c44_array : forall (T : Type) (ds : list dimty) (n : nested T),
  consts ds -> nonneg (map dim_default ds) -> shaped (map dim_default ds) n ->
  zlen (ar_from_nested n) = prodZ (map dim_default ds) /\
  (forall idx, in_bounds (map dim_default ds) idx ->
     exists x, n_at n idx = Some x /\ v_get (ar_from_nested n) (whole (STuple ds) (map dim_default ds)) idx = Ok x) /\
  ar_into_nested ds (ar_from_nested n) = Ok n.
Proof.
  intros T ds n K N S. unfold ar_from_nested. pose proof (flatten_len S) as L. split; [exact L|]. split.
  - intros idx B. destruct (flatten_at S B) as (x & E1 & E2). exists x. split; [exact E1|].
    rewrite v_get_in by exact B. rewrite whole_addr by exact B. unfold read. pose proof (flat_bounds B).
    destruct (Z.ltb_spec (flat (map dim_default ds) idx) 0); [lia|]. now rewrite E2.
  - destruct (ar_into_nested_ok N L) as (n' & E & S' & F). rewrite E. f_equal. exact (shaped_eq S' S F).
Qed.
Print Assumptions c44_array.

Theorem c44_array_back : forall (T : Type) (ds : list dimty) (l : list T),
  consts ds -> nonneg (map dim_default ds) -> zlen l = prodZ (map dim_default ds) ->
  exists n, ar_into_nested ds l = Ok n /\ shaped (map dim_default ds) n /\ ar_from_nested n = l.
Proof. intros T ds l K N L. exact (ar_into_nested_ok N L). Qed.
Print Assumptions c44_array_back.
Example c44_array_ex :
  consts [DConst 2; DConst 3] /\ ar_from_nested n23 = [1; 2; 3; 4; 5; 6] /\ ar_into_nested [DConst 2; DConst 3] [1; 2; 3; 4; 5; 6] = Ok n23.
Proof. split; [repeat constructor; eexists; reflexivity|]. vm_compute. auto. Qed.

(** From a reference: clones in order, with the same structure; when a clone panics, exactly the clones
    made so far are dropped. *)
Theorem c44_array_ref : forall (T C : Type) (clone : T -> C -> call T C) (cs : list Z) (n : nested T) (w : world T C),
  shaped cs n ->
  let '(xs, c, b) := gives (map clone (flatten n)) (w_clo w) in
  if b then ar_from_nested_ref clone n w = Done xs (after c xs [] w) /\ zlen xs = prodZ cs
  else exists dropped, ar_from_nested_ref clone n w = Unwound (after c xs dropped w) /\ Permutation dropped xs.
Proof.
  intros T C clone cs n w S. pose proof (clone_nested_ok clone w S) as H. unfold cloned_ok in H. unfold ar_from_nested_ref, seqM.
  destruct (gives (map clone (flatten n)) (w_clo w)) as [[xs c] [|]].
  - destruct H as (n' & -> & S' & <-). split; [reflexivity|]. exact (flatten_len S').
  - destruct H as (d & -> & P). exists d. auto.
Qed.
Print Assumptions c44_array_ref.
Definition zcl (lim x c : Z) : call Z Z := if c <? lim then Gives (x + 100) (c + 1) else Throws c.
Example c44_array_ref_ex :
  ar_from_nested_ref (zcl 10) n23 wn = Done [101; 102; 103; 104; 105; 106] (mkWorld 6 [101; 102; 103; 104; 105; 106] [] []) /\
  ar_from_nested_ref (zcl 4) n23 wn = Unwound (mkWorld 4 [101; 102; 103; 104] [] [104; 101; 102; 103]).
Proof. vm_compute. auto. Qed.

(** ** The other conversions of constant arrays *)

(** [Array::into_shape] keeps the elements and panics exactly when the lengths differ. *)
Theorem c44_array_shape : forall (T C : Type) (ds ds' : list dimty) (l : list T) (w : world T C),
  fits (map dim_default ds) -> zlen l = prodZ (map dim_default ds) ->
  (prodZ (map dim_default ds') = prodZ (map dim_default ds) -> ar_into_shape ds ds' l w = Done l w) /\
  (prodZ (map dim_default ds') <> prodZ (map dim_default ds) -> ar_into_shape ds ds' l w = Unwound (w_drop l w)).
Proof.
  intros T C ds ds' l w F L. rewrite ar_into_shape_eq by exact F.
  split; intros H; destruct (Z.eqb_spec (prodZ (map dim_default ds')) (prodZ (map dim_default ds))); auto; contradiction.
Qed.
Print Assumptions c44_array_shape.

Theorem c44_array_scalar : forall (T C : Type) (ds : list dimty) (l : list T) (w : world T C),
  fits (map dim_default ds) -> zlen l = prodZ (map dim_default ds) ->
  match l with
  | [x] => ar_into_scalar ds l w = Done x w
  | _ => ar_into_scalar ds l w = Unwound (w_drop l w)
  end.
Proof. intros T C ds l w F L. exact (ar_into_scalar_eq w L F). Qed.
Print Assumptions c44_array_scalar.
Example c44_array_conv_ex :
  ar_into_shape [DConst 2; DConst 3] [DConst 6] [1; 2; 3; 4; 5; 6] wn = Done [1; 2; 3; 4; 5; 6] wn /\
  ar_into_shape [DConst 2; DConst 3] [DConst 2; DConst 2] [1; 2; 3; 4; 5; 6] wn = Unwound (mkWorld 0 [] [] [1; 2; 3; 4; 5; 6]) /\
  ar_into_scalar [DConst 1; DConst 1] [7] wn = Done 7 wn /\
  ar_into_scalar [DConst 2] [7; 8] wn = Unwound (mkWorld 0 [] [] [7; 8]) /\
  ar_into_scalar [DConst 0] (@nil Z) wn = Unwound wn.
Proof. vm_compute. auto 6. Qed.

(** A tensor made from an array has its elements, which are moved. *)
Theorem c44_tensor_from_array : forall (T C : Type) (al : allocator) (ds : list dimty) (l : list T) (w : world T C),
  (forall k, al_ok al k = true) -> zlen l = prodZ (map dim_default ds) -> fits (map dim_default ds) ->
  exists cap, zlen l <= cap /\ tn_from_array al ds l w = Done (mkTensor (STuple ds) (map dim_default ds) l cap) w.
Proof. exact @tn_from_array_eq. Qed.
Print Assumptions c44_tensor_from_array.
(** With any allocator: it succeeds exactly when the length is representable and the storage is granted
    (none is needed for an empty array); otherwise the elements are dropped. *)
Theorem c44_tensor_from_array_exact : forall (T C : Type) (al : allocator) (ds : list dimty) (l : list T) (w : world T C),
  zlen l = prodZ (map dim_default ds) ->
  let ok := fits (map dim_default ds) /\ (zlen l = 0 \/ al_ok al (zlen l) = true) in
  (ok /\ exists cap, zlen l <= cap /\
     tn_from_array al ds l w = Done (mkTensor (STuple ds) (map dim_default ds) l cap) w) \/
  (~ ok /\ tn_from_array al ds l w = Unwound (w_drop l w)).
Proof.
  intros T C al ds l w L ok. destruct (ar_length_cases ds) as [F|F].
  - destruct (Z.eq_dec (zlen l) 0) as [Z0|Z0]; [left; split; [split; auto|apply tn_from_array_fine; auto]|].
    destruct (al_ok al (zlen l)) eqn:A.
    + left. split; [split; auto|]. apply tn_from_array_fine; auto.
    + right. split; [intros [_ [H|H]]; [contradiction|congruence]|]. now apply tn_from_array_refused.
  - right. assert (NF : ~ fits (map dim_default ds)) by (intros H; rewrite (ar_length_fits H) in F; discriminate).
    split; [intros [H _]; contradiction|]. now apply tn_from_array_unfit.
Qed.
Print Assumptions c44_tensor_from_array_exact.
Example c44_tensor_from_array_ex :
  tn_from_array (mkAlloc (fun _ => true) Z.max) [DConst 2; DConst 3] [1; 2; 3; 4; 5; 6] wn =
  Done (mkTensor (STuple [DConst 2; DConst 3]) [2; 3] [1; 2; 3; 4; 5; 6] 6) wn.
Proof. vm_compute. reflexivity. Qed.
Example c44_tensor_from_array_panics :
  tn_from_array (mkAlloc (fun n => n <=? 4) Z.max) [DConst 2; DConst 3] [1; 2; 3; 4; 5; 6] wn =
    Unwound (mkWorld 0 [] [] [1; 2; 3; 4; 5; 6]) /\
  tn_from_array (mkAlloc (fun _ => false) Z.max) [DConst 2; DConst 0] [] wn =
    Done (mkTensor (STuple [DConst 2; DConst 0]) [2; 0] [] 0) wn.
Proof. vm_compute. auto. Qed.

(** Slices and views of rank 1. *)
Theorem c44_slice : forall (T : Type) (s : list T),
  valid_view (zlen s) (v_from_slice s) /\ v_dims (v_from_slice s) = [zlen s] /\
  (forall i x, nth_error s i = Some x -> v_get s (v_from_slice s) [Z.of_nat i] = Ok x) /\
  v_to_slice s (v_from_slice s) = Ok s.
Proof.
  intros T s. destruct (v_from_slice_ok s) as [V H]. split; [exact V|]. split; [reflexivity|]. split.
  - intros i x E. assert (B : in_bounds (v_dims (v_from_slice s)) [Z.of_nat i]).
    { constructor; [|constructor]. assert (i < length s)%nat by (apply nth_error_Some; congruence). unfold zlen. lia. }
    destruct (contents_nth H B) as (y & E1 & E2). cbn [v_dims v_from_slice v_map m_dims] in E1.
    unfold flat in E1. cbn in E1. rewrite Z.mul_1_r, Z.add_0_r, Nat2Z.id in E1. congruence.
  - exact (@v_to_slice_ok T s (v_from_slice s) s eq_refl V H).
Qed.
Print Assumptions c44_slice.
Theorem c44_slice_view : forall (T : Type) (mem : list T) (v : view) (xs : list T),
  v_layout v = Dense -> valid_view (zlen mem) v ->
  v_to_slice mem v = Ok xs <-> Forall2 (fun idx x => v_get mem v idx = Ok x) (indices (v_dims v)) xs.
Proof.
  intros T mem v xs D V. destruct (contents_exist V) as [ys H]. rewrite (v_to_slice_ok D V H). split.
  - intros [= <-]. exact H.
  - intros H'. f_equal. exact (contents_unique H H').
Qed.
Print Assumptions c44_slice_view.
Example c44_slice_ex : v_to_slice [5; 6; 7; 8] (mkView 1 (DenseM (STuple [DDyn]) [2])) = Ok [6; 7].
Proof. reflexivity. Qed.
