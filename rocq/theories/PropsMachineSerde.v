(** C83: deserialization with machine integers. *)
From Verif Require Import Base Spec SpecFacts Shape Mapping Index View Wf MappingFacts MapOps ReshapeFacts
  Expr Tensor TensorSpec TensorFacts TensorOps OwnFacts Ops OpsFacts Serde SerdeSpec SerdeFacts SerdeMore PropsSerde.
From Verif Require Import Machine MachineSpec MachineFacts MachineTensor MachineTensorFacts MachineSerde MachineSerdeFacts.
Unset Strict Implicit.

(** With overflow checks, and without them when the size hints do not make a product overflow, the code
    does what the model with unbounded integers does, panics and drops included. *)
Theorem c83_exact : forall (dbg : bool) (T C E : Type) (al : allocator) (de : sdata E -> C -> call (option T) C)
    (ds : list dimty) (v : sdata E) (w : world T C),
  al_machine al -> nonneg (map dim_default ds) -> machine_dims (map dim_default ds) -> const_small (STuple ds) -> ty_wf (STuple ds) ->
  sized (length ds) v -> dbg = true \/ box (length ds) v <= usize_max ->
  xt_deserialize dbg al de (STuple ds) v w = tn_deserialize al de (STuple ds) v w.
Proof. intros. now apply x_de_tensor_eq. Qed.
Print Assumptions c83_exact.

(** For every input, whatever its size hints, in every build: nothing undefined happens and the process
    is not aborted; a tensor that is returned is consistent and holds exactly the elements deserialized;
    otherwise each of them has been dropped, once. *)
Theorem c83_safe : forall (dbg : bool) (T C E : Type) (al : allocator) (de : sdata E -> C -> call (option T) C)
    (ds : list dimty) (v : sdata E) (w : world T C),
  al_machine al -> nonneg (map dim_default ds) -> machine_dims (map dim_default ds) -> const_small (STuple ds) -> ty_wf (STuple ds) ->
  sized (length ds) v ->
  match xt_deserialize dbg al de (STuple ds) v w with
  | Done (Some t) w' => tensor_ok t /\ small dbg t /\ tn_ty t = STuple ds /\ exists c, w' = after c (tn_mem t) [] w
  | Done None w' | Unwound w' => exists c ms dr, w' = after c ms dr w /\ Permutation ms dr
  | Aborted | Fault => False
  end.
Proof.
  intros dbg T C E al de ds v w HA HN HM CS W HZ.
  pose proof (@x_de_tensor_post dbg T C E al de (fun _ => None) HA ds HN HM CS W v w HZ) as H.
  cbn [xt_deserialize]. destruct (x_de_tensor dbg al de ds v w) as [[t|] w'|w'| |]; cbn [xdpost] in H; try contradiction.
  - destruct H as (OK & SM & TT & _ & _ & _ & X & _). auto.
  - destruct H as [(c & ms & dr & -> & P) _]. exists c, ms, dr. auto.
  - destruct H as [(c & ms & dr & -> & P) _]. exists c, ms, dr. auto.
Qed.
Print Assumptions c83_safe.

(** Whenever it returns the answer is right, also when the product of a hint wrapped around; it panics only
    if the memory that the hints ask for is refused or the deserializer of the elements panics. *)
Theorem c83_returns : forall (dbg : bool) (T C E : Type) (al : allocator) (de : sdata E -> C -> call (option T) C) (dec : sdata E -> option T)
    (ds : list dimty) (v : sdata E) (w : world T C),
  al_machine al -> nonneg (map dim_default ds) -> machine_dims (map dim_default ds) -> const_small (STuple ds) -> ty_wf (STuple ds) ->
  sized (length ds) v -> decides de dec ->
  match xt_deserialize dbg al de (STuple ds) v w with
  | Done (Some t) _ => typed (STuple ds) (tn_dims t) /\ rect dec (tn_dims t) v (tn_mem t)
  | Done None _ => forall dims xs, typed (STuple ds) dims -> ~ rect dec dims v xs
  | Unwound _ => adequate al (length ds) v -> throws de
  | Aborted | Fault => False
  end.
Proof.
  intros dbg T C E al de dec ds v w HA HN HM CS W HZ D.
  pose proof (@x_de_tensor_post dbg T C E al de dec HA ds HN HM CS W v w HZ) as H.
  cbn [xt_deserialize]. destruct (x_de_tensor dbg al de ds v w) as [[t|] w'|w'| |]; cbn [xdpost] in H; try contradiction.
  - destruct H as (OK & _ & TT & _ & _ & _ & _ & RC). split; [rewrite <- TT; apply (to_typed OK)|auto].
  - destruct H as [_ H]. auto.
  - apply H.
Qed.
Print Assumptions c83_returns.

(** Shapes of dynamic rank cannot be deserialized in any build. *)
Theorem c83_dyn_rank : forall (dbg : bool) (T C E : Type) (al : allocator) (de : sdata E -> C -> call (option T) C) (v : sdata E) (w : world T C),
  xt_deserialize dbg al de SDynRank v w = Unwound w /\ xt_deserialize dbg al de SDynRank v w = tn_deserialize al de SDynRank v w.
Proof. intros. split; reflexivity. Qed.
Print Assumptions c83_dyn_rank.

(** Two builds, with any allocators, that both return: the same error, or the same dimensions and elements. *)
Theorem c83_builds : forall (dbg dbg' : bool) (T C E : Type) (al al' : allocator) (de : sdata E -> C -> call (option T) C) (dec : sdata E -> option T)
    (ds : list dimty) (v : sdata E) (w w' : world T C) r s r' s',
  al_machine al -> al_machine al' -> nonneg (map dim_default ds) -> machine_dims (map dim_default ds) -> const_small (STuple ds) -> ty_wf (STuple ds) ->
  sized (length ds) v -> decides de dec ->
  xt_deserialize dbg al de (STuple ds) v w = Done r s -> xt_deserialize dbg' al' de (STuple ds) v w' = Done r' s' ->
  match r, r' with
  | Some t, Some t' => tn_dims t = tn_dims t' /\ tn_mem t = tn_mem t'
  | None, None => True
  | _, _ => False
  end.
Proof.
  intros dbg dbg' T C E al al' de dec ds v w w' r s r' s' HA HA' HN HM CS W HZ D E1 E2.
  pose proof (@x_de_tensor_post dbg T C E al de dec HA ds HN HM CS W v w HZ) as H1.
  pose proof (@x_de_tensor_post dbg' T C E al' de dec HA' ds HN HM CS W v w' HZ) as H2.
  cbn [xt_deserialize] in *. rewrite E1 in H1. rewrite E2 in H2. destruct r as [t|], r' as [t'|]; cbn [xdpost] in H1, H2; auto.
  - destruct H1 as (OK & _ & TT & ST & _ & _ & _ & RC). destruct H2 as (OK' & _ & TT' & ST' & _ & _ & _ & RC').
    assert (TD : typed (STuple ds) (tn_dims t)) by (rewrite <- TT; apply (to_typed OK)).
    assert (TD' : typed (STuple ds) (tn_dims t')) by (rewrite <- TT'; apply (to_typed OK')).
    apply Forall2_len in TD, TD'. destruct (rect_unique (ds := ds) (eq_sym TD) (eq_sym TD') (RC D) (RC' D)) as [X Y].
    split; [congruence|exact Y].
  - destruct H1 as (OK & _ & TT & _ & _ & _ & _ & RC). destruct H2 as [_ H2]. apply (H2 D (tn_dims t) (tn_mem t)); auto.
    rewrite <- TT; apply (to_typed OK).
  - destruct H2 as (OK & _ & TT & _ & _ & _ & _ & RC). destruct H1 as [_ H1]. apply (H1 D (tn_dims t') (tn_mem t')); auto.
    rewrite <- TT; apply (to_typed OK).
Qed.
Print Assumptions c83_builds.

Definition zmem_small : allocator := mkAlloc (fun n => n * 8 <=? isize_max) (fun _ n => n).
Example c83_memory : al_machine zmem_small.
Proof. intros n H. cbn [al_ok al_grow zmem_small] in *. apply Z.leb_le in H. unfold isize_max in *. split; [lia|]. intros _. lia. Qed.

(** The builds differ in whether they panic: a hint of 2^63 for a first row of two elements asks for 2^64
    elements with overflow checks, a panic, and for none without them. *)
Theorem c83_hint_refuted : exists v : sdata Z, sized 2 v /\
  (exists w', xt_deserialize true zmem_small zde (STuple [DDyn; DDyn]) v w0 = Unwound w' /\ w_dropped w' = [1; 2]) /\
  (exists t w', xt_deserialize false zmem_small zde (STuple [DDyn; DDyn]) v w0 = Done (Some t) w' /\
     tn_dims t = [2; 2] /\ tn_mem t = [1; 2; 3; 4]).
Proof.
  exists (SSeq (Some (2 ^ 63)) [zrow [1; 2]; zrow [3; 4]]). split.
  - cbn [sized length]. unfold usize_max. split; [cbn; lia|]. split; [lia|]. repeat constructor; cbn; lia.
  - split; [eexists; vm_compute; auto|]. eexists _, _. split; [vm_compute; reflexivity|]. auto.
Qed.
Print Assumptions c83_hint_refuted.

(** A rectangular nest and a ragged one, in both builds. *)
Example c83_example : forall dbg,
  sized 2 (zseq [zrow [1; 2; 3]; zrow [4; 5; 6]]) /\
  (exists cap, xt_deserialize dbg zmem_small zde (STuple [DDyn; DConst 3]) (zseq [zrow [1; 2; 3]; zrow [4; 5; 6]]) w0 =
     Done (Some (mkTensor (STuple [DDyn; DConst 3]) [2; 3] [1; 2; 3; 4; 5; 6] cap)) (mkWorld 6 [1; 2; 3; 4; 5; 6] [] [])) /\
  xt_deserialize dbg zmem_small zde (STuple [DDyn; DDyn]) (zseq [zrow [1; 2; 3]; zrow [4; 5]]) w0 =
    Done None (mkWorld 5 [1; 2; 3; 4; 5] [] [4; 5; 1; 2; 3]) /\
  xt_deserialize dbg zmem_small zde (STuple []) (SItem 7) w0 = Done (Some (mkTensor (STuple []) [] [7] 1)) (mkWorld 1 [7] [] []).
Proof.
  intros dbg. split; [cbn [sized length]; unfold usize_max; split; [cbn; lia|]; split; [cbn; lia|]; repeat constructor; cbn; lia|].
  destruct dbg; (split; [eexists; vm_compute; reflexivity|]); split; vm_compute; reflexivity.
Qed.
