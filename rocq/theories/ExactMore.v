(** When the operators and the conversions built on [zip] are right: facts for [PropsExactMore]. *)
From Verif Require Import Base Spec SpecFacts Shape Mapping Index View Wf MappingFacts MapOps ReshapeFacts ViewFacts ViewMore.
From Verif Require Import Expr ExprSpec ExprFacts IterFacts SourceFacts ExprTree ExprMore PropsView PropsExpr.
From Verif Require Import Tensor TraceFacts TensorSpec TensorFacts ResizeFacts TensorOps OwnFacts ZipFacts OwnMore PropsTensor.
From Verif Require Import Ops OpsFacts OpsMore PropsOps Consume ConsumeSpec ConsumeFacts PropsConsume ExactFacts.
Unset Strict Implicit.

(** ** Lazy operators *)

Lemma op_expr_iff {A B R} (op : A -> B -> R) (a : tree A) (b : tree B) ga gb ea eb e :
  t_leaves a -> t_leaves b -> t_build a = Ok ea -> t_build b = Ok eb -> t_need a = 0%nat -> t_need b = 0%nat ->
  denotes a ga -> denotes b gb -> op_expr (pure_op op) tt ea eb = Ok e ->
  (e_collect e = Ok (map (fun idx => op (ga (lastn (length (t_dims a)) idx)) (gb (lastn (length (t_dims b)) idx)))
                       (indices (e_dims e))) <-> t_fine (TZip b a)).
Proof.
  intros LA LB EA EB NA NB DA DB E. split.
  - intros H. pose proof (op_tree_build (pure_op op) tt EA EB) as HB. rewrite E in HB.
    assert (HL : t_leaves (op_tree (pure_op op) tt a b)) by (split; auto).
    assert (HN : (t_need (op_tree (pure_op op) tt a b) <=
                  length (t_dims (op_tree (pure_op op) tt a b)) - t_outer (op_tree (pure_op op) tt a b))%nat).
    { cbn [op_tree t_need]. rewrite NA, NB. cbn. lia. }
    destruct (@fine_dec _ (op_tree (pure_op op) tt a b) HN) as [HF|HF]; [exact HF|]. exfalso.
    destruct (unfine_trace HL HB HN HF) as (H1 & _ & H3). rewrite (bu_dims (build_built HL HB)), H1 in H. cbn [map] in H.
    apply e_collect_trace in H. contradiction.
  - intros HF. destruct (@op_expr_ok _ _ _ _ (pure_op op) tt a b ea eb LA LB EA EB) as [[HC _]|[_ HP]]; [|congruence].
    destruct (@op_expr_values _ _ _ op a b ga gb ea eb LA LB EA EB HC DA DB HF) as (e' & E' & _ & H). congruence.
Qed.

Lemma neg_expr_iff {A R} (op : A -> R) (a : tree A) ga ea :
  t_leaves a -> t_build a = Ok ea -> t_need a = 0%nat -> denotes a ga ->
  (e_collect (neg_expr (fun x (s : unit) => Ok (op x, s)) tt ea) = Ok (map (fun idx => op (ga idx)) (indices (t_dims a))) <->
   t_fine a).
Proof.
  intros LA EA NA DA. split.
  - intros H. set (m := TMap (fun x (s : unit) => Ok (op x, s)) tt a).
    assert (HB : t_build m = Ok (neg_expr (fun x (s : unit) => Ok (op x, s)) tt ea)) by (unfold m; cbn [t_build]; now rewrite EA).
    assert (HL : t_leaves m) by exact LA.
    assert (HN : (t_need m <= length (t_dims m) - t_outer m)%nat) by (cbn [m t_need]; rewrite NA; lia).
    destruct (@fine_dec _ m HN) as [HF|HF]; [exact HF|]. exfalso.
    destruct (unfine_trace HL HB HN HF) as (H1 & _ & H3). change (t_dims m) with (t_dims a) in H1. rewrite H1 in H. cbn [map] in H.
    apply e_collect_trace in H. contradiction.
  - intros HF. now apply neg_expr_values.
Qed.

(** ** Compound assignment *)

Lemma target_builds {Y} n v (t : tree Y) e :
  valid_view n v -> t_leaves t -> t_build t = Ok e -> operand_fits (v_dims v) t ->
  t_leaves (with_target n v t) /\
  (exists z, t_build (with_target n v t) = Ok z /\ e_zip (e_view n false v) e = Ok z) /\
  t_dims (with_target n v t) = v_dims v.
Proof.
  intros HV HL HB (HT & HR & HP).
  assert (HZ : t_zips t) by (destruct (build_cases HL) as [[H' _]|[_ H']]; auto; congruence).
  assert (HLZ : t_leaves (with_target n v t)) by (split; auto).
  assert (HZZ : t_zips (with_target n v t)).
  { split; [exact I|]. split; auto. split; [exact HT|]. split; [right; exact HR|].
    destruct HP as [HP|HP]; auto. right. cbn [t_dims]. lia. }
  destruct (build_ok HLZ HZZ) as (z & Ez & Bz). split; auto. split.
  - exists z. split; auto. unfold with_target in Ez. cbn [t_build bind] in Ez. now rewrite HB in Ez.
  - cbn [with_target t_dims]. unfold longer. destruct (Nat.ltb_spec (length (v_dims v)) (length (t_dims t))); [lia|reflexivity].
Qed.

(** An operator that counts its calls. *)
Lemma op_assign_iff {T Y} (op : T -> Y -> T) v (t : tree Y) g e mem :
  let n := Z.of_nat (length mem) in
  valid_view n v -> t_leaves t -> t_build t = Ok e -> t_need t = 0%nat -> operand_fits (v_dims v) t -> denotes t g ->
  ((exists mem', v_op_assign (fun x y k => Ok (op x y, k + 1)) v e mem 0 = Ok (mem', prodZ (v_dims v))) <->
   t_fine (with_target n v t)).
Proof.
  intros n HV HL HB H0 HO HD. destruct (target_builds HV HL HB HO) as (HLZ & (z & Ez & Ez') & ED).
  assert (HNeed : (t_need (with_target n v t) <= length (t_dims (with_target n v t)) - t_outer (with_target n v t))%nat).
  { cbn [with_target t_need]. rewrite H0. cbn. lia. }
  split.
  - intros [mem' E]. destruct (@fine_dec _ (with_target n v t) HNeed) as [H|H]; auto. exfalso.
    unfold v_op_assign in E. fold n in E. rewrite Ez' in E. cbn [bind] in E.
    assert (HU := H). apply unfine in HU; [|exact (tree_nonneg HLZ Ez)|exact HNeed].
    eapply (@fold_unfine _ _ (@snd (list T) Z)) in E; eauto.
    + cbn [snd] in E. destruct HU as [HU _]. rewrite ED in HU. lia.
    + clear. intros [m k] [a y] [m' k'] E. cbn [fst snd] in *. destruct (read m a); try discriminate. cbn [bind] in E.
      destruct (write m a _); try discriminate. cbn [bind] in E. injection E as <- <-. lia.
  - intros HF. pose proof (@op_assign_ok T Y Z (fun x y k => Ok (op x y, k + 1)) v t e mem 0 HV HL HB HO HF) as H.
    pose proof (wf_nonneg (vv_wf HV)) as HN. change (m_dims (v_map v)) with (v_dims v) in HN.
    assert (G : forall l s k, (forall idx, In idx l -> in_bounds (v_dims v) idx) -> exists xs s',
      items (assign_action (fun x y k => Ok (op x y, k + 1)) mem v (length (t_dims t)) (t_act t)) l (s, k) = Ok (xs, (s', k + zlen l))).
    { clear H. induction l as [|idx l IH]; intros s k Hl; cbn [items].
      { exists [], s. unfold zlen. cbn. now rewrite Z.add_0_r. }
      assert (HI : in_bounds (v_dims v) idx) by (apply Hl; now left).
      destruct (HD (lastn (length (t_dims t)) idx) s (operand_bounds HO HI)) as [s1 E1].
      destruct (checked_get HV) as [HG _]. destruct (HG idx HI) as [x Ex].
      unfold assign_action at 1. cbn [fst snd]. rewrite E1. cbn [bind]. rewrite Ex. cbn [bind].
      destruct (IH s1 (k + 1)) as (xs & s' & E'); [intros; apply Hl; now right|]. rewrite E'. cbn [bind].
      exists (op x (g (lastn (length (t_dims t)) idx)) :: xs), s'. do 3 f_equal. unfold zlen. cbn [length]. lia. }
    destruct (G (indices (v_dims v)) (t_init t) 0) as (xs & s' & E); [intros idx; apply in_indices|].
    rewrite E, zlen_indices in H by auto. destruct H as (mem' & H & _). exists mem'. exact H.
Qed.

(** ** Owned operands *)

Lemma zip_unfine_how {T Y C} (f : T * Y -> C -> call T C) (t : tensor T) (a : tree Y) e (w : world T C) :
  tensor_ok t -> t_leaves a -> t_build a = Ok e -> t_need a = 0%nat -> operand_fits (tn_dims t) a ->
  ~ t_fine (with_target (zlen (tn_mem t)) (whole (tn_ty t) (tn_dims t)) a) ->
  tn_mem t = [] /\
  exists z, e_zip (e_view 0 false (whole (tn_ty t) (tn_dims t))) e = Ok z /\
    tn_zip_with e f t w = match e_get z 0 (e_init z) with Panic => Unwound w | _ => Fault end.
Proof.
  intros Ht HL HB H0 HO HF. pose proof (tensor_view Ht) as HV.
  destruct (target_builds HV HL HB HO) as (HLZ & (z & Ez & Ez') & ED).
  set (n := zlen (tn_mem t)) in *. set (v := whole (tn_ty t) (tn_dims t)) in *.
  assert (HN : (t_need (with_target n v a) <= length (t_dims (with_target n v a)) - t_outer (with_target n v a))%nat).
  { cbn [with_target t_need]. rewrite H0. cbn. lia. }
  destruct (unfine (tree_nonneg HLZ Ez) HN HF) as [H1 H2]. rewrite ED in H1. change (v_dims v) with (tn_dims t) in H1.
  pose proof (build_built HLZ Ez) as B.
  assert (H3 : 0 < prodZ (skipn (outer_rank z) (e_dims z))) by now rewrite (bu_dims B), (tree_outer B).
  assert (EM : tn_mem t = []).
  { pose proof (to_len Ht) as HLn. rewrite H1 in HLn. destruct (tn_mem t); [auto|]. cbn [length] in HLn. lia. }
  split; auto. unfold n in Ez'. rewrite EM in Ez'. change (zlen (@nil T)) with 0 in Ez'. exists z. split; auto.
  apply trace_first in H3. unfold tn_zip_with.
  assert (HR : to_vec_raw t = Some []) by now rewrite (to_vec_ok Ht), EM.
  rewrite HR. change (zlen (@nil T)) with 0. fold v. rewrite Ez'. unfold seqM.
  destruct (e_get z 0 (e_init z)) as [[[p y] st]| | |].
  - destruct H3 as (l & o & ->). cbn [fst snd zip_loop z_mem]. destruct (Z.to_nat p); reflexivity.
  - rewrite H3. cbn [fst snd zip_loop ret fail lift zip_guard]. unfold zip_guard. cbn. unfold w_drop. rewrite app_nil_r. now destruct w.
  - rewrite H3. reflexivity.
  - rewrite H3. reflexivity.
Qed.

Lemma into_empty {T Y} ty dims (e : expression Y) z :
  e_zip (e_into ty dims (@nil T)) e = Ok z -> e_get z 0 (e_init z) = UB.
Proof.
  unfold e_zip. destruct (assert _); try discriminate. cbn [bind]. destruct (assert _); try discriminate. cbn [bind].
  destruct (zip_dims _ _ _); try discriminate. cbn [bind]. intros H. injection H as <-. reflexivity.
Qed.

Lemma azip_unfine_how {T Y C} (f : T * Y -> C -> call T C) ds (l : list T) (a : tree Y) e (w : world T C) :
  let dims := map dim_default ds in
  fits dims -> typed (STuple ds) dims -> nonneg dims -> zlen l = prodZ dims ->
  t_leaves a -> t_build a = Ok e -> t_need a = 0%nat -> operand_fits dims a ->
  ~ t_fine (TZip (TInto (STuple ds) dims l) a) ->
  l = [] /\ ar_zip_with ds l e f w = Fault.
Proof.
  intros dims HFit HT HNN HLen HL HB H0 HO HF.
  assert (HZ : t_zips a) by (destruct (build_cases HL) as [[H' _]|[_ H']]; auto; congruence).
  set (q := TZip (TInto (STuple ds) dims l) a) in *.
  assert (HLZ : t_leaves q) by (repeat split; auto).
  destruct HO as (HT1 & HR & HP).
  assert (HZZ : t_zips q).
  { split; [exact I|]. split; auto. split; [exact HT1|]. split; [right; exact HR|].
    destruct HP as [HP|HP]; auto. right. cbn [t_dims]. lia. }
  destruct (build_ok HLZ HZZ) as (z & Ez & B).
  assert (Ez' : e_zip (e_into (STuple ds) dims l) e = Ok z) by (unfold q in Ez; cbn [t_build bind] in Ez; now rewrite HB in Ez).
  assert (ED : t_dims q = dims).
  { cbn [q t_dims]. unfold longer. destruct (Nat.ltb_spec (length dims) (length (t_dims a))); [lia|reflexivity]. }
  assert (HN : (t_need q <= length (t_dims q) - t_outer q)%nat) by (cbn [q t_need]; rewrite H0; cbn; lia).
  destruct (unfine (tree_nonneg HLZ Ez) HN HF) as [H1 H2]. rewrite ED in H1.
  assert (H3 : 0 < prodZ (skipn (outer_rank z) (e_dims z))) by now rewrite (bu_dims B), (tree_outer B).
  assert (EM : l = []) by (rewrite H1 in HLen; destruct l; [auto|unfold zlen in HLen; cbn [length] in HLen; lia]).
  split; auto. apply trace_first in H3. unfold ar_zip_with. fold dims. rewrite (ar_length_fits HFit). cbn [bind]. rewrite Ez'.
  unfold array_fill. rewrite (bu_dims B), ED. rewrite sh_from_dims_spec, (proj2 (accepts_typed (STuple ds) dims) HT).
  fold dims. rewrite sh_len_prod, H1.
  rewrite EM in Ez'. rewrite (into_empty Ez') in H3. rewrite H3. reflexivity.
Qed.
