(** More theorems that say exactly when a partial property holds: C25 for all expressions, C32, C36, C41,
    C52, C53 and C56.

    Vocabulary: [OpsSpec.v], [ConsumeSpec.v], [Pointer.v]; [one_pass] is in [FuseFacts.v]. *)
From Verif Require Import Base Spec SpecFacts Shape Mapping Index View Wf MappingFacts MapOps ReshapeFacts ViewFacts ViewMore.
From Verif Require Import Expr ExprSpec ExprFacts IterFacts SourceFacts ExprTree ExprMore PropsView PropsExpr NextFacts.
From Verif Require Import Tensor TraceFacts TensorSpec TensorFacts ResizeFacts TensorOps OwnFacts ZipFacts OwnMore PropsTensor.
From Verif Require Import Ops OpsFacts OpsMore PropsOps Consume ConsumeSpec ConsumeFacts PropsConsume ExactFacts ExactMore FuseFacts.
From Verif Require Import History HistoryFacts OwnProps OwnExact.
From Verif Require Import Pointer PointerFacts PropsPointer PointerMore.
Unset Strict Implicit.

(** ** C25 *)

(** Any expression whose items come out without a panic and whose first pass is right: [None] is final exactly
    if no outer dimension exceeds 1.  Otherwise the call after [None], if it returns at all, gives an item. *)
Theorem c25_tree : forall A (t : tree A) e xs s,
  t_leaves t -> t_build t = Ok e -> t_next_fine t ->
  items (t_act t) (indices (t_dims t)) (t_init t) = Ok (xs, s) ->
  let len := Z.to_nat (prodZ (t_dims t)) in
  let flat_outside := Forall (fun d => d <= 1) (firstn (t_outer t) (t_dims t)) in
  (flat_outside -> forall k, exists it, it_nexts (len + 1 + k) (it_new e) = Ok (map Some xs ++ None :: repeat None k, it)) /\
  (~ flat_outside -> forall ys it, it_nexts (len + 1 + 1) (it_new e) = Ok (ys, it) ->
     exists a, ys = map Some xs ++ [None; Some a]).
Proof. exact @tree_fused. Qed.
Print Assumptions c25_tree.

(** A mapped dense array and the same array zipped with its transpose. *)
Definition t25 : tree Z := TMap (fun x (n : Z) => Ok (x * 10, n + 1)) 0 (TView 4 true (whole ty2 [2; 2])).
Example c25_tree_example :
  (t_leaves t25 /\ t_next_fine t25 /\ t_outer t25 = 0%nat /\
   exists e it, t_build t25 = Ok e /\ it_nexts 7 (it_new e) = Ok ([Some 0; Some 10; Some 20; Some 30; None; None; None], it)) /\
  (let t := TZip t25 (TView 4 true ex_2x2) in
   t_leaves t /\ t_next_fine t /\ ~ Forall (fun d => d <= 1) (firstn (t_outer t) (t_dims t)) /\
   exists e it, t_build t = Ok e /\
     it_nexts 6 (it_new e) = Ok ([Some (0, 0); Some (10, 2); Some (20, 1); Some (30, 3); None; Some (20, 1)], it)).
Proof.
  assert (V : valid_view 4 (whole ty2 [2; 2])) by (apply whole_valid; wf_tac). split.
  - split; [exact V|]. split; [split; [vm_compute; lia|left; reflexivity]|]. split; [reflexivity|].
    eexists _, _. split; vm_compute; reflexivity.
  - cbv zeta. split; [split; [exact V|exact ex_2x2_valid]|]. split; [split; [vm_compute; lia|right; repeat constructor]|].
    split; [intros H; vm_compute in H; inversion H; lia|]. eexists _, _. split; vm_compute; reflexivity.
Qed.

(** ** C32 *)

(** [expand] with an expression that has the items that it claims to have, and enough memory.  The statement left of the
    arrow is the documentation; it is right except for empty expressions whose dimensions are not those of the
    tensor. *)
Theorem c32_exact : forall T Y C al (e : expression Y) (cl : Y -> C -> call T C) ys xs c (t : tensor T) (w : world T C) n ds,
  tensor_ok t -> has_rows t n ds -> (forall k, al_ok al k = true) ->
  nonneg (e_dims e) -> e_collect e = Ok ys -> zlen ys = prodZ (e_dims e) -> gives (map cl ys) (w_clo w) = (xs, c, true) ->
  (match tn_expand al e cl (t, w) with
   | Done _ (t', _) => tn_mem t' = tn_mem t ++ xs /\
       (0 < prodZ (tn_dims t) -> exists m, e_dims e = m :: ds /\ tn_dims t' = n + m :: ds) /\
       (prodZ (tn_dims t) = 0 -> tn_dims t' = e_dims e)
   | Unwound (t', _) => tn_mem t' = tn_mem t /\ tn_dims t' = tn_dims t /\
       (0 < prodZ (tn_dims t) -> forall m, e_dims e <> m :: ds) /\
       (prodZ (tn_dims t) = 0 -> ~ typed (tn_ty t) (e_dims e))
   | _ => False
   end <->
   0 < prodZ (e_dims e) \/ e_dims e = tn_dims t \/ 0 < prodZ (tn_dims t) /\ e_dims e = 0 :: ds).
Proof. exact @expand_exact. Qed.
Print Assumptions c32_exact.

(** A row and no rows for a [2;3] tensor, and an empty expression of another width. *)
Example c32_exact_example :
  tensor_ok t23 /\ has_rows t23 2 [3] /\
  (forall d l, In (d, l) [([1; 3], [7; 8; 9]); ([0; 3], []); ([0; 4], [])] ->
     nonneg d /\ e_collect (e_into ty2 d l) = Ok l /\ zlen l = prodZ d /\ gives (map keep l) (w_clo w0) = (l, 0, true)) /\
  (0 < prodZ (tn_dims t23) /\ e_dims (e_into ty2 [0; 3] (@nil Z)) = [0; 3]) /\
  ~ (0 < prodZ [0; 4] \/ [0; 4] = tn_dims t23 \/ 0 < prodZ (tn_dims t23) /\ [0; 4] = [0; 3]) /\
  tn_expand al0 (e_into ty2 [0; 4] []) keep (t23, w0) = Done tt (t23, w0).
Proof.
  split; [exact t23_ok|]. split; [split; reflexivity|]. split.
  - intros d l [E|[E|[E|[]]]]; injection E as <- <-; (split; [wf_tac|]; repeat split; reflexivity).
  - split; [split; reflexivity|]. split; [intros [H|[H|[_ H]]]; [vm_compute in H| |]; discriminate|reflexivity].
Qed.

(** ** C36 *)

(** [Tensor::zip_with]: when it panics nothing is lost, unless the other operand panics after the closure has made a
    result: the last result is. *)
Theorem c36_zip_exact : forall T Y C (e : expression Y) (f : T * Y -> C -> call T C) (t : tensor T) w z ys o S0 R,
  tensor_ok t -> e_zip (e_view (zlen (tn_mem t)) false (whole (tn_ty t) (tn_dims t))) e = Ok z ->
  e_trace z = (combine (zrange (zlen (tn_mem t))) ys, o) -> (length ys <= length (tn_mem t))%nat ->
  (o = Ok tt -> length ys = length (tn_mem t)) -> balanced S0 (R ++ tn_mem t) w ->
  let '(rs, c, b) := gives (map f (combine (tn_mem t) ys)) (w_clo w) in
  match tn_zip_with e f t w with
  | Done t' w' => balanced S0 (R ++ tn_mem t') w'
  | Unwound w' => balanced S0 R w' <-> ~ (b = true /\ o = Panic /\ rs <> [])
  | _ => o = UB \/ o = NoFuel
  end.
Proof. exact @zip_with_exact. Qed.
Print Assumptions c36_zip_exact.
(** Programs without [zip_with], and without draining iterators that are leaked on purpose, lose nothing. *)
Theorem c36_clean : forall T C al (ops : list (op T C)) c st,
  ops_ok al ops (start c) -> run_ops al ops (start c) = Done tt st ->
  Forall (fun o => leak_limit o = Some 0%nat) ops ->
  Permutation (w_made (st_w st)) (held (st_vars st) ++ w_used (st_w st) ++ w_dropped (st_w st)).
Proof.
  intros T C al ops c st HO HR HF. destruct (c36_history HO HR) as (leaked & HP & HW & _).
  assert (E : leak_limits ops = Some 0%nat).
  { clear HO HR HP HW. induction HF as [|o os Ho _ IH]; [reflexivity|]. cbn [leak_limits]. now rewrite Ho, IH. }
  rewrite E in HW. cbn [within] in HW. destruct leaked; [exact HP|cbn in HW; lia].
Qed.
Print Assumptions c36_clean.

(** An operand that panics at its second item, with a closure that returns and with one that panics before that. *)
Example c36_exact_example :
  let t := mkTensor ty1 [3] [1; 2; 3] 3 in
  exists e z, t_build ex_bomb = Ok e /\ e_zip (e_view 3 false (whole ty1 [3])) e = Ok z /\
    e_trace z = (combine (zrange 3) [5], Panic) /\ tensor_ok t /\ balanced [1; 2; 3] [1; 2; 3] w0 /\
    gives (map plus_cl (combine [1; 2; 3] [5])) 0 = ([6], 0, true) /\
    tn_zip_with e plus_cl t w0 = Unwound (mkWorld 0 [6] [1] [2; 3]) /\
    ~ balanced [1; 2; 3] [] (mkWorld 0 [6] [1] [2; 3]) /\
    tn_zip_with e (fun _ c => Throws c) t w0 = Unwound (mkWorld 0 [] [1] [2; 3]) /\
    balanced [1; 2; 3] [] (mkWorld 0 [] [1] [2; 3]).
Proof.
  intros t. eexists _, _. split; [vm_compute; reflexivity|]. split; [vm_compute; reflexivity|].
  split; [vm_compute; reflexivity|]. split; [constructor; simpl; (reflexivity || lia || wf_tac)|].
  split; [apply Permutation_refl|]. split; [reflexivity|]. split; [vm_compute; reflexivity|].
  split; [intros H; apply Permutation_length in H; discriminate|]. split; [vm_compute; reflexivity|apply Permutation_refl].
Qed.
(** [ex_prog] is such a program; it meets the other hypothesis by [c31_example_ok]. *)
Example c36_clean_example :
  Forall (fun o => leak_limit o = Some 0%nat) ex_prog /\ exists st, run_ops al0 ex_prog (start 0) = Done tt st.
Proof. split; [repeat constructor|eexists; vm_compute; reflexivity]. Qed.

(** ** C41 *)

(** [a op b] for lazy operands with a value at every index: the values come out exactly if the walk over the
    two is right, see [c41_nonempty] for when it is. *)
Theorem c41_exact : forall A B R (op : A -> B -> R) (a : tree A) (b : tree B) ga gb ea eb e,
  t_leaves a -> t_leaves b -> t_build a = Ok ea -> t_build b = Ok eb -> t_need a = 0%nat -> t_need b = 0%nat ->
  denotes a ga -> denotes b gb -> op_expr (pure_op op) tt ea eb = Ok e ->
  (e_collect e = Ok (map (fun idx => op (ga (lastn (length (t_dims a)) idx)) (gb (lastn (length (t_dims b)) idx)))
                       (indices (e_dims e))) <-> t_fine (TZip b a)).
Proof. exact @op_expr_iff. Qed.
Print Assumptions c41_exact.
Theorem c41_unary_exact : forall A R (op : A -> R) (a : tree A) ga ea,
  t_leaves a -> t_build a = Ok ea -> t_need a = 0%nat -> denotes a ga ->
  (e_collect (neg_expr (fun x (s : unit) => Ok (op x, s)) tt ea) = Ok (map (fun idx => op (ga idx)) (indices (t_dims a))) <->
   t_fine a).
Proof. exact @neg_expr_iff. Qed.
Print Assumptions c41_unary_exact.

(** [v op= e] applies the operator as often as the view has elements exactly under that condition. *)
Theorem c41_assign_exact : forall T Y (op : T -> Y -> T) v (t : tree Y) g e mem,
  let n := Z.of_nat (length mem) in
  valid_view n v -> t_leaves t -> t_build t = Ok e -> t_need t = 0%nat -> operand_fits (v_dims v) t -> denotes t g ->
  ((exists mem', v_op_assign (fun x y k => Ok (op x y, k + 1)) v e mem 0 = Ok (mem', prodZ (v_dims v))) <->
   t_fine (with_target n v t)).
Proof. exact @op_assign_iff. Qed.
Print Assumptions c41_assign_exact.

(** An owned tensor on either side: it is done exactly under the condition.  Otherwise the tensor is empty, and an
    item that does not exist is written behind the end of the buffer unless computing it panics first. *)
Theorem c41_tensor_exact : forall T Y C (opl : T -> Y -> T) (opr : Y -> T -> T) (t : tensor T) (a : tree Y) g e (w : world T C),
  tensor_ok t -> t_leaves a -> t_build a = Ok e -> t_need a = 0%nat -> operand_fits (tn_dims t) a -> denotes a g ->
  let fine := t_fine (with_target (zlen (tn_mem t)) (whole (tn_ty t) (tn_dims t)) a) in
  (fine -> (exists r w', op_tensor (pure_call opl) t e w = Done r w') /\
           (exists r w', op_expr_tensor (pure_call opr) e t w = Done r w')) /\
  (~ fine -> tn_mem t = [] /\ op_tensor (pure_call opl) t e w = op_expr_tensor (pure_call opr) e t w /\
     (op_tensor (pure_call opl) t e w = Fault \/ op_tensor (pure_call opl) t e w = Unwound w)).
Proof.
  intros T Y C opl opr t a g e w Ht HL HB HN HF HD. cbv zeta. split.
  - intros HW. destruct (@c41_tensor_partial T Y C opl t a g e w Ht HL HB HF HD HW) as (rs & _ & E & _).
    destruct (@c41_tensor_right_partial T Y C opr t a g e w Ht HL HB HF HD HW) as (rs' & _ & E' & _).
    split; eexists _, _; eassumption.
  - intros NW. unfold op_tensor, op_expr_tensor.
    destruct (@zip_unfine_how T Y C (fun p => pure_call opl (fst p) (snd p)) t a e w Ht HL HB HN HF NW) as (E0 & z & Ez & E1).
    destruct (@zip_unfine_how T Y C (fun p => pure_call opr (snd p) (fst p)) t a e w Ht HL HB HN HF NW) as (_ & z' & Ez' & E2).
    assert (z' = z) by congruence. subst z'. split; [exact E0|]. rewrite E1, E2. split; [reflexivity|].
    destruct (e_get z 0 (e_init z)); auto.
Qed.
Print Assumptions c41_tensor_exact.
(** An owned array: an element is moved out of an empty array. *)
Theorem c41_array_exact : forall T Y C (opl : T -> Y -> T) (opr : Y -> T -> T) ds (l : list T) (a : tree Y) g e (w : world T C),
  let dims := map dim_default ds in
  fits dims -> typed (STuple ds) dims -> nonneg dims -> zlen l = prodZ dims ->
  t_leaves a -> t_build a = Ok e -> t_need a = 0%nat -> operand_fits dims a -> denotes a g ->
  let fine := t_fine (TZip (TInto (STuple ds) dims l) a) in
  (fine -> (exists r w', op_array (pure_call opl) ds l e w = Done r w') /\
           (exists r w', op_expr_array (pure_call opr) e ds l w = Done r w')) /\
  (~ fine -> l = [] /\ op_array (pure_call opl) ds l e w = Fault /\ op_expr_array (pure_call opr) e ds l w = Fault).
Proof.
  intros T Y C opl opr ds l a g e w dims HF HT HN HZ HL HB HNd HO HD. cbv zeta. split.
  - intros HW. destruct (@c41_array_partial T Y C opl ds l a g e w HF HT HN HZ HL HB HO HD HW) as (rs & _ & E & _).
    destruct (@c41_array_right_partial T Y C opr ds l a g e w HF HT HN HZ HL HB HO HD HW) as (rs' & _ & E' & _).
    split; eexists _, _; eassumption.
  - intros NW. unfold op_array, op_expr_array.
    destruct (@azip_unfine_how T Y C (fun p => pure_call opl (fst p) (snd p)) ds l a e w HF HT HN HZ HL HB HNd HO NW) as (E0 & E1).
    destruct (@azip_unfine_how T Y C (fun p => pure_call opr (snd p) (fst p)) ds l a e w HF HT HN HZ HL HB HNd HO NW) as (_ & E2).
    auto.
Qed.
Print Assumptions c41_array_exact.

(** The transposed view of a [3;0] array as operand: fine for a [3;0] tensor, not for one with dimensions [0;3]. *)
Example c41_exact_example :
  let a := ref_operand (@nil Z) ex_0x3 in
  t_leaves a /\ t_need a = 0%nat /\ denotes a (fun _ => 0) /\ operand_fits [0; 3] a /\
  ~ t_fine (with_target 0 (whole ty2 [0; 3]) a) /\ op_tensor (pure_call Z.sub) t03 (zref [] ex_0x3) w0 = Fault /\
  ~ t_fine (TZip a a) /\ ~ t_fine a /\
  (let b := ref_operand (@nil Z) (whole ty2 [0; 3]) in
   t_leaves b /\ t_need b = 0%nat /\ denotes b (fun _ => 0) /\ operand_fits [0; 3] b /\
   t_fine (with_target 0 (whole ty2 [0; 3]) b) /\ t_fine (TZip b b)).
Proof.
  assert (E : forall idx, ~ in_bounds [0; 3] idx) by (intros idx H; inversion H; lia).
  assert (D : forall v, v_dims v = [0; 3] -> denotes (ref_operand (@nil Z) v) (fun _ => 0)).
  { intros v Hd. apply ref_denotes. rewrite Hd. intros idx H. now apply E in H. }
  assert (V : valid_view 0 (whole ty2 [0; 3])) by (apply whole_valid; wf_tac).
  cbv zeta. split; [exact ex_0x3_valid|]. split; [reflexivity|]. split; [apply D; reflexivity|].
  split; [split; [reflexivity|split; [vm_compute; lia|left; reflexivity]]|].
  split; [intros [_ [H|H]]; [vm_compute in H; inversion H; discriminate|vm_compute in H; discriminate]|].
  split; [vm_compute; reflexivity|].
  split; [intros [_ [H|H]]; [vm_compute in H; inversion H; discriminate|vm_compute in H; discriminate]|].
  split; [intros [_ [H|H]]; [vm_compute in H; inversion H; discriminate|vm_compute in H; discriminate]|].
  split; [exact V|]. split; [reflexivity|]. split; [apply D; reflexivity|].
  split; [split; [reflexivity|split; [vm_compute; lia|left; reflexivity]]|].
  split; (split; [vm_compute; lia|left; constructor]).
Qed.

(** ** C52 *)

(** An owned array zipped with an expression that has a value at every index.  No call of [next], however often
    it is called, reads an element that was moved out exactly if the iterator goes over the array once: it has no
    outer dimensions other than 1, or no elements and none that exceeds 1.  Otherwise it does so eventually. *)
Theorem c52_exact : forall A B ty dims (l : list A) (t : tree B) b g z,
  nonneg dims -> typed ty dims -> Z.of_nat (length l) = prodZ dims ->
  t_leaves t -> t_build t = Ok b -> t_need t = 0%nat -> denotes t g -> e_zip (e_into ty dims l) b = Ok z ->
  let tz := TZip (TInto ty dims l) t in
  (one_pass (t_outer tz) dims -> forall m, exists ys it, it_nexts m (it_new z) = Ok (ys, it)) /\
  (~ one_pass (t_outer tz) dims -> exists m, it_nexts m (it_new z) = UB).
Proof. intros A B ty dims l t b g z HN HT HLen HL HB HNd HD E. exact (left_exact HN HT HLen HL HB HNd HD E). Qed.
Print Assumptions c52_exact.
(** On the right the item of the other operand is computed first, and may panic instead. *)
Theorem c52_right_exact : forall A B ty dims (l : list A) (t : tree B) b g z,
  nonneg dims -> typed ty dims -> Z.of_nat (length l) = prodZ dims ->
  t_leaves t -> t_build t = Ok b -> t_need t = 0%nat -> denotes t g -> e_zip b (e_into ty dims l) = Ok z ->
  let tz := TZip t (TInto ty dims l) in
  (one_pass (t_outer tz) dims -> forall m, exists ys it, it_nexts m (it_new z) = Ok (ys, it)) /\
  (~ one_pass (t_outer tz) dims -> exists m, forall r, it_nexts m (it_new z) <> Ok r).
Proof. intros A B ty dims l t b g z HN HT HLen HL HB HNd HD E. exact (right_exact HN HT HLen HL HB HNd HD E). Qed.
Print Assumptions c52_right_exact.

(** A dense operand, and a transposed one. *)
Example c52_exact_example :
  let into := TInto ty2 [2; 2] [1; 2; 3; 4] in
  let t := ref_operand [5; 6; 7; 8] (whole ty2 [2; 2]) in
  let t' := ref_operand [5; 6; 7; 8] ex_2x2 in
  t_leaves t /\ denotes t (fun idx => 5 + flat [2; 2] idx) /\ one_pass (t_outer (TZip into t)) [2; 2] /\
  (exists b z it, t_build t = Ok b /\ e_zip (e_into ty2 [2; 2] [1; 2; 3; 4]) b = Ok z /\
     it_nexts 6 (it_new z) = Ok ([Some (1, 5); Some (2, 6); Some (3, 7); Some (4, 8); None; None], it)) /\
  t_leaves t' /\ ~ one_pass (t_outer (TZip into t')) [2; 2] /\
  (exists b z, t_build t' = Ok b /\ e_zip (e_into ty2 [2; 2] [1; 2; 3; 4]) b = Ok z /\ it_nexts 6 (it_new z) = UB).
Proof.
  assert (V : valid_view 4 (whole ty2 [2; 2])) by (apply whole_valid; wf_tac). cbv zeta.
  split; [exact V|]. split.
  { apply ref_denotes. intros idx H. apply in_indices in H. vm_compute in H.
    destruct H as [<-|[<-|[<-|[<-|[]]]]]; vm_compute; reflexivity. }
  split; [left; constructor|]. split; [eexists _, _, _; split; [reflexivity|]; split; vm_compute; reflexivity|].
  split; [exact ex_2x2_valid|]. split.
  - intros [H|[H _]]; [vm_compute in H; inversion H; discriminate|vm_compute in H; discriminate].
  - eexists _, _. split; [reflexivity|]. split; vm_compute; reflexivity.
Qed.

(** ** C53 *)

(** [clone] of an expression that is not in use, with [now] the elements that exist outside of the clone: nothing is lost
    or duplicated exactly if no clone panics after another has been made. *)
Theorem c53_clone_exact : forall T C (clone : T -> C -> call T C) (e : into T) (w : world T C) start now,
  tensor_ok (in_buf e) -> in_index e = 0 -> balanced start now w ->
  let '(ys, c, b) := gives (map clone (tn_mem (in_buf e))) (w_clo w) in
  match in_clone clone e w with
  | Done e' w' => b = true /\ balanced start (now ++ tn_mem (in_buf e')) w'
  | Unwound w' => b = false /\ (balanced start now w' <-> ys = [])
  | _ => False
  end.
Proof.
  intros T C clone e w start now Ht HI HB. pose proof (c53_clone clone w Ht HI) as H.
  destruct (gives _ _) as [[ys c] b]. rewrite H. destruct b; (split; [reflexivity|]).
  - cbn [in_buf tn_mem]. apply (lost_after (now' := now ++ ys) (lost := []) c HB); [now rewrite app_nil_r|reflexivity].
  - apply (lost_after (now' := now) (lost := ys) c HB). reflexivity.
Qed.
Print Assumptions c53_clone_exact.
(** [clone_from], whatever the clones and the allocator do: nothing is duplicated, and [lost] are the elements that
    are neither dropped nor reachable any more.  On success these are the old elements. *)
Theorem c53_clone_from_exact : forall T C al (clone : T -> C -> call T C) (src e : into T) (w : world T C) start rest,
  tensor_ok (in_buf e) -> tensor_ok (in_buf src) -> tn_ty (in_buf src) = tn_ty (in_buf e) ->
  balanced start (rest ++ tn_mem (in_buf e)) w ->
  match in_clone_from al clone src (e, w) with
  | Done _ (e', w') | Unwound (e', w') => exists lost,
      Permutation (start ++ w_made w') ((rest ++ tn_mem (in_buf e')) ++ lost ++ w_used w' ++ w_dropped w') /\
      (balanced start (rest ++ tn_mem (in_buf e')) w' <-> lost = [])
  | _ => False
  end.
Proof.
  intros T C al clone src e w start rest Ht Hs TY HB. pose proof (in_clone_from_all al clone w Ht Hs TY) as H.
  destruct (in_clone_from al clone src (e, w)) as [a [e' w']|[e' w']| |]; try contradiction;
    destruct H as (ys & c & lost & -> & HP); exists lost; apply (lost_after c HB);
    rewrite <- !app_assoc; now apply Permutation_app_head.
Qed.
Print Assumptions c53_clone_from_exact.
Theorem c53_clone_from_lost : forall T C al (clone : T -> C -> call T C) (src e : into T) (w : world T C) ys c start rest,
  tensor_ok (in_buf e) -> tensor_ok (in_buf src) -> in_index e = 0 -> in_index src = 0 -> (forall n, al_ok al n = true) ->
  gives (map clone (tn_mem (in_buf src))) (w_clo w) = (ys, c, true) -> balanced start (rest ++ tn_mem (in_buf e)) w ->
  exists e' w', in_clone_from al clone src (e, w) = Done tt (e', w') /\ tn_mem (in_buf e') = ys /\
    (balanced start (rest ++ tn_mem (in_buf e')) w' <-> tn_mem (in_buf e) = []).
Proof.
  intros T C al clone src e w ys c start rest Ht Hs HI HJ Hal HG HB.
  destruct (c53_clone_from Ht Hs HI HJ Hal HG) as (cap & _ & E). eexists _, _. split; [exact E|]. cbn [in_buf tn_mem].
  split; [reflexivity|]. apply (lost_after c HB). rewrite <- !app_assoc. apply Permutation_app_head, Permutation_app_comm.
Qed.
Print Assumptions c53_clone_from_lost.

(** The first clone panics, and the third one; an empty target and a full one. *)
Example c53_exact_example :
  balanced (tn_mem t23) (tn_mem t23) w0 /\
  (exists w, in_clone (fun x (c : Z) => Throws c) in23 w0 = Unwound w /\ balanced (tn_mem t23) (tn_mem t23) w) /\
  (exists w, in_clone dup in23 w0 = Unwound w /\ ~ balanced (tn_mem t23) (tn_mem t23) w) /\
  (exists e w, in_clone_from al0 keep in13 (mkInto t03 0, w0) = Done tt (e, w) /\ balanced [] (tn_mem (in_buf e)) w).
Proof.
  split; [apply Permutation_refl|]. split; [eexists; split; [vm_compute; reflexivity|apply Permutation_refl]|]. split.
  - eexists. split; [vm_compute; reflexivity|]. intros H. apply Permutation_length in H. discriminate.
  - eexists _, _. split; [vm_compute; reflexivity|]. apply Permutation_refl.
Qed.

(** ** C56 *)

(** A view that is iterated alone, if only its elements are visited ([view_fine]): the pointer stays in the
    allocation exactly if [stays] holds; otherwise every internal iteration is undefined. *)
Theorem c56_exact : forall n rep v T (f : T -> Z -> outcome T) acc,
  valid_view n v -> view_fine v ->
  (stays n v -> e_fold (e_view_in n rep v) f acc = foldM f (map (v_addr v) (indices (v_dims v))) acc) /\
  (~ stays n v -> e_fold (e_view_in n rep v) f acc = UB).
Proof. intros n rep v T f acc Hv HF. split; [now apply stays_ok|now apply stays_not]. Qed.
Print Assumptions c56_exact.
(** Only views without elements fail it. *)
Theorem c56_exact_empty : forall n v, valid_view n v -> view_fine v -> ~ stays n v ->
  prodZ (v_dims v) = 0 /\ (v_layout v = Strided -> (2 <= length (v_dims v))%nat -> last (v_dims v) 1 = 0).
Proof. exact not_stays_empty. Qed.
Print Assumptions c56_exact_empty.

(** No columns of a 3x4 array: fine in order, not with the rows reversed. *)
Definition ex_fwd : view := mkView 0 (StridedM ty2 [3; 0] [4; 1]).
Definition ex_bwd : view := mkView 0 (StridedM ty2 [3; 0] [-4; 1]).
Example c56_exact_example :
  valid_view 12 ex_fwd /\ view_fine ex_fwd /\ stays 12 ex_fwd /\ e_collect (e_view_in 12 true ex_fwd) = Ok [] /\
  valid_view 12 ex_bwd /\ view_fine ex_bwd /\ ~ stays 12 ex_bwd /\ e_collect (e_view_in 12 true ex_bwd) = UB.
Proof.
  assert (W : forall s, valid_view 12 (mkView 0 (StridedM ty2 [3; 0] [s; 1]))) by (intros s; apply empty_valid; [wf_tac|reflexivity]).
  split; [apply W|]. split; [right; right; reflexivity|]. split.
  { unfold stays. cbn [v_layout ex_fwd v_map m_layout v_dims m_dims length Nat.leb]. intros idx H.
    apply in_indices in H. vm_compute in H. destruct H as [<-|[<-|[<-|[]]]]; vm_compute; split; discriminate. }
  split; [vm_compute; reflexivity|]. split; [apply W|]. split; [right; right; reflexivity|]. split.
  { unfold stays. cbn [v_layout ex_bwd v_map m_layout v_dims m_dims length Nat.leb]. intros H.
    specialize (H [1; 0]). assert (B : in_bounds (map (Z.max 1) (v_dims ex_bwd)) [1; 0]) by (cbn; repeat constructor; lia).
    apply H in B. vm_compute in B. destruct B as [B _]. now apply B. }
  vm_compute. reflexivity.
Qed.
