(** Theorems for C52-C55: consumed arrays in zips, clones of consuming expressions, copies of subarrays
    and the [nightly] form of the guard that protects a tensor while it is changed.

    Vocabulary: [ConsumeSpec.v], [TensorSpec.v]. *)
From Verif Require Import Base Spec SpecFacts Shape Mapping Index View Wf MappingFacts MapOps
  ReshapeFacts IndexFacts ViewFacts ViewMore PropsView.
From Verif Require Import Expr ExprSpec ExprFacts IterFacts SourceFacts ExprTree ExprMore PropsExpr.
From Verif Require Import Tensor TraceFacts TensorSpec TensorFacts ResizeFacts TensorOps DrainFacts OwnFacts
  ZipFacts OwnMore History HistoryFacts OwnProps PropsTensor.
From Verif Require Import Consume ConsumeSpec ConsumeFacts.
Unset Strict Implicit.

(** ** C52 *)

(** Whatever the other operand is and however often [next] is called: the elements that came out are the first
    ones in order, each once, and dropping the iterator drops exactly the others. *)
Theorem c52_left : forall A B ty dims (l : list A) (b : expression B) d n xs it,
  it_nexts n (it_new (zip_expr (e_into ty dims l) b d)) = Ok (xs, it) ->
  map fst (somes xs) = firstn (length (somes xs)) l /\
  into_dropped l (fst (it_st it)) = skipn (length (somes xs)) l.
Proof. exact @zip_into_left. Qed.
Print Assumptions c52_left.
Theorem c52_right : forall A B ty dims (l : list A) (b : expression B) d n xs it,
  it_nexts n (it_new (zip_expr b (e_into ty dims l) d)) = Ok (xs, it) ->
  map snd (somes xs) = firstn (length (somes xs)) l /\
  into_dropped l (snd (it_st it)) = skipn (length (somes xs)) l.
Proof. exact @zip_into_right. Qed.
Print Assumptions c52_right.
(** [zip] builds these expressions. *)
Theorem c52_zip : forall A B (a : expression A) (b : expression B) z,
  e_zip a b = Ok z -> z = zip_expr a b (e_dims z).
Proof. exact @e_zip_shape. Qed.
Print Assumptions c52_zip.

(** The same for a drained range: afterwards the tensor holds the rows outside the range. *)
Theorem c52_drain_left : forall T (t : tensor T) lo hi n ds,
  tensor_ok t -> has_rows t n ds -> n <= usize_max -> bound_arg lo -> bound_arg hi ->
  range_lo lo <= range_hi n hi <= n ->
  let a := range_lo lo in let b := range_hi n hi in
  exists d, tn_drain t lo hi = Ok d /\
    forall B (e : expression B) dims m xs it,
      it_nexts m (it_new (zip_expr (e_drain d) e dims)) = Ok (xs, it) ->
      let out := rows_of (n :: ds) (tn_mem t) a b in
      map fst (somes xs) = firstn (length (somes xs)) out /\
      forall C (w : world T C),
        drain_drop (fst (it_st it)) w =
        Done tt (mkTensor (tn_ty t) (n - (b - a) :: ds)
                   (rows_of (n :: ds) (tn_mem t) 0 a ++ rows_of (n :: ds) (tn_mem t) b n) (tn_cap t),
                 w_drop (skipn (length (somes xs)) out) w).
Proof. exact @drain_zip_left. Qed.
Print Assumptions c52_drain_left.
Theorem c52_drain_right : forall T (t : tensor T) lo hi n ds,
  tensor_ok t -> has_rows t n ds -> n <= usize_max -> bound_arg lo -> bound_arg hi ->
  range_lo lo <= range_hi n hi <= n ->
  let a := range_lo lo in let b := range_hi n hi in
  exists d, tn_drain t lo hi = Ok d /\
    forall B (e : expression B) dims m xs it,
      it_nexts m (it_new (zip_expr e (e_drain d) dims)) = Ok (xs, it) ->
      let out := rows_of (n :: ds) (tn_mem t) a b in
      map snd (somes xs) = firstn (length (somes xs)) out /\
      forall C (w : world T C),
        drain_drop (snd (it_st it)) w =
        Done tt (mkTensor (tn_ty t) (n - (b - a) :: ds)
                   (rows_of (n :: ds) (tn_mem t) 0 a ++ rows_of (n :: ds) (tn_mem t) b n) (tn_cap t),
                 w_drop (skipn (length (somes xs)) out) w).
Proof. exact @drain_zip_right. Qed.
Print Assumptions c52_drain_right.

(** No undefined behaviour in the first pass: [n] calls of [next] with [n] up to the number of elements give the
    first [n] pairs, and the next call gives [None].  Missing: calls after [None], see [c52_refuted]. *)
Theorem c52_pass_partial : forall A B ty dims (l : list A) (t : tree B) b d n xs s,
  let z := zip_expr (e_into ty dims l) b d in
  let tz := TZip (TInto ty dims l) t in
  t_leaves tz -> t_build t = Ok b -> e_zip (e_into ty dims l) b = Ok z -> t_next_fine tz ->
  (n <= length l)%nat -> items (t_act tz) (firstn n (indices (t_dims tz))) (t_init tz) = Ok (xs, s) ->
  t_dims tz = dims /\
  exists it, it_nexts n (it_new z) = Ok (map Some xs, it) /\ map fst xs = firstn n l /\
    into_dropped l (fst (it_st it)) = skipn n l /\
    (n = length l -> exists it', it_next it = Ok (None, it') /\ into_dropped l (fst (it_st it')) = [] /\
       (t_outer tz = 0%nat -> forall k, exists it'', it_nexts k it' = Ok (repeat None k, it''))).
Proof. exact @zip_into_pass. Qed.
Print Assumptions c52_pass_partial.

(** A 2x2 array zipped with a transposed one. *)
Definition z22 : expression (Z * Z) := zip_expr (e_into ty2 [2; 2] [1; 2; 3; 4]) (e_view 4 true ex_2x2) [2; 2].
Example c52_example :
  e_zip (e_into ty2 [2; 2] [1; 2; 3; 4]) (e_view 4 true ex_2x2) = Ok z22 /\
  (exists it, it_nexts 3 (it_new z22) = Ok ([Some (1, 0); Some (2, 2); Some (3, 1)], it) /\
     into_dropped [1; 2; 3; 4] (fst (it_st it)) = [4]) /\
  (let t := TView 4 true ex_2x2 in let tz := TZip (TInto ty2 [2; 2] [1; 2; 3; 4]) t in
   t_leaves tz /\ t_next_fine tz /\ t_outer tz = 1%nat /\
   items (t_act tz) (firstn 3 (indices (t_dims tz))) (t_init tz) = Ok ([(1, 0); (2, 2); (3, 1)], (tt, tt))).
Proof.
  split; [reflexivity|]. split; [eexists; vm_all|]. split; [split; [split; [wf_tac|split; [wf_tac|reflexivity]]|exact ex_2x2_valid]|].
  split; [split; [vm_compute; lia|right; repeat constructor]|]. split; [reflexivity|]. vm_compute. reflexivity.
Qed.
(** Two rows of a 4x2 tensor drained together with a transposed operand: rows 0 and 3 remain. *)
Example c52_drain_example :
  exists d it, tn_drain t42 (Included 1) (Excluded 3) = Ok d /\
    it_nexts 2 (it_new (zip_expr (e_drain d) (e_view 4 true ex_2x2) [2; 2])) = Ok ([Some (3, 0); Some (4, 2)], it) /\
    drain_drop (fst (it_st it)) w0 = Done tt (mkTensor ty2 [2; 2] [1; 2; 7; 8] 8, w_drop [5; 6] w0).
Proof. eexists _, _. vm_all. Qed.
(** An owned array on the right, with a repeated left operand. *)
Example c52_right_example : exists it,
  it_nexts 2 (it_new (zip_expr (e_view 4 true (whole ty1 [2])) (e_into ty2 [2; 2] [1; 2; 3; 4]) [2; 2])) =
    Ok ([Some (0, 1); Some (1, 2)], it) /\
  into_dropped [1; 2; 3; 4] (snd (it_st it)) = [3; 4].
Proof. eexists. vm_all. Qed.

(** Calls of [next] after [None] read elements that have been moved out: the operand with several dimensions makes the
    iterator start again.  All of this is safe code. *)
Theorem c52_refuted :
  e_zip (e_into ty2 [2; 2] [1; 2; 3; 4]) (e_view 4 true ex_2x2) = Ok z22 /\ valid_view 4 ex_2x2 /\
  (exists it, it_nexts 5 (it_new z22) = Ok ([Some (1, 0); Some (2, 2); Some (3, 1); Some (4, 3); None], it)) /\
  it_nexts 6 (it_new z22) = UB.
Proof. split; [reflexivity|]. split; [exact ex_2x2_valid|]. split; [eexists|]; vm_compute; reflexivity. Qed.
Print Assumptions c52_refuted.
Theorem c52_drain_refuted : exists (t : tensor Z) d z,
  tensor_ok t /\ tn_drain t (Included 1) (Excluded 3) = Ok d /\ e_zip (e_drain d) (e_view 4 true ex_2x2) = Ok z /\
  (exists xs it, it_nexts 5 (it_new z) = Ok (xs ++ [None], it)) /\ it_nexts 6 (it_new z) = UB.
Proof.
  eexists t42, _, _. split; [constructor; simpl; (reflexivity || lia || wf_tac)|].
  split; [vm_compute; reflexivity|]. split; [vm_compute; reflexivity|].
  split; [eexists [Some _; Some _; Some _; Some _], _|]; vm_compute; reflexivity.
Qed.
Print Assumptions c52_drain_refuted.

(** ** C53 *)

(** The clone of an unused expression consists of the clones of the elements in order; if one panics, the
    clones made before it are neither given away nor dropped. *)
Theorem c53_clone : forall T C (clone : T -> C -> call T C) (e : into T) (w : world T C),
  tensor_ok (in_buf e) -> in_index e = 0 ->
  in_clone clone e w =
  let '(ys, c, b) := gives (map clone (tn_mem (in_buf e))) (w_clo w) in
  if b then Done (mkInto (mkTensor (tn_ty (in_buf e)) (tn_dims (in_buf e)) ys (zlen ys)) 0) (after c ys [] w)
  else Unwound (after c ys [] w).
Proof. exact @in_clone_eq. Qed.
Print Assumptions c53_clone.
(** An expression in use is refused; nothing is cloned. *)
Theorem c53_in_use : forall T C al (clone : T -> C -> call T C) (e src : into T) (w : world T C),
  (in_index e <> 0 -> in_clone clone e w = Unwound w) /\
  (in_index e <> 0 \/ in_index src <> 0 -> in_clone_from al clone src (e, w) = Unwound (e, w)).
Proof.
  intros T C al clone e src w. unfold in_clone, in_clone_from, seqM, check. split.
  - intros H. destruct (Z.eqb_spec (in_index e) 0); [contradiction|reflexivity].
  - intros H. destruct (Z.eqb_spec (in_index e) 0), (Z.eqb_spec (in_index src) 0); cbn [andb]; try reflexivity. lia.
Qed.
Print Assumptions c53_in_use.
(** [clone_from] has the contents of [clone]; none of the elements that it replaces is dropped. *)
Theorem c53_clone_from : forall T C al (clone : T -> C -> call T C) (src e : into T) (w : world T C) ys c,
  tensor_ok (in_buf e) -> tensor_ok (in_buf src) -> in_index e = 0 -> in_index src = 0 -> (forall n, al_ok al n = true) ->
  gives (map clone (tn_mem (in_buf src))) (w_clo w) = (ys, c, true) ->
  exists cap, zlen ys <= cap /\
    in_clone_from al clone src (e, w) =
    Done tt (mkInto (mkTensor (tn_ty (in_buf e)) (tn_dims (in_buf src)) ys cap) 0, after c ys [] w).
Proof. exact @in_clone_from_eq. Qed.
Print Assumptions c53_clone_from.
(** Whatever the clones and the allocator do: the target stays consistent, and the process is never aborted,
    since operands of a constant shape have the same length throughout. *)
Theorem c53_clone_from_safe : forall T C al (clone : T -> C -> call T C) (src e : into T) (w : world T C),
  tensor_ok (in_buf e) -> tensor_ok (in_buf src) -> tn_ty (in_buf src) = tn_ty (in_buf e) ->
  match in_clone_from al clone src (e, w) with
  | Done _ (e', _) | Unwound (e', _) =>
      tensor_ok (in_buf e') /\ tn_ty (in_buf e') = tn_ty (in_buf e) /\ in_index e' = in_index e
  | _ => False
  end.
Proof. exact @in_clone_from_post. Qed.
Print Assumptions c53_clone_from_safe.
(** Dropping an expression drops the elements that were not moved out. *)
Theorem c53_drop : forall T C (e : into T) (w : world T C),
  tensor_ok (in_buf e) -> 0 <= in_index e <= prodZ (tn_dims (in_buf e)) ->
  in_drop e w = Done tt (w_drop (skipn (Z.to_nat (in_index e)) (tn_mem (in_buf e))) w).
Proof. exact @in_drop_eq. Qed.
Print Assumptions c53_drop.
(** Clone and drop: nothing is lost as long as no clone panics. *)
Theorem c53_balanced_partial : forall T C (clone : T -> C -> call T C) (e : into T) (w : world T C) ys c,
  tensor_ok (in_buf e) -> in_index e = 0 -> gives (map clone (tn_mem (in_buf e))) (w_clo w) = (ys, c, true) ->
  exists e' w', in_clone clone e w = Done e' w' /\ tensor_ok (in_buf e') /\ in_index e' = 0 /\
    in_drop e' w' = Done tt (after c ys ys w).
Proof.
  intros T C clone e w ys c Ht HI HG. pose proof (in_clone_eq clone w Ht HI) as H. rewrite HG in H.
  assert (OK : tensor_ok (mkTensor (tn_ty (in_buf e)) (tn_dims (in_buf e)) ys (zlen ys))).
  { destruct (gives_length HG) as [_ L]. specialize (L eq_refl). rewrite map_length in L.
    constructor; cbn [tn_dims tn_ty tn_mem tn_cap]; try apply Ht; [|unfold zlen; lia]. rewrite L. apply Ht. }
  eexists _, _. split; [exact H|]. split; [exact OK|]. split; [reflexivity|].
  rewrite in_drop_eq; [|exact OK|]. 2:{ cbn [in_index in_buf tn_dims]. pose proof (prodZ_nonneg (to_nonneg Ht)). lia. }
  cbn [in_index in_buf tn_mem Z.to_nat skipn]. f_equal. unfold w_drop, after. cbn [w_clo w_made w_used w_dropped]. now rewrite app_nil_r.
Qed.
Print Assumptions c53_balanced_partial.

Definition in23 : into Z := mkInto t23 0.
Definition in13 : into Z := mkInto t13 0.
Definition dup (x c : Z) : call Z Z := if c =? 2 then Throws c else Gives (10 * x) (c + 1).
Example c53_example :
  in_clone (fun x c => Gives (10 * x) (c + 1)) in13 w0 =
    Done (mkInto (mkTensor ty2 [1; 3] [70; 80; 90] 3) 0) (after 3 [70; 80; 90] [] w0) /\
  in_clone keep (mkInto t13 1) w0 = Unwound w0 /\
  in_drop (mkInto t13 1) w0 = Done tt (w_drop [8; 9] w0) /\
  in_clone_from al0 keep in13 (in23, w0) =
    Done tt (mkInto (mkTensor ty2 [1; 3] [7; 8; 9] 6) 0, after 0 [7; 8; 9] [] w0) /\
  in_clone_from al0 keep in13 (mkInto t23 2, w0) = Unwound (mkInto t23 2, w0) /\
  in_clone_from al0 keep (mkInto t13 1) (in23, w0) = Unwound (in23, w0).
Proof. vm_all. Qed.
(** A panic while the vector has the length of its shape: the elements so far are assigned.  When the vector
    is longer or shorter, the expression is empty afterwards.  A constant shape is kept. *)
Example c53_safe_example : let c12 := STuple [DConst 1; DConst 3] in
  in_clone_from al0 dup (mkInto (mkTensor c12 [1; 3] [4; 5; 6] 3) 0) (mkInto (mkTensor c12 [1; 3] [7; 8; 9] 3) 0, w0) =
    Unwound (mkInto (mkTensor c12 [1; 3] [40; 50; 9] 3) 0, after 2 [40; 50] [] w0) /\
  in_clone_from al0 dup in23 (in13, w0) = Unwound (mkInto (mkTensor ty2 [1; 3] [10; 20; 9] 3) 0, after 2 [10; 20] [] w0) /\
  in_clone_from al0 dup in13 (in23, w0) = Unwound (mkInto (mkTensor ty2 [0; 0] [] 6) 0, after 2 [70; 80] [] w0) /\
  in_clone_from (mkAlloc (fun n => n <=? 3) (fun _ n => n)) keep in23 (mkInto (mkTensor ty2 [1; 1] [0] 1) 0, w0) =
    Unwound (mkInto (mkTensor ty2 [1; 1] [1] 1) 0, after 0 [1] [] w0).
Proof. cbv zeta. vm_all. Qed.

(** A panic in the third clone: two clones are lost.  [clone_from]: the six old elements are lost even though nothing
    panics. *)
Theorem c53_refuted :
  tensor_ok (in_buf in23) /\ tensor_ok (in_buf in13) /\ balanced (tn_mem t23) (tn_mem t23) w0 /\
  (exists w, in_clone dup in23 w0 = Unwound w /\ w_made w = [10; 20] /\ w_dropped w = [] /\ ~ balanced (tn_mem t23) (tn_mem t23) w) /\
  (exists e w, in_clone_from al0 keep in13 (in23, w0) = Done tt (e, w) /\ ~ balanced (tn_mem t23) (tn_mem (in_buf e)) w).
Proof.
  split; [exact t23_ok|]. split; [exact t13_ok|]. split; [apply Permutation_refl|]. split.
  - eexists. split; [vm_compute; reflexivity|]. split; [reflexivity|]. split; [reflexivity|].
    intros H. apply Permutation_length in H. discriminate.
  - eexists _, _. split; [vm_compute; reflexivity|]. intros H. apply Permutation_length in H. discriminate.
Qed.
Print Assumptions c53_refuted.

(** ** C54 *)

(** [to_tensor], [to_owned], [to_array]: the clones of the view's elements in row-major order; if one panics, those made
    before it are dropped.  Missing: strided views that are empty in an outer dimension, see [c54_refuted]. *)
Theorem c54_copy_partial : forall T C W (mem : list T) (clone : T -> C -> outcome (T * C)) c0 v,
  valid_view (zlen mem) v -> view_fine v -> (forall x c, proper (clone x c)) ->
  exists src, map Some src = elements mem v /\
    (forall al (w : world T W), (forall n, al_ok al n = true) ->
       match clones clone src c0 with
       | (ys, Ok _) => exists cap, zlen ys = prodZ (v_dims v) /\ zlen ys <= cap /\
           v_to_tensor al mem clone c0 v w = Done (mkTensor (v_ty v) (v_dims v) ys cap) (after (w_clo w) ys [] w)
       | (ys, _) => v_to_tensor al mem clone c0 v w = Unwound (after (w_clo w) ys ys w)
       end) /\
    (forall ds (w : world T W), consts ds -> typed (STuple ds) (v_dims v) ->
       match clones clone src c0 with
       | (ys, Ok _) => zlen ys = prodZ (v_dims v) /\ v_to_array ds mem clone c0 v w = Done ys (after (w_clo w) ys [] w)
       | (ys, _) => v_to_array ds mem clone c0 v w = Unwound (after (w_clo w) ys ys w)
       end).
Proof. exact @copy_view. Qed.
Print Assumptions c54_copy_partial.
(** [tensor(..)] and [array(..)]: the same for the elements that the indices select. *)
Theorem c54_sub_partial : forall T C W (mem : list T) (clone : T -> C -> outcome (T * C)) c0 v ix,
  valid_view (zlen mem) v -> Forall ix_arg ix -> Forall (fun d => d <= usize_max) (v_dims v) ->
  length ix = length (v_dims v) -> Forall2 ix_ok (v_dims v) ix -> (forall x c, proper (clone x c)) ->
  (forall v', v_view v ix = Ok v' -> view_fine v') ->
  let dims := sub_dims (v_dims v) ix in
  exists src, map Some src = map (fun idx => nth_error mem (Z.to_nat (v_addr v (sub_index (v_dims v) ix idx)))) (indices dims) /\
    (forall al (w : world T W), (forall n, al_ok al n = true) ->
       match clones clone src c0 with
       | (ys, Ok _) => exists ty cap, typed ty dims /\ zlen ys = prodZ dims /\ zlen ys <= cap /\
           v_tensor al mem clone c0 v ix w = Done (mkTensor ty dims ys cap) (after (w_clo w) ys [] w)
       | (ys, _) => v_tensor al mem clone c0 v ix w = Unwound (after (w_clo w) ys ys w)
       end) /\
    (forall ds (w : world T W), consts ds -> typed (STuple ds) dims ->
       match clones clone src c0 with
       | (ys, Ok _) => zlen ys = prodZ dims /\ v_array ds mem clone c0 v ix w = Done ys (after (w_clo w) ys [] w)
       | (ys, _) => v_array ds mem clone c0 v ix w = Unwound (after (w_clo w) ys ys w)
       end).
Proof. exact @copy_sub. Qed.
Print Assumptions c54_sub_partial.
(** Indices outside of the view, and an [array(..)] whose constants do not match, are refused before anything is
    cloned. *)
Theorem c54_panics : forall T C W (mem : list T) (clone : T -> C -> outcome (T * C)) c0 v ix al ds (w : world T W),
  valid_view (zlen mem) v -> Forall ix_arg ix -> Forall (fun d => d <= usize_max) (v_dims v) ->
  length ix = length (v_dims v) ->
  (~ Forall2 ix_ok (v_dims v) ix ->
     v_tensor al mem clone c0 v ix w = Unwound w /\ v_array ds mem clone c0 v ix w = Unwound w) /\
  (Forall2 ix_ok (v_dims v) ix -> ~ typed (STuple ds) (sub_dims (v_dims v) ix) ->
     v_array ds mem clone c0 v ix w = Unwound w).
Proof.
  intros T C W mem clone c0 v ix al ds w HV HA HS HL. split.
  - intros HN. destruct (proj1 (@view_panic_iff v ix (vv_wf HV) HA HS HL)) as [_ E]. specialize (E HN).
    unfold v_tensor, v_array, seqM, lift. rewrite E. auto.
  - intros HO HT. destruct (@view_ok v ix (vv_wf HV) HA HS HL HO) as (v' & E & ED & _).
    unfold v_array, seqM, lift. rewrite E. apply ar_from_mismatch. cbn [v_cloned e_cloned e_dims e_view].
    change (~ typed (STuple ds) (v_dims v')). now rewrite ED.
Qed.
Print Assumptions c54_panics.

Definition twice (x : Z) (c : Z) : outcome (Z * Z) := Ok (2 * x, c + 1).
Definition twice_but (x : Z) (c : Z) : outcome (Z * Z) := if c =? 2 then Panic else Ok (2 * x, c + 1).
Definition mem6 : list Z := [1; 2; 3; 4; 5; 6].
Example c54_example : let v := whole ty2 [2; 3] in let ix := [IxFull; IxStep Unbounded Unbounded (-2)] in
  valid_view (zlen mem6) v /\ Forall ix_arg ix /\ Forall2 ix_ok (v_dims v) ix /\ sub_dims (v_dims v) ix = [2; 2] /\
  (forall v', v_view v ix = Ok v' -> view_fine v') /\
  clones twice [3; 1; 6; 4] 0 = ([6; 2; 12; 8], Ok tt) /\ clones twice_but [3; 1; 6; 4] 0 = ([6; 2], Panic) /\
  v_tensor al0 mem6 twice 0 v ix w0 = Done (mkTensor ty2 [2; 2] [6; 2; 12; 8] 4) (after 0 [6; 2; 12; 8] [] w0) /\
  v_tensor al0 mem6 twice_but 0 v ix w0 = Unwound (after 0 [6; 2] [6; 2] w0) /\
  v_array [DConst 2; DConst 2] mem6 twice 0 v ix w0 = Done [6; 2; 12; 8] (after 0 [6; 2; 12; 8] [] w0) /\
  v_array [DConst 2; DConst 3] mem6 twice 0 v ix w0 = Unwound w0 /\
  v_tensor al0 mem6 twice 0 v [IxFull; IxUsize 3] w0 = Unwound w0 /\
  v_to_tensor al0 mem6 twice 0 (mkView 0 (StridedM ty2 [3; 2] [1; 3])) w0 =
    Done (mkTensor ty2 [3; 2] [2; 8; 4; 10; 6; 12] 6) (after 0 [2; 8; 4; 10; 6; 12] [] w0).
Proof.
  cbv zeta. split; [apply whole_valid; try wf_tac; vm_compute; discriminate|].
  split; [repeat constructor; simpl; unfold usize_max; lia|]. split; [repeat constructor; simpl; lia|]. split; [reflexivity|].
  split; [intros v' E; vm_compute in E; injection E as <-; right; left; repeat constructor|].
  split; [reflexivity|]. split; [reflexivity|]. vm_all.
Qed.

(** Copying the columns 0..1 of no rows reads an element and writes past the end of the new tensor. *)
Theorem c54_refuted : let v := whole ty2 [2; 3] in
  let ix := [IxRange (Included 0) (Excluded 0); IxRange (Included 0) (Excluded 1)] in
  valid_view (zlen mem6) v /\ Forall ix_arg ix /\ Forall2 ix_ok (v_dims v) ix /\ sub_dims (v_dims v) ix = [0; 1] /\
  v_tensor al0 mem6 twice 0 v ix w0 = Fault.
Proof.
  cbv zeta. split; [apply whole_valid; try wf_tac; vm_compute; discriminate|].
  split; [repeat constructor; simpl; unfold usize_max; lia|]. split; [repeat constructor; simpl; lia|]. split; [reflexivity|].
  vm_compute. reflexivity.
Qed.
Print Assumptions c54_refuted.

(** ** C55 *)

(** The [nightly] guard does the same as the stable one for shapes with a dynamic dimension, and for every shape as long
    as nothing panics. *)
Theorem c55_dynamic_partial : forall T C al new (f : C -> call T C) t (w : world T C),
  prodZ (sh_default (tn_ty t)) = 0 -> tn_resize_with_nightly al new f (t, w) = tn_resize_with al new f (t, w).
Proof. exact @nightly_resize_same. Qed.
Print Assumptions c55_dynamic_partial.
Theorem c55_done : forall T C al new (f : C -> call T C) t (w : world T C) s,
  tn_resize_with al new f (t, w) = Done tt s -> tn_resize_with_nightly al new f (t, w) = Done tt s.
Proof. exact @nightly_resize_done. Qed.
Print Assumptions c55_done.
(** So the tensor stays consistent and nothing is lost, whatever panics (C49). *)
Theorem c55_safe_partial : forall T C al new (f : C -> call T C) t (w : world T C),
  tensor_ok t -> nonneg new -> prodZ (sh_default (tn_ty t)) = 0 ->
  match tn_resize_with_nightly al new f (t, w) with
  | Done _ (t', w') | Unwound (t', w') =>
      tensor_ok t' /\ tn_ty t' = tn_ty t /\
      Permutation (tn_mem t ++ w_made w' ++ w_used w ++ w_dropped w)
                  (tn_mem t' ++ w_made w ++ w_used w' ++ w_dropped w')
  | _ => False
  end.
Proof. intros T C al new f t w Ht Hn Hd. rewrite nightly_resize_same by exact Hd. now apply resize_unwound. Qed.
Print Assumptions c55_safe_partial.
(** Any operation under the guard. *)
Theorem c55_guard_partial : forall T C A (m : shty -> M (parts T C) A) t (w : world T C),
  prodZ (sh_default (tn_ty t)) = 0 -> with_mut_parts_nightly m (t, w) = with_mut_parts m (t, w).
Proof. exact @nightly_same. Qed.
Print Assumptions c55_guard_partial.

Example c55_example : let ty := STuple [DDyn; DConst 3] in
  prodZ (sh_default ty) = 0 /\
  tn_resize_with_nightly al0 [2; 4] count (mkTensor ty [2; 3] [1; 2; 3; 4; 5; 6] 6, w0) =
    Unwound (mkTensor ty [0; 3] [] 8, mkWorld 2 [100; 101] [] [1; 2; 3; 100; 4; 5; 6; 101]) /\
  tn_resize_with_nightly al0 [1; 2] count (t23, w0) = Done tt (mkTensor ty2 [1; 2] [1; 2] 2, mkWorld 0 [] [] [3; 4; 5; 6]).
Proof. cbv zeta. vm_all. Qed.

(** Dropping a tensor drops each of its elements once. *)
Theorem c36_drop : forall T C (t : tensor T) (w : world T C),
  tensor_ok t -> tn_drop t w = Done tt (w_drop (tn_mem t) w).
Proof. intros T C t w Ht. unfold tn_drop. now rewrite (to_vec_ok Ht). Qed.
Print Assumptions c36_drop.
Example c36_drop_example : tn_drop t23 w0 = Done tt (mkWorld 0 [] [] [1; 2; 3; 4; 5; 6]).
Proof. reflexivity. Qed.

(** A shape without dynamic dimension: after the caught panic the tensor claims four elements of which none is there
    (they have been dropped), and dropping it is undefined behaviour.  The stable guard aborts the process
    instead (C49). *)
Theorem c55_refuted : exists (t : tensor Z) new t' w',
  tensor_ok t /\ nonneg new /\ length new = length (tn_dims t) /\ fits new /\
  tn_resize_with al0 new count (t, w0) = Aborted /\
  tn_resize_with_nightly al0 new count (t, w0) = Unwound (t', w') /\
  ~ tensor_ok t' /\ prodZ (tn_dims t') = 4 /\ tn_mem t' = [] /\ tn_drop t' w' = Fault.
Proof.
  exists (mkTensor (STuple [DConst 2; DConst 2]) [2; 2] [1; 2; 3; 4] 4), [2; 3]. eexists _, _.
  split; [constructor; simpl; (reflexivity || lia || wf_tac)|]. split; [wf_tac|]. split; [reflexivity|].
  split; [intros [|[|[|k]]]; vm_compute; discriminate|]. split; [vm_compute; reflexivity|]. split; [vm_compute; reflexivity|].
  split; [|vm_all]. intros H. pose proof (to_len H) as L. vm_compute in L. discriminate.
Qed.
Print Assumptions c55_refuted.
