(** C85: fixed-size arrays with machine integers. *)
From Verif Require Import Base Spec SpecFacts Shape Mapping Index View Wf MappingFacts MapOps ReshapeFacts
  Expr ExprSpec ExprTree ExprMore Tensor TensorSpec TensorFacts TensorOps OwnFacts ZipFacts Ops OpsFacts OpsMore
  Serde SerdeSpec SerdeFacts SerdeMore PropsView PropsExpr PropsTensor PropsOps PropsSerde.
From Verif Require Import Machine MachineSpec MachineFacts MachineIter MachineTensor MachineTensorFacts MachineSerde MachineSerdeFacts.
From Verif Require Import PropsMachineSerde MachineArray MachineArrayFacts.
Unset Strict Implicit.

(** [from_expr], also from a tensor: in both builds what the model with unbounded integers does, panics of the
    expression and drops included. *)
Theorem c85_from_expr : forall (dbg : bool) (T C : Type) (ds : list dimty) (e : expression T) (w : world T C),
  prodZ (map dim_default ds) <= isize_max -> nonneg (e_dims e) -> machine_operand dbg e ->
  xr_from_expr dbg ds e w = ar_from_expr ds e w.
Proof. intros. now apply xr_from_expr_ok. Qed.
Print Assumptions c85_from_expr.
Theorem c85_from_tensor : forall (dbg : bool) (T C : Type) (ds : list dimty) (t : tensor T) (w : world T C),
  prodZ (map dim_default ds) <= isize_max -> tensor_ok t -> small dbg t ->
  xr_from_tensor dbg ds t w = ar_from_tensor ds t w /\
  (consts ds -> tn_ty t = STuple ds -> xr_from_tensor dbg ds t w = Done (tn_mem t) w).
Proof. intros. rewrite xr_from_tensor_ok by auto. split; [reflexivity|]. intros. now apply ar_from_tensor_done. Qed.
Print Assumptions c85_from_tensor.

(** [map], for every array that can exist, whatever the closure does: it is called on the elements in
    order; at a panic the results so far and the elements not yet given to it are dropped, once.  An array
    type whose length is not representable on the way is refused. *)
Theorem c85_map : forall (dbg : bool) (T C : Type) (ds : list dimty) (l : list T) (f : T -> C -> call T C) (w : world T C),
  let dims := map dim_default ds in
  nonneg dims -> machine_dims dims -> typed (STuple ds) dims -> prodZ dims <= isize_max -> zlen l = prodZ dims ->
  (fits dims -> xr_map dbg ds l f w =
     let '(rs, c, b) := gives (map f l) (w_clo w) in
     if b then Done rs (mkWorld c (w_made w ++ rs) (w_used w ++ l) (w_dropped w))
     else Unwound (mkWorld c (w_made w ++ rs) (w_used w ++ firstn (S (length rs)) l)
                     (w_dropped w ++ skipn (S (length rs)) l ++ rs))) /\
  (~ fits dims -> xr_map dbg ds l f w = Unwound (mkWorld (w_clo w) (w_made w) (w_used w) (w_dropped w ++ l))).
Proof.
  intros dbg T C ds l f w dims HN HM TY HB HL. rewrite xr_map_ok by auto. split; intros HF.
  - rewrite (@ar_map_eq T C ds l f w HF TY HL). reflexivity.
  - unfold ar_map. destruct (ar_length_cases ds) as [H| ->]; [contradiction|reflexivity].
Qed.
Print Assumptions c85_map.

(** [zip_with] and the operators with an owned array on either side: where the model with unbounded integers is
    defined, both builds do the same. *)
Theorem c85_zip_with : forall (dbg : bool) (T Y C : Type) (ds : list dimty) (l : list T) (e : expression Y)
    (f : T * Y -> C -> call T C) (opl : T -> Y -> C -> call T C) (opr : Y -> T -> C -> call T C) (w : world T C),
  let dims := map dim_default ds in
  nonneg dims -> machine_dims dims -> prodZ dims <= isize_max -> zlen l = prodZ dims ->
  (forall z, e_zip (e_into (STuple ds) dims l) e = Ok z -> prodZ dims = 0 -> counted dbg (skipn (outer_rank z) dims)) ->
  (ar_zip_with ds l e f w <> Fault -> xr_zip_with dbg ds l e f w = ar_zip_with ds l e f w) /\
  (op_array opl ds l e w <> Fault -> xr_op_array dbg opl ds l e w = op_array opl ds l e w) /\
  (op_expr_array opr e ds l w <> Fault -> xr_op_expr dbg opr e ds l w = op_expr_array opr e ds l w).
Proof. intros. split; [|split]; intros HF; now apply xr_zip_with_ok. Qed.
Print Assumptions c85_zip_with.

(** For operands that denote an array: the calls, in row-major order, and what is dropped at a panic. *)
Theorem c85_calls : forall (dbg : bool) (T Y C : Type) (opl : T -> Y -> C -> call T C) (opr : Y -> T -> C -> call T C)
    ds (l : list T) (a : tree Y) g e (w : world T C),
  let dims := map dim_default ds in
  positive dims -> machine_dims dims -> prodZ dims <= isize_max -> typed (STuple ds) dims -> zlen l = prodZ dims ->
  t_leaves a -> t_build a = Ok e -> operand_fits dims a -> denotes a g ->
  t_fine (TZip (TInto (STuple ds) dims l) a) ->
  let ys := map (fun idx => g (lastn (length (t_dims a)) idx)) (indices dims) in
  let expected (calls : list (C -> call T C)) :=
    let '(rs, c, b) := gives calls (w_clo w) in
    if b then Done rs (mkWorld c (w_made w ++ rs) (w_used w ++ l) (w_dropped w))
    else Unwound (mkWorld c (w_made w ++ rs) (w_used w ++ firstn (S (length rs)) l)
                    (w_dropped w ++ skipn (S (length rs)) l ++ rs)) in
  xr_op_array dbg opl ds l e w = expected (map (fun p => opl (fst p) (snd p)) (combine l ys)) /\
  xr_op_expr dbg opr e ds l w = expected (map (fun p => opr (snd p) (fst p)) (combine l ys)).
Proof.
  intros dbg T Y C opl opr ds l a g e w dims HP HM HB TY HL LA EA HO HD HF ys expected.
  assert (HN : nonneg dims) by (eapply Forall_impl; [|exact HP]; cbn; lia).
  assert (H0 : prodZ dims <> 0) by (pose proof (prodZ_pos HP); lia).
  assert (FI : fits dims) by (apply MachineTensorRun.mx_fits; auto; rewrite mx_positive by auto; unfold isize_max, usize_max in *; lia).
  destruct (@c41_array_calls_partial T Y C opl opr ds l a g e w FI TY HN HL LA EA HO HD HF) as [E1 E2]. fold dims ys in E1, E2.
  assert (NF : forall cs, expected cs <> Fault) by (intros cs; unfold expected; destruct (gives cs (w_clo w)) as [[rs c] []]; discriminate).
  destruct (@c85_zip_with dbg T Y C ds l e (fun p c => opl (fst p) (snd p) c) opl opr w HN HM HB HL ltac:(intros; contradiction)) as (_ & H1 & H2).
  rewrite H1, H2; rewrite ?E1, ?E2; auto; apply NF.
Qed.
Print Assumptions c85_calls.

(** An empty array and a strided operand: the index computations are as intended and the loop still asks for an
    element that is not there.  A debug assertion catches it; without debug assertions it is read. *)
Theorem c85_empty_refuted : exists (ds : list dimty) (e : expression Z), let dims := map dim_default ds in
  positive (skipn 1 dims) /\ prodZ dims = 0 /\ e_dims e = dims /\ machine_operand true e /\
  xr_zip_with true ds [] e (fun p c => Gives (fst p) c) w0 = Unwound w0 /\
  xr_zip_with false ds [] e (fun p c => Gives (fst p) c) w0 = Fault.
Proof.
  exists [DConst 0; DConst 3], (e_copied (read [1; 2; 3; 4; 5; 6]) (e_view 6 true (mkView 0 (StridedM (STuple [DConst 0; DConst 3]) [0; 3] [1; 2])))).
  cbv zeta. split; [repeat constructor|]. split; [reflexivity|]. split; [reflexivity|]. split.
  - split; [repeat constructor; cbn; unfold usize_max; lia|]. split; (split; [vm_compute; discriminate|intros _ [|[|[|k]]]; vm_compute; discriminate]).
  - split; vm_compute; reflexivity.
Qed.
Print Assumptions c85_empty_refuted.

(** Deserialization of an array: with overflow checks, and without them when the size hints do not make a product
    overflow, what the model with unbounded integers does. *)
Theorem c85_deserialize : forall (dbg : bool) (T C E : Type) (al : allocator) (de : sdata E -> C -> call (option T) C)
    (ds : list dimty) (v : sdata E) (w : world T C),
  al_machine al -> nonneg (map dim_default ds) -> machine_dims (map dim_default ds) -> const_small (STuple ds) -> ty_wf (STuple ds) ->
  prodZ (map dim_default ds) <= isize_max -> sized (length ds) v -> dbg = true \/ box (length ds) v <= usize_max ->
  xr_deserialize dbg al de ds v w = ar_deserialize al de ds v w.
Proof. intros. now apply xr_deserialize_ok. Qed.
Print Assumptions c85_deserialize.

(** Whatever the size hints are, in every build: an array is returned exactly for an input of its shape, with the
    elements of the input, each made once; otherwise all elements made are dropped, once. *)
Theorem c85_deserialize_returns : forall (dbg : bool) (T C E : Type) (al : allocator) (de : sdata E -> C -> call (option T) C) (dec : sdata E -> option T)
    (ds : list dimty) (v : sdata E) (w : world T C),
  al_machine al -> consts ds -> nonneg (map dim_default ds) -> machine_dims (map dim_default ds) -> const_small (STuple ds) -> ty_wf (STuple ds) ->
  prodZ (map dim_default ds) <= isize_max -> sized (length ds) v -> decides de dec ->
  match xr_deserialize dbg al de ds v w with
  | Done (Some xs) w' => rect dec (map dim_default ds) v xs /\ exists c, w' = after c xs [] w
  | Done None w' => (forall xs, ~ rect dec (map dim_default ds) v xs) /\ exists c ms dr, w' = after c ms dr w /\ Permutation ms dr
  | Unwound w' => (adequate al (length ds) v -> throws de) /\ exists c ms dr, w' = after c ms dr w /\ Permutation ms dr
  | Aborted | Fault => False
  end.
Proof. intros. now apply xr_deserialize_returns. Qed.
Print Assumptions c85_deserialize_returns.

(** Operators that panic half way, [map] and the conversion from a tensor, in both builds. *)
Example c85_example : forall dbg,
  let e := e_copied (read [5; 15]) (e_view 2 true (whole ty1 [2])) in
  let ds := [DConst 2; DConst 2] in
  xr_op_array dbg sub_cl ds [10; 20; 30; 40] e w0 = Done [5; 5; 25; 25] (mkWorld 4 [5; 5; 25; 25] [10; 20; 30; 40] []) /\
  xr_op_array dbg sub_cl ds [10; 2; 30; 40] e w0 = Unwound (mkWorld 1 [5] [10; 2] [30; 40; 5]) /\
  xr_op_expr dbg sub_cl e ds [1; 2; 30; 40] w0 = Unwound (mkWorld 2 [4; 13] [1; 2; 30] [40; 4; 13]) /\
  xr_op_array dbg sub_cl [DConst 2] [1; 2] (e_copied (read [1; 2; 3; 4]) (e_view 4 true (whole ty2 [2; 2]))) w0 =
    Unwound (mkWorld 0 [] [] [1; 2]) /\
  xr_map dbg ds [10; 20; 30; 0] (fun x => sub_cl x 5) w0 = Unwound (mkWorld 3 [5; 15; 25] [10; 20; 30; 0] [5; 15; 25]) /\
  xr_map dbg ds [10; 20; 30; 40] (fun x => sub_cl x 5) w0 = Done [5; 15; 25; 35] (mkWorld 4 [5; 15; 25; 35] [10; 20; 30; 40] []) /\
  xr_map dbg [DConst (2 ^ 40); DConst (2 ^ 40); DConst 0] [] (fun x => sub_cl x 5) w0 = Unwound w0 /\
  xr_from_tensor dbg ds (mkTensor ty2 [2; 2] [1; 2; 3; 4] 6) w0 = Done [1; 2; 3; 4] w0 /\
  xr_from_tensor dbg ds (mkTensor ty2 [1; 4] [1; 2; 3; 4] 6) w0 = Unwound (mkWorld 0 [] [] [1; 2; 3; 4]) /\
  xr_deserialize dbg zmem_small zde ds (zseq [zrow [1; 2]; zrow [3; 4]]) w0 = Done (Some [1; 2; 3; 4]) (mkWorld 4 [1; 2; 3; 4] [] []).
Proof. intros []; cbv zeta; repeat split; vm_compute; reflexivity. Qed.
(** The operand of the first of them meets the hypotheses. *)
Example c85_hypotheses : let ds := [DConst 2; DConst 2] in let dims := map dim_default ds in
  positive dims /\ machine_dims dims /\ prodZ dims <= isize_max /\ typed (STuple ds) dims /\ fits dims /\ zlen [10; 20; 30; 40] = prodZ dims /\
  (forall dbg, machine_operand dbg (e_view 2 true (whole ty1 [2]))) /\ sized 2 (zseq [zrow [1; 2]; zrow [3; 4]]).
Proof.
  cbv zeta. split; [repeat constructor|]. split; [repeat constructor; cbn; unfold usize_max; lia|]. split; [vm_compute; discriminate|].
  split; [wf_tac|]. split; [intros [|[|[|k]]]; vm_compute; discriminate|]. split; [reflexivity|]. split.
  - intros dbg. split; [repeat constructor; cbn; unfold usize_max; lia|].
    split; (split; [vm_compute; discriminate|intros _ [|[|k]]; vm_compute; discriminate]).
  - cbn [sized length]. unfold usize_max. repeat (split; [cbn; lia|]). repeat constructor; cbn; lia.
Qed.
