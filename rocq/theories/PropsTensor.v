(** Theorems for C28, C29, C31-C37, C47 and C49: arrays that own their elements.

    Vocabulary: [TensorSpec.v].  A tensor is a shape type, dimensions, the list of its elements in
    row-major order and a capacity.  [Done] is a normal return, [Unwound] a panic that was caught
    further up, [Aborted] the end of the process, [Fault] undefined behaviour.  The world records
    the elements that were created ([w_made]), given away ([w_used]) and dropped ([w_dropped]), so
    an equation between final worlds says exactly what was dropped, and in which order.
    [gives fs c] calls closures one after the other. *)
From Verif Require Import Base Spec SpecFacts Shape Mapping Index View Wf MappingFacts MapOps
  ReshapeFacts IndexFacts ViewFacts ViewMore PropsView.
From Verif Require Import Expr ExprSpec ExprFacts IterFacts SourceFacts ExprTree ExprMore PropsExpr.
From Verif Require Import Tensor TraceFacts TensorSpec TensorFacts ResizeFacts TensorOps DrainFacts OwnFacts
  ZipFacts OwnMore History HistoryFacts OwnProps.
Unset Strict Implicit.

(** Running examples: a world without elements whose closure state is 0, an allocator that gives
    what it is asked for, and a 2x3 tensor. *)
Definition w0 : world Z Z := mkWorld 0 [] [] [].
Definition al0 : allocator := mkAlloc (fun _ => true) (fun _ n => n).
Definition ty1 : shty := STuple [DDyn].
Definition t23 : tensor Z := mkTensor ty2 [2; 3] [1; 2; 3; 4; 5; 6] 6.
Definition t03 : tensor Z := mkTensor ty2 [0; 3] [] 4.
Definition t13 : tensor Z := mkTensor ty2 [1; 3] [7; 8; 9] 3.
Example t23_ok : tensor_ok t23. Proof. constructor; simpl; (reflexivity || lia || wf_tac). Qed.
Example t03_ok : tensor_ok t03. Proof. constructor; simpl; (reflexivity || lia || wf_tac). Qed.
Example t13_ok : tensor_ok t13. Proof. constructor; simpl; (reflexivity || lia || wf_tac). Qed.
Example t23_rows : has_rows t23 2 [3]. Proof. split; reflexivity. Qed.
Example t03_rows : has_rows t03 0 [3]. Proof. split; reflexivity. Qed.
Example t13_rows : has_rows t13 1 [3]. Proof. split; reflexivity. Qed.
(** A closure that counts, and one that panics at the third call. *)
Definition count (c : Z) : call Z Z := Gives (100 + c) (c + 1).
Definition third (c : Z) : call Z Z := if c =? 2 then Throws c else Gives (100 + c) (c + 1).
Definition keep (x : Z) (c : Z) : call Z Z := Gives x c.

(** ** C28, for owned arrays *)

(** The tensor's contents are the results of the closure on the indices in row-major order.  If it
    panics at some index, the results so far are dropped. *)
Theorem c28_tensor_partial : forall T F C al ty dims (f : list Z -> F -> outcome (T * F)) f0 e (w : world T C) xs o,
  (forall n, al_ok al n = true) -> nonneg dims -> typed ty dims -> (ty = SDynRank -> dims = []) ->
  positive (removelast dims) \/ last dims 1 = 0 -> (forall idx s, proper (f idx s)) ->
  e_from_fn ty dims f f0 = Ok e -> produce (index_action f) (indices dims) f0 = (xs, o) ->
  match o with
  | Ok _ => exists cap, zlen xs = prodZ dims /\ zlen xs <= cap /\
      tn_from_expr al e w = Done (mkTensor ty dims xs cap) (after (w_clo w) xs [] w)
  | _ => tn_from_expr al e w = Unwound (after (w_clo w) xs xs w)
  end.
Proof. exact @from_fn_tensor. Qed.
Print Assumptions c28_tensor_partial.

Theorem c28_array_partial : forall T F C ds dims (f : list Z -> F -> outcome (T * F)) f0 e (w : world T C) xs o,
  consts ds -> nonneg dims -> typed (STuple ds) dims ->
  positive (removelast dims) \/ last dims 1 = 0 -> (forall idx s, proper (f idx s)) ->
  e_from_fn (STuple ds) dims f f0 = Ok e -> produce (index_action f) (indices dims) f0 = (xs, o) ->
  match o with
  | Ok _ => zlen xs = prodZ dims /\ ar_from_expr ds e w = Done xs (after (w_clo w) xs [] w)
  | _ => ar_from_expr ds e w = Unwound (after (w_clo w) xs xs w)
  end.
Proof. exact @from_fn_array. Qed.
Print Assumptions c28_array_partial.

Definition digits (idx : list Z) (n : Z) : outcome (Z * Z) := Ok (10 * nth 0 idx 0 + nth 1 idx 0, n + 1).
Example c28_tensor_example : exists e cap,
  e_from_fn ty2 [2; 3] digits 0 = Ok e /\ (forall idx s, proper (digits idx s)) /\
  produce (index_action digits) (indices [2; 3]) 0 = ([0; 1; 2; 10; 11; 12], Ok 6) /\
  tn_from_expr al0 e w0 = Done (mkTensor ty2 [2; 3] [0; 1; 2; 10; 11; 12] cap) (after 0 [0; 1; 2; 10; 11; 12] [] w0).
Proof. eexists _, 6. split; [vm_compute; reflexivity|]. split; [intros; exact I|]. vm_all. Qed.
Definition bad_at_10 (idx : list Z) (n : Z) : outcome (Z * Z) :=
  if 10 * nth 0 idx 0 + nth 1 idx 0 =? 10 then Panic else digits idx n.
Example c28_array_example : exists e,
  let ds := [DConst 2; DConst 3] in consts ds /\ typed (STuple ds) [2; 3] /\
  e_from_fn (STuple ds) [2; 3] bad_at_10 0 = Ok e /\
  ar_from_expr ds e w0 = Unwound (mkWorld 0 [0; 1; 2] [] [0; 1; 2]).
Proof.
  eexists. split; [repeat constructor; eauto|]. split; [wf_tac|]. split; vm_compute; reflexivity.
Qed.

(** With a zero outer dimension the closure is called although there are no indices, and the results
    are written outside the storage: [Tensor::from_fn([0, 3], ..)] and its [Array] counterpart. *)
Theorem c28_owned_refuted : exists (f : list Z -> unit -> outcome (Z * unit)) e e',
  (forall idx s, exists r, f idx s = Ok r) /\
  e_from_fn ty2 [0; 3] f tt = Ok e /\ tn_from_expr al0 e w0 = Fault /\
  e_from_fn (STuple [DConst 0; DConst 3]) [0; 3] f tt = Ok e' /\ ar_from_expr [DConst 0; DConst 3] e' w0 = Fault.
Proof.
  exists (fun _ s => Ok (7, s)). eexists _, _. split; [eauto|]. vm_all.
Qed.
Print Assumptions c28_owned_refuted.

(** ** C29 *)

(** [eval], [from_expr]: any expression tree.  [produce] computes the items in row-major order up to
    the first panic; they are the contents, or are dropped if there was a panic. *)
Theorem c29_eval_partial : forall T (tr : tree T) e,
  t_leaves tr -> t_build tr = Ok e -> t_fine tr -> t_safe tr ->
  forall C al (w : world T C) xs o,
  (forall n, al_ok al n = true) -> produce (t_act tr) (indices (t_dims tr)) (t_init tr) = (xs, o) ->
  match o with
  | Ok _ => exists cap, zlen xs = prodZ (t_dims tr) /\ zlen xs <= cap /\ typed (e_ty e) (t_dims tr) /\
      tn_from_expr al e w = Done (mkTensor (e_ty e) (t_dims tr) xs cap) (after (w_clo w) xs [] w)
  | _ => tn_from_expr al e w = Unwound (after (w_clo w) xs xs w)
  end.
Proof. exact @eval_tree. Qed.
Print Assumptions c29_eval_partial.

(** [Array]: the same; it panics exactly when the dimensions are not those of the type. *)
Theorem c29_array_partial : forall T (tr : tree T) e,
  t_leaves tr -> t_build tr = Ok e -> t_fine tr -> t_safe tr ->
  forall C ds (w : world T C) xs o,
  consts ds -> typed (STuple ds) (t_dims tr) ->
  produce (t_act tr) (indices (t_dims tr)) (t_init tr) = (xs, o) ->
  match o with
  | Ok _ => zlen xs = prodZ (t_dims tr) /\ ar_from_expr ds e w = Done xs (after (w_clo w) xs [] w)
  | _ => ar_from_expr ds e w = Unwound (after (w_clo w) xs xs w)
  end.
Proof. exact @array_tree. Qed.
Print Assumptions c29_array_partial.
Theorem c29_array_mismatch : forall T C ds (e : expression T) (w : world T C),
  ~ typed (STuple ds) (e_dims e) -> ar_from_expr ds e w = Unwound w.
Proof. exact @ar_from_mismatch. Qed.
Print Assumptions c29_array_mismatch.

(** [to_tensor]: a copy of any view.  [elements mem v] are the cells of the view's indices. *)
Theorem c29_to_tensor_partial : forall T C al (mem : list T) rep v (w : world T C),
  (forall n, al_ok al n = true) -> valid_view (zlen mem) v -> view_fine v ->
  exists xs cap, map Some xs = elements mem v /\ zlen xs = prodZ (v_dims v) /\ zlen xs <= cap /\
    tn_from_expr al (e_copied (read_cell mem) (e_view (zlen mem) rep v)) w =
    Done (mkTensor (v_ty v) (v_dims v) xs cap) (after (w_clo w) xs [] w).
Proof. exact @to_tensor. Qed.
Print Assumptions c29_to_tensor_partial.
(** [to_vec] is [to_tensor().into_vec()]. *)
Theorem c29_to_vec : forall T S (t : tensor T) (s : S), tensor_ok t -> tn_into_vec t s = Done (tn_mem t, tn_cap t) s.
Proof. exact @into_vec_done. Qed.
Print Assumptions c29_to_vec.

Example c29_example : valid_view 4 ex_2x2 /\ view_fine ex_2x2 /\ exists cap,
  elements [10; 11; 12; 13] ex_2x2 = map Some [10; 12; 11; 13] /\
  tn_from_expr al0 (e_copied (read_cell [10; 11; 12; 13]) (e_view 4 true ex_2x2)) w0 =
  Done (mkTensor ty2 [2; 2] [10; 12; 11; 13] cap) (after 0 [10; 12; 11; 13] [] w0).
Proof.
  split; [exact ex_2x2_valid|]. split; [right; left; wf_tac|]. exists 4. vm_all.
Qed.

(** An empty strided view whose last dimension is not zero: undefined behaviour. *)
Theorem c29_refuted : exists (mem : list Z) v,
  valid_view (zlen mem) v /\ prodZ (v_dims v) = 0 /\
  tn_from_expr al0 (e_copied (read_cell mem) (e_view (zlen mem) true v)) w0 = Fault.
Proof.
  exists [1; 2; 3; 4; 5; 6], ex_0x2. split; [apply empty_valid; [wf_tac|reflexivity]|]. vm_all.
Qed.
Print Assumptions c29_refuted.

(** ** C31 *)

(** Any program (History.v): every sequence of operations on any number of tensors, each operation
    possibly panicking (in a closure, an allocation or an assertion) with the program going on.
    Operands must be [honest] or [zips], which every fine expression is (next two theorems).
    The process may be aborted, but only when a tensor of a shape type without dynamic dimension is
    present (C49). *)
Theorem c31_history_partial : forall T C al (ops : list (op T C)) c,
  ops_ok al ops (start c) ->
  match run_ops al ops (start c) with
  | Done _ st => forall i t, var st i = Some t ->
      nonneg (tn_dims t) /\ typed (tn_ty t) (tn_dims t) /\
      tn_len t = prodZ (tn_dims t) /\ zlen (tn_mem t) = tn_len t /\ tn_len t <= tn_cap t
  | Aborted => exists ops1 ops2 st i t, ops = ops1 ++ ops2 /\ run_ops al ops1 (start c) = Done tt st /\
      var st i = Some t /\ prodZ (sh_default (tn_ty t)) <> 0
  | _ => False
  end.
Proof. exact @history_shape. Qed.
Print Assumptions c31_history_partial.

Theorem c31_operand : forall A (t : tree A) e,
  t_leaves t -> t_build t = Ok e -> t_fine t -> t_safe t ->
  honest e /\ typed (e_ty e) (e_dims e) /\ e_dims e = t_dims t /\
  fst (e_trace e) = fst (produce (t_act t) (indices (t_dims t)) (t_init t)) /\
  (forall s, snd (produce (t_act t) (indices (t_dims t)) (t_init t)) = Ok s -> snd (e_trace e) = Ok tt).
Proof. exact @tree_honest. Qed.
Print Assumptions c31_operand.
Theorem c31_zip_operand : forall T Y (t : tensor T) (tr : tree Y) e,
  tensor_ok t -> t_leaves tr -> t_build tr = Ok e -> t_safe tr ->
  (operand_fits (tn_dims t) tr -> t_fine (with_target (zlen (tn_mem t)) (whole (tn_ty t) (tn_dims t)) tr)) ->
  zips t e.
Proof. exact @tree_zips. Qed.
Print Assumptions c31_zip_operand.

(** A program with a panicking closure: the tensor is made from [1..6], reshaped to 2x3, resized to
    3x4 with a closure that panics at its third call, which leaves it empty; then it is used again. *)
Definition ex_prog : list (op Z Z) :=
  [FromVec [1; 2; 3; 4; 5; 6] 6; IntoShape 0 ty2 [2; 3]; ResizeWith 0 [3; 4] third; Clear 0;
   Clone 0 keep; ResizeWith 1 [1; 2] count; Append 0 1; DrainTake 0 Unbounded Unbounded 1].
Ltac after_step := let st := fresh "st" in let H := fresh "H" in intros st H; vm_compute in H; injection H as <-.
Example c31_example_ok : ops_ok al0 ex_prog (start 0).
Proof.
  unfold ex_prog.
  split; [vm_compute; discriminate|after_step].
  split; [split; [wf_tac|split; [reflexivity|wf_tac]]|after_step].
  split; [wf_tac|after_step].
  split; [exact I|after_step].
  split; [exact I|after_step].
  split; [wf_tac|after_step].
  split; [simpl; discriminate|after_step].
  split; [|after_step; exact I].
  split; [exact I|]. split; [exact I|]. intros t H. vm_compute in H. injection H as <-. vm_compute. discriminate.
Qed.
Example c31_example : exists st, run_ops al0 ex_prog (start 0) = Done tt st /\
  st_vars st = [Some (mkTensor ty2 [0; 2] [] 6); Some (mkTensor ty2 [0; 2] [] 2)] /\
  w_made (st_w st) = [1; 2; 3; 4; 5; 6; 100; 101; 102; 103] /\ w_used (st_w st) = [102] /\
  w_dropped (st_w st) = [1; 2; 3; 100; 4; 5; 6; 101; 103].
Proof. eexists. vm_all. Qed.

(** Without the condition on operands: [Tensor::from_fn([0, 3], ..)] is undefined behaviour. *)
Theorem c31_refuted : exists e : expression Z,
  e_from_fn ty2 [0; 3] (fun _ s => Ok (7, s)) tt = Ok e /\
  typed (e_ty e) (e_dims e) /\ run_ops al0 [FromExpr e] (start 0) = Fault.
Proof. eexists. split; [reflexivity|]. split; [vm_compute; wf_tac|]. vm_compute. reflexivity. Qed.
Print Assumptions c31_refuted.

(** ** C32 *)

(** [has_rows t n ds]: first dimension [n], of dynamic size, and inner dimensions [ds]. *)
Theorem c32_expand : forall T Y C al (e : expression Y) (cl : Y -> C -> call T C) ys xs c t w n ds m,
  tensor_ok t -> has_rows t n ds -> 0 < prodZ (tn_dims t) -> (forall k, al_ok al k = true) ->
  e_dims e = m :: ds -> 0 < m -> e_collect e = Ok ys -> zlen ys = prodZ (e_dims e) ->
  gives (map cl ys) (w_clo w) = (xs, c, true) ->
  exists cap, zlen (tn_mem t ++ xs) <= cap /\
    tn_expand al e cl (t, w) = Done tt (mkTensor (tn_ty t) (n + m :: ds) (tn_mem t ++ xs) cap, after c xs [] w).
Proof. exact @expand_rows. Qed.
Print Assumptions c32_expand.

Theorem c32_expand_empty : forall T Y C al (e : expression Y) (cl : Y -> C -> call T C) ys xs c t w n ds,
  tensor_ok t -> has_rows t n ds -> prodZ (tn_dims t) = 0 -> (forall k, al_ok al k = true) ->
  nonneg (e_dims e) -> typed (tn_ty t) (e_dims e) -> 0 < prodZ (e_dims e) ->
  e_collect e = Ok ys -> zlen ys = prodZ (e_dims e) -> gives (map cl ys) (w_clo w) = (xs, c, true) ->
  exists cap, zlen xs <= cap /\
    tn_expand al e cl (t, w) = Done tt (mkTensor (tn_ty t) (e_dims e) xs cap, after c xs [] w).
Proof. exact @expand_empty. Qed.
Print Assumptions c32_expand_empty.

(** What concatenation means at an index. *)
Theorem c32_elements : forall T ds n m (a b : list T) i idx,
  zlen a = n * prodZ ds -> zlen b = m * prodZ ds -> 0 <= n -> 0 <= m ->
  elem_at (n + m :: ds) (a ++ b) (i :: idx) =
  if i <? n then elem_at (n :: ds) a (i :: idx) else elem_at (m :: ds) b (i - n :: idx).
Proof. exact @elem_at_app. Qed.
Print Assumptions c32_elements.

(** A mismatch with a non-empty expression panics and only the capacity may change. *)
Theorem c32_mismatch_partial : forall T Y C al (e : expression Y) (cl : Y -> C -> call T C) t w n ds,
  tensor_ok t -> has_rows t n ds -> (forall k, al_ok al k = true) -> 0 < prodZ (e_dims e) ->
  (0 < prodZ (tn_dims t) -> tl (e_dims e) <> ds \/ e_dims e = []) ->
  (prodZ (tn_dims t) = 0 -> ~ typed (tn_ty t) (e_dims e)) ->
  exists cap, tn_cap t <= cap /\
    tn_expand al e cl (t, w) = Unwound (mkTensor (tn_ty t) (tn_dims t) (tn_mem t) cap, w).
Proof. exact @expand_refused. Qed.
Print Assumptions c32_mismatch_partial.
Theorem c32_no_rows : forall T Y C al (e : expression Y) (cl : Y -> C -> call T C) t w,
  (forall n ds, ~ has_rows t n ds) -> tn_expand al e cl (t, w) = Unwound (t, w).
Proof. exact @expand_no_rows. Qed.
Print Assumptions c32_no_rows.
(** An empty expression changes nothing, whatever its dimensions. *)
Theorem c32_nothing : forall T Y C al (e : expression Y) (cl : Y -> C -> call T C) t w n ds,
  has_rows t n ds -> prodZ (e_dims e) <= 0 -> tn_expand al e cl (t, w) = Done tt (t, w).
Proof. exact @expand_nothing. Qed.
Print Assumptions c32_nothing.

Theorem c32_append : forall T C al (t u : tensor T) (w : world T C) n m ds,
  tensor_ok t -> tensor_ok u -> has_rows t n ds -> has_rows u m ds -> 0 < n -> 0 < m -> 0 < prodZ ds ->
  (forall k, al_ok al k = true) ->
  exists cap, zlen (tn_mem t ++ tn_mem u) <= cap /\
    tn_append al (t, u, w) =
    Done tt (mkTensor (tn_ty t) (n + m :: ds) (tn_mem t ++ tn_mem u) cap,
             mkTensor (tn_ty u) (0 :: ds) [] (tn_cap u), w).
Proof. exact @append_rows. Qed.
Print Assumptions c32_append.
Theorem c32_append_empty : forall T C al (t u : tensor T) (w : world T C) n ds m dt,
  tensor_ok t -> tensor_ok u -> has_rows t n ds -> has_rows u m dt -> prodZ (tn_dims t) = 0 -> 0 < prodZ (tn_dims u) ->
  typed (tn_ty t) (tn_dims u) -> (forall k, al_ok al k = true) ->
  exists cap, zlen (tn_mem u) <= cap /\
    tn_append al (t, u, w) =
    Done tt (mkTensor (tn_ty t) (tn_dims u) (tn_mem u) cap, mkTensor (tn_ty u) (0 :: dt) [] (tn_cap u), w).
Proof. exact @append_empty. Qed.
Print Assumptions c32_append_empty.
Theorem c32_append_nothing : forall T C al (t u : tensor T) (w : world T C) n ds m dt,
  tensor_ok t -> tensor_ok u -> has_rows t n ds -> has_rows u m dt -> prodZ (tn_dims u) = 0 ->
  tn_append al (t, u, w) = Done tt (t, mkTensor (tn_ty u) (0 :: dt) [] (tn_cap u), w).
Proof. exact @append_nothing. Qed.
Print Assumptions c32_append_nothing.
(** On a mismatch the target keeps its contents; the rows of the source are dropped nevertheless. *)
Theorem c32_append_mismatch : forall T C al (t u : tensor T) (w : world T C) m dt,
  tensor_ok t -> tensor_ok u -> has_rows u m dt -> 0 < prodZ (tn_dims u) ->
  (forall n ds, has_rows t n ds -> 0 < prodZ (tn_dims t) -> dt <> ds) ->
  (forall n ds, has_rows t n ds -> prodZ (tn_dims t) = 0 -> ~ typed (tn_ty t) (tn_dims u)) ->
  exists cap, tn_cap t <= cap /\
    tn_append al (t, u, w) =
    Unwound (mkTensor (tn_ty t) (tn_dims t) (tn_mem t) cap, mkTensor (tn_ty u) (0 :: dt) [] (tn_cap u),
             w_drop (tn_mem u) w).
Proof. exact @append_refused. Qed.
Print Assumptions c32_append_mismatch.

Definition row_789 : expression Z := e_into ty2 [1; 3] [7; 8; 9].
Example c32_example : e_dims row_789 = 1 :: [3] /\ e_collect row_789 = Ok [7; 8; 9] /\
  gives (map keep [7; 8; 9]) (w_clo w0) = ([7; 8; 9], 0, true) /\
  (exists cap, tn_expand al0 row_789 keep (t23, w0) =
     Done tt (mkTensor ty2 [3; 3] [1; 2; 3; 4; 5; 6; 7; 8; 9] cap, after 0 [7; 8; 9] [] w0)) /\
  (exists cap, tn_expand al0 row_789 keep (t03, w0) =
     Done tt (mkTensor ty2 [1; 3] [7; 8; 9] cap, after 0 [7; 8; 9] [] w0)) /\
  (exists cap, tn_append al0 (t23, t13, w0) =
     Done tt (mkTensor ty2 [3; 3] [1; 2; 3; 4; 5; 6; 7; 8; 9] cap, mkTensor ty2 [0; 3] [] 3, w0)).
Proof.
  split; [reflexivity|]. split; [reflexivity|]. split; [reflexivity|].
  split; [exists 9; reflexivity|]. split; [exists 4; reflexivity|exists 9; reflexivity].
Qed.
Example c32_example_mismatch : exists cap,
  tn_append al0 (t23, mkTensor ty2 [1; 2] [7; 8] 2, w0) =
  Unwound (mkTensor ty2 [2; 3] [1; 2; 3; 4; 5; 6] cap, mkTensor ty2 [0; 2] [] 2, w_drop [7; 8] w0).
Proof. exists 8. reflexivity. Qed.

(** The two cases where the statement is false: an empty target does not take over the dimensions of
    an empty expression, and a mismatch of the inner dimensions of an empty expression is accepted. *)
Theorem c32_refuted :
  (exists (t : tensor Z) (e : expression Z), tensor_ok t /\ prodZ (tn_dims t) = 0 /\ e_collect e = Ok [] /\ typed (tn_ty t) (e_dims e) /\
     exists t', tn_expand al0 e keep (t, w0) = Done tt (t', w0) /\ tn_dims t' <> e_dims e) /\
  (exists (t : tensor Z) (e : expression Z), tensor_ok t /\ 0 < prodZ (tn_dims t) /\ tl (e_dims e) <> tl (tn_dims t) /\
     tn_expand al0 e keep (t, w0) = Done tt (t, w0)).
Proof.
  split.
  - exists t03, (e_into ty2 [0; 5] []). split; [exact t03_ok|]. split; [reflexivity|]. split; [reflexivity|].
    split; [wf_tac|]. exists t03. split; [reflexivity|discriminate].
  - exists t23, (e_into ty2 [0; 4] []). split; [exact t23_ok|]. split; [reflexivity|]. split; [discriminate|]. reflexivity.
Qed.
Print Assumptions c32_refuted.

(** ** C33 *)
Theorem c33_drain : forall T (t : tensor T) lo hi n ds,
  tensor_ok t -> has_rows t n ds -> n <= usize_max -> bound_arg lo -> bound_arg hi ->
  range_lo lo <= range_hi n hi <= n ->
  let a := range_lo lo in let b := range_hi n hi in
  exists d, tn_drain t lo hi = Ok d /\
    forall k C (w : world T C),
      let out := rows_of (n :: ds) (tn_mem t) a b in
      exists it, it_nexts k (it_new (e_drain d)) = Ok (map Some (firstn k out) ++ repeat None (k - length out), it) /\
        drain_drop (it_st it) w =
          Done tt (mkTensor (tn_ty t) (n - (b - a) :: ds)
                     (rows_of (n :: ds) (tn_mem t) 0 a ++ rows_of (n :: ds) (tn_mem t) b n) (tn_cap t),
                   w_drop (skipn k out) w) /\
        drain_leak (it_st it) = Some (mkTensor (tn_ty t) (a :: ds) (rows_of (n :: ds) (tn_mem t) 0 a) (tn_cap t)).
Proof. exact @drain_rows. Qed.
Print Assumptions c33_drain.
Theorem c33_panics : forall T (t : tensor T) lo hi,
  tensor_ok t -> bound_arg lo -> bound_arg hi ->
  (forall n ds, has_rows t n ds -> n <= usize_max /\ ~ (range_lo lo <= range_hi n hi <= n)) ->
  tn_drain t lo hi = Panic.
Proof. exact @drain_panics. Qed.
Print Assumptions c33_panics.
(** What a block of rows is at an index. *)
Theorem c33_rows : forall T n ds (l : list T) a b i idx,
  nonneg ds -> zlen l = n * prodZ ds -> 0 <= a <= b -> b <= n -> 0 <= i < b - a ->
  elem_at (b - a :: ds) (rows_of (n :: ds) l a b) (i :: idx) = elem_at (n :: ds) l (a + i :: idx).
Proof. exact @rows_elem. Qed.
Print Assumptions c33_rows.

Definition t42 : tensor Z := mkTensor ty2 [4; 2] [1; 2; 3; 4; 5; 6; 7; 8] 8.
Example c33_example : tensor_ok t42 /\ has_rows t42 4 [2] /\ bound_arg (Included 1) /\ bound_arg (Excluded 3) /\
  rows_of [4; 2] (tn_mem t42) 1 3 = [3; 4; 5; 6] /\
  exists d it, tn_drain t42 (Included 1) (Excluded 3) = Ok d /\
    it_nexts 3 (it_new (e_drain d)) = Ok ([Some 3; Some 4; Some 5], it) /\
    drain_drop (it_st it) w0 = Done tt (mkTensor ty2 [2; 2] [1; 2; 7; 8] 8, w_drop [6] w0) /\
    drain_leak (it_st it) = Some (mkTensor ty2 [1; 2] [1; 2] 8).
Proof.
  split; [constructor; simpl; (reflexivity || lia || wf_tac)|]. split; [split; reflexivity|].
  split; [unfold bound_arg, usize; vm_compute; split; discriminate|].
  split; [unfold bound_arg, usize; vm_compute; split; discriminate|]. split; [reflexivity|].
  eexists _, _. vm_all.
Qed.

(** ** C34 *)
Theorem c34_truncate : forall T C (t : tensor T) (w : world T C) n ds size,
  tensor_ok t -> has_rows t n ds -> 0 <= size ->
  let k := Z.min size n in
  tn_truncate size (t, w) =
  Done tt (mkTensor (tn_ty t) (k :: ds) (rows_of (n :: ds) (tn_mem t) 0 k) (tn_cap t),
           w_drop (rows_of (n :: ds) (tn_mem t) k n) w).
Proof. exact @truncate_rows. Qed.
Print Assumptions c34_truncate.
Theorem c34_truncate_panics : forall T C (t : tensor T) (w : world T C) size,
  (forall n ds, ~ has_rows t n ds) -> tn_truncate size (t, w) = Unwound (t, w).
Proof. exact @truncate_no_rows. Qed.
Print Assumptions c34_truncate_panics.
Theorem c34_clear : forall T C (t : tensor T) (w : world T C),
  tensor_ok t -> prodZ (sh_default (tn_ty t)) = 0 ->
  tn_clear (t, w) = Done tt (mkTensor (tn_ty t) (sh_default (tn_ty t)) [] (tn_cap t), w_drop (tn_mem t) w).
Proof. exact @clear_done. Qed.
Print Assumptions c34_clear.
Theorem c34_clear_panics : forall T C (t : tensor T) (w : world T C),
  prodZ (sh_default (tn_ty t)) <> 0 -> tn_clear (t, w) = Unwound (t, w).
Proof. exact @clear_panics. Qed.
Print Assumptions c34_clear_panics.
(** Every shape with a dynamic dimension can be cleared. *)
Theorem c34_clear_dynamic : forall ty,
  (exists i, nth_error (match ty with STuple ds => ds | SDynRank => [DDyn] end) i = Some DDyn) ->
  prodZ (sh_default ty) = 0.
Proof. exact has_dyn_default. Qed.
Print Assumptions c34_clear_dynamic.

Example c34_example :
  tn_truncate 1 (t23, w0) = Done tt (mkTensor ty2 [1; 3] [1; 2; 3] 6, w_drop [4; 5; 6] w0) /\
  tn_truncate 5 (t23, w0) = Done tt (t23, w_drop [] w0) /\
  tn_clear (t23, w0) = Done tt (mkTensor ty2 [0; 0] [] 6, w_drop [1; 2; 3; 4; 5; 6] w0).
Proof. vm_all. Qed.
(** A constant shape cannot be empty: [clear] and [with_capacity] panic. *)
Example c34_edges : let c22 := STuple [DConst 2; DConst 2] in
  tn_clear (mkTensor c22 [2; 2] [1; 2; 3; 4] 4, w0) = Unwound (mkTensor c22 [2; 2] [1; 2; 3; 4] 4, w0) /\
  tn_with_capacity (T := Z) al0 c22 4 w0 = Unwound w0 /\
  tn_with_capacity (T := Z) al0 ty2 4 w0 = Done (mkTensor ty2 [0; 0] [] 4) w0.
Proof. cbv zeta. vm_all. Qed.

(** ** C35 *)
Theorem c35_resize : forall T C al new (f : C -> call T C) t w vs c,
  tensor_ok t -> nonneg new -> typed (tn_ty t) new -> length new = length (tn_dims t) -> fits new ->
  (forall n, al_ok al n = true) ->
  gives (repeat f (fresh (tn_dims t) new)) (w_clo w) = (vs, c, true) ->
  exists cap xs, zlen xs = prodZ new /\ zlen xs <= cap /\
    tn_resize_with al new f (t, w) =
    Done tt (mkTensor (tn_ty t) new xs cap, after c vs (lost (tn_dims t) (tn_mem t) new) w) /\
    (forall idx, in_bounds new idx ->
      elem_at new xs idx = if inside (tn_dims t) idx then elem_at (tn_dims t) (tn_mem t) idx
                           else nth_error vs (fresh_before (tn_dims t) new idx)).
Proof. exact @resize_elem. Qed.
Print Assumptions c35_resize.
(** [resize]: the value is cloned once per new element, and dropped at the end. *)
Theorem c35_resize_value : forall T C al new (x : T) (clone : T -> C -> call T C) t w vs c,
  tensor_ok t -> nonneg new -> typed (tn_ty t) new -> length new = length (tn_dims t) -> fits new ->
  (forall n, al_ok al n = true) ->
  gives (repeat (clone x) (fresh (tn_dims t) new)) (w_clo w) = (vs, c, true) ->
  exists cap xs, zlen xs = prodZ new /\ zlen xs <= cap /\
    tn_resize al new x clone (t, w) =
    Done tt (mkTensor (tn_ty t) new xs cap, after c (x :: vs) (lost (tn_dims t) (tn_mem t) new ++ [x]) w) /\
    (forall idx, in_bounds new idx ->
      elem_at new xs idx = if inside (tn_dims t) idx then elem_at (tn_dims t) (tn_mem t) idx
                           else nth_error vs (fresh_before (tn_dims t) new idx)).
Proof. exact @resize_value. Qed.
Print Assumptions c35_resize_value.
Theorem c35_resize_panics : forall T C al new (f : C -> call T C) (t : tensor T) w,
  length new <> length (tn_dims t) \/ ~ fits new -> tn_resize_with al new f (t, w) = Unwound (t, w).
Proof. exact @resize_panics_early. Qed.
Print Assumptions c35_resize_panics.

Example c35_example : nonneg [3; 2] /\ typed (tn_ty t23) [3; 2] /\ fits [3; 2] /\
  fresh (tn_dims t23) [3; 2] = 2%nat /\ gives (repeat count 2) (w_clo w0) = ([100; 101], 2, true) /\
  tn_resize_with al0 [3; 2] count (t23, w0) =
  Done tt (mkTensor ty2 [3; 2] [1; 2; 4; 5; 100; 101] 6, after 2 [100; 101] [3; 6] w0).
Proof.
  split; [wf_tac|]. split; [wf_tac|]. split; [intros [|[|[|k]]]; vm_compute; discriminate|]. vm_all.
Qed.
Example c35_example_grow : 
  tn_resize_with al0 [2; 4] count (t23, w0) =
  Done tt (mkTensor ty2 [2; 4] [1; 2; 3; 100; 4; 5; 6; 101] 8, after 2 [100; 101] [] w0).
Proof. reflexivity. Qed.
(** Dropping in every dimension; another rank; no elements left; a panic in the first row, when the
    second one is still in the old buffer. *)
Example c35_edges :
  tn_resize_with al0 [2; 1; 1] count (mkTensor ty3 [2; 2; 2] [1; 2; 3; 4; 5; 6; 7; 8] 8, w0) =
    Done tt (mkTensor ty3 [2; 1; 1] [1; 5] 2, mkWorld 0 [] [] [2; 3; 4; 6; 7; 8]) /\
  tn_resize_with al0 [1; 2; 2] count (mkTensor ty3 [2; 2; 2] [1; 2; 3; 4; 5; 6; 7; 8] 8, w0) =
    Done tt (mkTensor ty3 [1; 2; 2] [1; 2; 3; 4] 8, mkWorld 0 [] [] [5; 6; 7; 8]) /\
  tn_resize_with al0 [6] count (t23, w0) = Unwound (t23, w0) /\
  tn_resize_with al0 [0; 3] count (t23, w0) = Done tt (mkTensor ty2 [0; 3] [] 6, mkWorld 0 [] [] [1; 2; 3; 4; 5; 6]) /\
  tn_resize_with al0 [2; 6] third (t23, w0) =
    Unwound (mkTensor ty2 [0; 0] [] 6, mkWorld 2 [100; 101] [] [4; 5; 6; 1; 2; 3; 100; 101]).
Proof. vm_all. Qed.

(** ** C36 *)

(** For any program: at the end every element ever made is in a tensor, given away, dropped (all
    once), or leaked; and the leaked ones are at most one per [zip_with], apart from drains that were
    forgotten. *)
Theorem c36_history : forall T C al (ops : list (op T C)) c st,
  ops_ok al ops (start c) -> run_ops al ops (start c) = Done tt st ->
  exists leaked,
    Permutation (w_made (st_w st)) (held (st_vars st) ++ leaked ++ w_used (st_w st) ++ w_dropped (st_w st)) /\
    within leaked (leak_limits ops) /\
    (NoDup (w_made (st_w st)) -> NoDup (held (st_vars st) ++ leaked ++ w_used (st_w st) ++ w_dropped (st_w st))).
Proof. exact @history_elements. Qed.
Print Assumptions c36_history.
(** [zip_with] in detail: what is made, given to the closure and dropped, for every panic point.
    [rs] are the results before the panic. *)
Theorem c36_zip_with : forall T Y C (e : expression Y) (f : T * Y -> C -> call T C) (t : tensor T) w z ys o,
  tensor_ok t -> e_zip (e_view (zlen (tn_mem t)) false (whole (tn_ty t) (tn_dims t))) e = Ok z ->
  e_trace z = (combine (zrange (zlen (tn_mem t))) ys, o) -> (length ys <= length (tn_mem t))%nat ->
  (o = Ok tt -> length ys = length (tn_mem t)) ->
  tn_zip_with e f t w =
  let '(rs, c, b) := gives (map f (combine (tn_mem t) ys)) (w_clo w) in
  let made := w_made w ++ rs in
  let world n := mkWorld c made (w_used w ++ firstn n (tn_mem t)) (w_dropped w) in
  if b
  then match o with
       | Ok _ => Done (mkTensor (tn_ty t) (tn_dims t) rs (tn_cap t)) (world (length rs))
       | Panic => Unwound (w_drop (removelast rs ++ skipn (length rs) (tn_mem t)) (world (length rs)))
       | _ => Fault
       end
  else Unwound (w_drop (rs ++ skipn (S (length rs)) (tn_mem t)) (world (S (length rs)))).
Proof. exact @zip_with_items. Qed.
Print Assumptions c36_zip_with.
(** [map]: nothing is leaked. *)
Theorem c36_map : forall T C (f : T -> C -> call T C) (t : tensor T) w, tensor_ok t ->
  tn_map f t w =
  let '(rs, c, b) := gives (map f (tn_mem t)) (w_clo w) in
  let world n := mkWorld c (w_made w ++ rs) (w_used w ++ firstn n (tn_mem t)) (w_dropped w) in
  if b then Done (mkTensor (tn_ty t) (tn_dims t) rs (tn_cap t)) (world (length rs))
  else Unwound (w_drop (rs ++ skipn (S (length rs)) (tn_mem t)) (world (S (length rs)))).
Proof. exact @map_done. Qed.
Print Assumptions c36_map.
(** [Array]: [from_expr], [map], [zip_with]. *)
Theorem c36_array_from_expr : forall T C ds (e : expression T) (w : world T C),
  consts ds -> honest e ->
  (typed (STuple ds) (e_dims e) ->
   ar_from_expr ds e w =
   let xs := fst (e_trace e) in
   match snd (e_trace e) with
   | Ok _ => Done xs (after (w_clo w) xs [] w)
   | _ => Unwound (after (w_clo w) xs xs w)
   end) /\
  (~ typed (STuple ds) (e_dims e) -> ar_from_expr ds e w = Unwound w).
Proof. exact @ar_from_expr_eq. Qed.
Print Assumptions c36_array_from_expr.
Theorem c36_array_map : forall T C ds (l : list T) (f : T -> C -> call T C) w,
  fits (map dim_default ds) -> typed (STuple ds) (map dim_default ds) -> zlen l = prodZ (map dim_default ds) ->
  ar_map ds l f w =
  let '(rs, c, b) := gives (map f l) (w_clo w) in
  if b then Done rs (worked c rs l w)
  else Unwound (w_drop (skipn (S (length rs)) l ++ rs) (worked c rs (firstn (S (length rs)) l) w)).
Proof. exact @ar_map_eq. Qed.
Print Assumptions c36_array_map.
(** A shape whose length overflows (with a zero dimension, so that the array has no elements) is refused. *)
Theorem c36_array_unfit : forall T Y C ds (l : list T) (e : expression Y) (f : T * Y -> C -> call T C) g w,
  ~ fits (map dim_default ds) ->
  ar_map ds l g w = Unwound (w_drop l w) /\ ar_zip_with ds l e f w = Unwound (w_drop l w).
Proof.
  intros T Y C ds l e f g w H. destruct (ar_length_cases ds) as [F|E]; [contradiction|].
  split; [now apply ar_map_unfit|now apply ar_zip_with_unfit].
Qed.
Print Assumptions c36_array_unfit.
Theorem c36_array_zip_with : forall T Y C ds (l : list T) (e : expression Y) (f : T * Y -> C -> call T C) w S0 R,
  typed (STuple ds) (map dim_default ds) -> zlen l = prodZ (map dim_default ds) -> azips ds l e ->
  balanced S0 (R ++ l) w ->
  match ar_zip_with ds l e f w with
  | Done rs w' => zlen rs = zlen l /\ balanced S0 (R ++ rs) w'
  | Unwound w' => balanced S0 R w'
  | _ => False
  end.
Proof. exact @ar_zip_with_post. Qed.
Print Assumptions c36_array_zip_with.
(** Exactly what is used and dropped, and in which order: when the closure or the operand panics, first
    the elements not yet reached, in the expression, then the results, in the guard. *)
Theorem c36_array_zip_items : forall T Y C ds (l : list T) (e : expression Y) (f : T * Y -> C -> call T C) w z ys o,
  fits (map dim_default ds) -> typed (STuple ds) (map dim_default ds) -> zlen l = prodZ (map dim_default ds) ->
  e_zip (e_into (STuple ds) (map dim_default ds) l) e = Ok z -> e_dims z = map dim_default ds ->
  e_trace z = (combine l ys, o) -> (length ys <= length l)%nat -> (o = Ok tt /\ length ys = length l) \/ o = Panic ->
  ar_zip_with ds l e f w =
  let '(rs, c, b) := gives (map f (combine l ys)) (w_clo w) in
  if b
  then match o with
       | Ok _ => Done rs (worked c rs l w)
       | _ => Unwound (w_drop (skipn (length rs) l ++ rs) (worked c rs (firstn (length rs) l) w))
       end
  else Unwound (w_drop (skipn (S (length rs)) l ++ rs) (worked c rs (firstn (S (length rs)) l) w)).
Proof. exact @ar_zip_with_items. Qed.
Print Assumptions c36_array_zip_items.

Definition throw5 (x c : Z) : call Z Z := if x =? 5 then Throws c else Gives (x * 10) c.
Example c36_example :
  tn_map throw5 t23 w0 = Unwound (mkWorld 0 [10; 20; 30; 40] [1; 2; 3; 4; 5] [10; 20; 30; 40; 6]) /\
  ar_map [DConst 2; DConst 3] [1; 2; 3; 4; 5; 6] throw5 w0 =
    Unwound (mkWorld 0 [10; 20; 30; 40] [1; 2; 3; 4; 5] [6; 10; 20; 30; 40]).
Proof. vm_all. Qed.
(** A clone that panics; [extend] when no more storage is granted; [zip_with] of arrays. *)
Example c36_edges :
  tn_clone throw5 t23 w0 = Unwound (mkWorld 0 [10; 20; 30; 40] [] [10; 20; 30; 40]) /\
  tn_extend (mkAlloc (fun n => n <=? 4) (fun _ n => n)) [count; count; count] (mkTensor ty1 [3] [1; 2; 3] 3, w0) =
    Unwound (mkTensor ty1 [0] [] 4, mkWorld 2 [100; 101] [] [101; 1; 2; 3; 100]) /\
  ar_zip_with [DConst 2; DConst 2] [10; 20; 30; 40] (e_copied (read [1; 5]) (e_view 2 true (whole ty1 [2])))
    (fun p c => if fst p =? 20 then Throws c else Gives (fst p + snd p) c) w0 =
    Unwound (mkWorld 0 [11] [10; 20] [30; 40; 11]) /\
  ar_length [DConst (2 ^ 40); DConst (2 ^ 40)] = Panic.
Proof. vm_all. Qed.
(** The hypotheses of [c36_history] hold for [ex_prog]: [c31_example_ok]. *)

(** [Tensor::zip_with] with an operand that panics: the last result computed is neither dropped nor
    anywhere else, although no element is being processed.  Here the operand gives 5 and panics
    when computing its second item; the result 1 + 5 is leaked. *)
Definition ex_bomb : tree Z := TFromFn ty1 [3] (fun idx (s : unit) => if nth 0 idx 0 =? 1 then Panic else Ok (5, s)) tt.
Definition plus_cl (p : Z * Z) (c : Z) : call Z Z := Gives (fst p + snd p) c.
Theorem c36_leak_refuted : exists (t : tensor Z) (e : expression Z) w,
  tensor_ok t /\ t_build ex_bomb = Ok e /\ zips t e /\
  tn_zip_with e plus_cl t w0 = Unwound w /\ In 6 (w_made w) /\ ~ In 6 (w_used w ++ w_dropped w).
Proof.
  exists (mkTensor ty1 [3] [1; 2; 3] 3). eexists. eexists.
  assert (Ht : tensor_ok (mkTensor ty1 [3] [1; 2; 3] 3)) by (constructor; simpl; (reflexivity || lia || wf_tac)).
  split; [exact Ht|]. split; [vm_compute; reflexivity|]. split.
  - eapply tree_zips with (tr := ex_bomb); [exact Ht| |reflexivity| |].
    + cbn. repeat split; [wf_tac|wf_tac| |discriminate]. intros [|[|k]]; vm_compute; discriminate.
    + intros idx s Hi. cbn. unfold index_action. destruct (_ =? _); exact I.
    + intros _. split; [vm_compute; lia|left; vm_compute; repeat constructor].
  - split; [vm_compute; reflexivity|]. split; [left; reflexivity|]. vm_compute. intuition discriminate.
Qed.
Print Assumptions c36_leak_refuted.

(** ** C37 *)
Theorem c37_into_iter : forall A ty dims (l : list A) n, zlen l = prodZ dims ->
  exists it, it_nexts n (it_new (e_into ty dims l)) = Ok (map Some (firstn n l) ++ repeat None (n - length l), it) /\
    into_dropped l (it_st it) = skipn n l.
Proof. exact @into_nexts. Qed.
Print Assumptions c37_into_iter.
(** [for_each]/[fold]: all elements in order. *)
Theorem c37_into_expr : forall A ty dims (l : list A), zlen l = prodZ dims -> e_trace (e_into ty dims l) = (l, Ok tt).
Proof. exact @into_trace. Qed.
Print Assumptions c37_into_expr.
Example c37_example : exists it,
  it_nexts 2 (it_new (e_into ty2 [2; 2] [1; 2; 3; 4])) = Ok ([Some 1; Some 2], it) /\
  into_dropped [1; 2; 3; 4] (it_st it) = [3; 4].
Proof. eexists. vm_all. Qed.
Example c37_example_end : exists it,
  it_nexts 6 (it_new (e_into ty2 [2; 2] [1; 2; 3; 4])) = Ok ([Some 1; Some 2; Some 3; Some 4; None; None], it) /\
  into_dropped [1; 2; 3; 4] (it_st it) = [].
Proof. eexists. vm_all. Qed.

(** ** C47 *)
Theorem c47_into_vec : forall T S (t : tensor T) (s : S), tensor_ok t -> tn_into_vec t s = Done (tn_mem t, tn_cap t) s.
Proof. exact @into_vec_done. Qed.
Print Assumptions c47_into_vec.
Theorem c47_from_vec : forall T S (items : list T) cap (s : S),
  tn_from_vec items cap s = Done (mkTensor (STuple [DDyn]) [zlen items] items cap) s.
Proof. exact @from_vec_done. Qed.
Print Assumptions c47_from_vec.
Theorem c47_into_flat : forall T S (t : tensor T) (s : S), tensor_ok t ->
  tn_into_flat t s = Done (mkTensor (STuple [DDyn]) [zlen (tn_mem t)] (tn_mem t) (tn_cap t)) s.
Proof. exact @into_flat_done. Qed.
Print Assumptions c47_into_flat.
(** [into_shape]: the dimensions are those C12 says ([resolves]: as given if their product is the
    length, or with one inferred); if there are none it panics and the elements are dropped. *)
Theorem c47_into_shape : forall T C ty dims (t : tensor T) (w : world T C),
  tensor_ok t -> nonneg dims -> typed ty dims -> const_small ty ->
  (forall nd, fits (known dims) -> resolves (prodZ (tn_dims t)) dims nd ->
     tn_into_shape ty dims t w = Done (mkTensor ty nd (tn_mem t) (tn_cap t)) w) /\
  (~ (exists nd, fits (known dims) /\ resolves (prodZ (tn_dims t)) dims nd) ->
     tn_into_shape ty dims t w = Unwound (w_drop (tn_mem t) w)).
Proof. exact @into_shape_iff. Qed.
Print Assumptions c47_into_shape.
Theorem c47_into_mapping : forall T C ty (t : tensor T) (w : world T C),
  tensor_ok t ->
  tn_into_mapping ty t w =
  if accepts ty (tn_dims t) then Done (mkTensor ty (tn_dims t) (tn_mem t) (tn_cap t)) w else Unwound (w_drop (tn_mem t) w).
Proof. exact @into_mapping_eq. Qed.
Print Assumptions c47_into_mapping.
Theorem c47_accepts : forall ty dims, accepts ty dims = true <-> typed ty dims.
Proof. exact @accepts_typed. Qed.
Print Assumptions c47_accepts.
Theorem c47_extend : forall T C al (fs : list (C -> call T C)) t w xs c,
  tensor_ok t -> tn_ty t = STuple [DDyn] -> (forall n, al_ok al n = true) -> gives fs (w_clo w) = (xs, c, true) ->
  exists cap, tn_cap t <= cap /\ zlen (tn_mem t ++ xs) <= cap /\
    tn_extend al fs (t, w) = Done tt (mkTensor (STuple [DDyn]) [zlen (tn_mem t ++ xs)] (tn_mem t ++ xs) cap, after c xs [] w).
Proof. exact @extend_done. Qed.
Print Assumptions c47_extend.
(** An iterator that panics after giving elements leaves the tensor empty. *)
Theorem c47_extend_panics : forall T C al (fs : list (C -> call T C)) t w xs c,
  tensor_ok t -> tn_ty t = STuple [DDyn] -> (forall n, al_ok al n = true) -> gives fs (w_clo w) = (xs, c, false) ->
  exists cap, tn_cap t <= cap /\
    tn_extend al fs (t, w) =
    Unwound (match xs with
             | [] => (mkTensor (STuple [DDyn]) (tn_dims t) (tn_mem t) cap, after c [] [] w)
             | _ :: _ => (mkTensor (STuple [DDyn]) [0] [] cap, after c xs (tn_mem t ++ xs) w)
             end).
Proof. exact @extend_panics. Qed.
Print Assumptions c47_extend_panics.
Theorem c47_into_scalar : forall T C (t : tensor T) (w : world T C), tensor_ok t ->
  (prodZ (tn_dims t) = 1 -> exists x, tn_mem t = [x] /\ tn_into_scalar t w = Done x w) /\
  (prodZ (tn_dims t) <> 1 -> tn_into_scalar t w = Unwound (w_drop (tn_mem t) w)).
Proof. exact @into_scalar_done. Qed.
Print Assumptions c47_into_scalar.
Theorem c47_clone : forall T C (clone : T -> C -> call T C) (t : tensor T) (w : world T C),
  tensor_ok t ->
  tn_clone clone t w =
  let '(ys, c, b) := gives (map clone (tn_mem t)) (w_clo w) in
  if b then Done (mkTensor (tn_ty t) (tn_dims t) ys (zlen ys)) (after c ys [] w) else Unwound (after c ys ys w).
Proof. exact @clone_done. Qed.
Print Assumptions c47_clone.
Theorem c47_clone_from : forall T C al (clone : T -> C -> call T C) src dims (t : tensor T) (w : world T C) ys c,
  tensor_ok t -> zlen src = prodZ dims -> (forall n, al_ok al n = true) ->
  gives (map clone src) (w_clo w) = (ys, c, true) ->
  exists cap, zlen ys <= cap /\
    tn_clone_from al clone src dims (t, w) =
    Done tt (mkTensor (tn_ty t) dims ys cap,
             after c ys (skipn (length src) (tn_mem t) ++ firstn (length src) (tn_mem t)) w).
Proof. exact @clone_from_done. Qed.
Print Assumptions c47_clone_from.

Example c47_example :
  tn_into_shape ty2 [3; 2] t23 w0 = Done (mkTensor ty2 [3; 2] [1; 2; 3; 4; 5; 6] 6) w0 /\
  tn_into_shape (STuple [DDyn; DConst 3]) [2; 3] t23 w0 = Done (mkTensor (STuple [DDyn; DConst 3]) [2; 3] [1; 2; 3; 4; 5; 6] 6) w0 /\
  tn_into_shape ty2 [4; 2] t23 w0 = Unwound (w_drop [1; 2; 3; 4; 5; 6] w0) /\
  tn_into_mapping SDynRank t23 w0 = Done (mkTensor SDynRank [2; 3] [1; 2; 3; 4; 5; 6] 6) w0 /\
  tn_into_flat t23 w0 = Done (mkTensor ty1 [6] [1; 2; 3; 4; 5; 6] 6) w0 /\
  tn_extend al0 [count; count] (mkTensor ty1 [2] [1; 2] 2, w0) =
    Done tt (mkTensor ty1 [4] [1; 2; 100; 101] 4, after 2 [100; 101] [] w0) /\
  tn_into_scalar (mkTensor ty2 [1; 1] [7] 1) w0 = Done 7 w0 /\
  tn_clone_from al0 keep [7; 8; 9] [1; 3] (t23, w0) =
    Done tt (mkTensor ty2 [1; 3] [7; 8; 9] 6, after 0 [7; 8; 9] [4; 5; 6; 1; 2; 3] w0).
Proof. vm_all. Qed.

(** ** C49 *)

(** A shape with a dynamic dimension: whatever happens in [resize_with], the tensor stays consistent
    and no element is lost. *)
Theorem c49_dynamic_partial : forall T C al new (f : C -> call T C) t (w : world T C),
  tensor_ok t -> nonneg new -> prodZ (sh_default (tn_ty t)) = 0 ->
  match tn_resize_with al new f (t, w) with
  | Done _ (t', w') | Unwound (t', w') =>
      tensor_ok t' /\ tn_ty t' = tn_ty t /\
      Permutation (tn_mem t ++ w_made w' ++ w_used w ++ w_dropped w)
                  (tn_mem t' ++ w_made w ++ w_used w' ++ w_dropped w')
  | _ => False
  end.
Proof. exact @resize_unwound. Qed.
Print Assumptions c49_dynamic_partial.

(** A [Tensor] of shape (Dyn, Const<3>) resized to 2x4 panics and is then empty. *)
Example c49_example : let ty := STuple [DDyn; DConst 3] in
  tensor_ok (mkTensor ty [2; 3] [1; 2; 3; 4; 5; 6] 6) /\ prodZ (sh_default ty) = 0 /\
  tn_resize_with al0 [2; 4] count (mkTensor ty [2; 3] [1; 2; 3; 4; 5; 6] 6, w0) =
  Unwound (mkTensor ty [0; 3] [] 8, mkWorld 2 [100; 101] [] [1; 2; 3; 100; 4; 5; 6; 101]).
Proof. split; [constructor; simpl; (reflexivity || lia || wf_tac)|]. vm_all. Qed.

(** A shape without dynamic dimensions: the process is aborted. *)
Theorem c49_refuted : exists (t : tensor Z) new,
  tensor_ok t /\ nonneg new /\ length new = length (tn_dims t) /\ fits new /\
  tn_resize_with al0 new count (t, w0) = Aborted.
Proof.
  exists (mkTensor (STuple [DConst 2; DConst 2]) [2; 2] [1; 2; 3; 4] 4), [2; 3].
  split; [constructor; simpl; (reflexivity || lia || wf_tac)|]. split; [wf_tac|]. split; [reflexivity|].
  split; [intros [|[|[|k]]]; vm_compute; discriminate|]. vm_compute. reflexivity.
Qed.
Print Assumptions c49_refuted.
