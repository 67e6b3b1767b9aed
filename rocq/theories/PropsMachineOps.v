(** C86: lazy operators with machine integers. *)
From Verif Require Import Base Spec SpecFacts Shape Mapping Index View Wf MappingFacts MapOps ReshapeFacts
  Expr ExprSpec ExprFacts ExprTree ExprMore Ops OpsFacts OpsMore PropsView PropsExpr PropsTensor PropsOps.
From Verif Require Import Machine MachineSpec MachineFacts MachineIter MachineIterFacts MachineSources PropsMachineIter.
Unset Strict Implicit.

(** Operands of any kind, the operator may panic and is called with a state: operands of matching shapes are
    accepted, others are refused; folding the result gives, in both builds, what folding gives with unbounded
    integers: the same calls in the same order, the same items, the same panics. *)
Theorem c86_binary : forall (dbg : bool) (size : view -> Z) (A B R F : Type) (op : A -> B -> F -> outcome (R * F)) (f0 : F)
    (a : tree A) (b : tree B) ea eb,
  t_leaves a -> t_leaves b -> t_machine dbg size a -> t_machine dbg size b -> t_need a = 0%nat -> t_need b = 0%nat ->
  x_build dbg a = Ok ea -> x_build dbg b = Ok eb ->
  exists ea' eb', t_build a = Ok ea' /\ t_build b = Ok eb' /\
  (compatible a b -> exists e e', op_expr op f0 ea eb = Ok e /\ op_expr op f0 ea' eb' = Ok e' /\
     e_dims e = longer (t_dims b) (t_dims a) /\
     forall T (f : T -> R -> outcome T) acc, x_fold dbg e f acc = e_fold e' f acc) /\
  (~ compatible a b -> op_expr op f0 ea eb = Panic).
Proof.
  intros dbg size A B R F op f0 a b ea eb LA LB MA MB NA NB EA EB.
  assert (ZA : t_zips a) by (destruct (x_build_cases LA MA) as [(H & _)|(_ & H)]; [exact H|congruence]).
  assert (ZB : t_zips b) by (destruct (x_build_cases LB MB) as [(H & _)|(_ & H)]; [exact H|congruence]).
  destruct (build_cases LA) as [(_ & ea' & EA' & _)|[H _]]; [|contradiction].
  destruct (build_cases LB) as [(_ & eb' & EB' & _)|[H _]]; [|contradiction].
  exists ea', eb'. split; [exact EA'|]. split; [exact EB'|].
  pose (t := op_tree op f0 a b).
  assert (LT : t_leaves t) by (split; auto). assert (MT : t_machine dbg size t) by (split; auto).
  assert (NT : t_need t = 0%nat) by (cbn; rewrite NA, NB; reflexivity).
  assert (XT : x_build dbg t = op_expr op f0 ea eb).
  { unfold t, op_tree. cbn [x_build]. rewrite EA, EB. reflexivity. }
  pose proof (op_tree_build op f0 EA' EB') as BT. fold t in BT.
  destruct (c69_build LT MT) as [H1 H2]. rewrite XT in H1, H2.
  split.
  - intros (C1 & C2 & C3). assert (ZT : t_zips t) by (repeat split; auto).
    destruct (H1 ZT) as (e & E & D). destruct (build_cases LT) as [(_ & e' & E' & _)|[H _]]; [|contradiction].
    exists e, e'. split; [exact E|]. split; [congruence|]. split; [exact D|]. intros T f acc.
    rewrite <- XT in E. destruct (leaf_small LT MT) as [PT _].
    rewrite (c69_fold f acc LT MT E) by (rewrite NT; lia). symmetry. apply c27_tree_fold_partial; auto. now apply nonempty_fine.
  - intros NC. apply H2. intros (_ & _ & C1 & C2 & C3). apply NC. split; auto.
Qed.
Print Assumptions c86_binary.

(** With one operand. *)
Theorem c86_unary : forall (dbg : bool) (size : view -> Z) (A R F : Type) (op : A -> F -> outcome (R * F)) (f0 : F) (a : tree A) ea,
  t_leaves a -> t_machine dbg size a -> t_need a = 0%nat -> x_build dbg a = Ok ea ->
  exists ea', t_build a = Ok ea' /\ e_dims (neg_expr op f0 ea) = t_dims a /\
    forall T (f : T -> R -> outcome T) acc, x_fold dbg (neg_expr op f0 ea) f acc = e_fold (neg_expr op f0 ea') f acc.
Proof.
  intros dbg size A R F op f0 a ea LA MA NA EA.
  assert (ZA : t_zips a) by (destruct (x_build_cases LA MA) as [(H & _)|(_ & H)]; [exact H|congruence]).
  destruct (build_cases LA) as [(_ & ea' & EA' & _)|[H _]]; [|contradiction]. exists ea'. split; [exact EA'|].
  pose (t := TMap op f0 a). assert (XT : x_build dbg t = Ok (neg_expr op f0 ea)) by (unfold t; cbn [x_build]; rewrite EA; reflexivity).
  assert (BT : t_build t = Ok (neg_expr op f0 ea')) by (unfold t; cbn [t_build]; rewrite EA'; reflexivity).
  split.
  - destruct (proj1 (c69_build LA MA) ZA) as (e & E & D). rewrite EA in E. injection E as <-. exact D.
  - intros T f acc. destruct (@leaf_small size dbg _ t LA MA) as [PT _].
    rewrite (@c69_fold dbg size _ _ t _ f acc LA MA XT) by (unfold t; cbn [t_need]; rewrite NA; lia). symmetry.
    apply (@c27_tree_fold_partial _ _ t); auto. now apply nonempty_fine.
Qed.
Print Assumptions c86_unary.

(** Two arrays or views of the same shape: the result has this shape and, in row-major order, the results of the
    operator on the elements of the two at each index. *)
Theorem c86_arrays : forall (dbg : bool) T U R (op : T -> U -> R) am bm a b,
  walkable dbg (Z.of_nat (length am)) a -> walkable dbg (Z.of_nat (length bm)) b -> v_dims a = v_dims b ->
  exists e rs, op_expr (pure_op op) tt (e_copied (read am) (x_e_view dbg (Z.of_nat (length am)) true a))
                 (e_copied (read bm) (x_e_view dbg (Z.of_nat (length bm)) true b)) = Ok e /\
    e_dims e = v_dims a /\ (let* l := x_fold dbg e (fun l r => Ok (r :: l)) [] in Ok (rev l)) = Ok rs /\
    Forall2 (fun idx r => exists x y, v_get am a idx = Ok x /\ v_get bm b idx = Ok y /\ r = op x y) (indices (v_dims a)) rs.
Proof.
  intros dbg T U R op am bm a b HA HB HD. pose proof HA as (VA & _ & PA & _). pose proof HB as (VB & _ & PB & _).
  destruct (@c86_binary dbg (fun _ => 0) T U R unit (pure_op op) tt (ref_operand am a) (ref_operand bm b) _ _ VA VB HA HB eq_refl eq_refl eq_refl eq_refl)
    as (ea' & eb' & EA & EB & H & _).
  destruct H as (e & e' & E1 & E2 & D & FO).
  { split; [|split; left; reflexivity]. cbn [ref_operand t_dims]. rewrite HD. reflexivity. }
  injection EA as <-. injection EB as <-.
  destruct (@c41_arrays T U R op am bm a b VA VB HD PA) as (e1 & rs & E3 & D1 & CO & FI).
  rewrite E2 in E3. injection E3 as <-. exists e, rs. split; [exact E1|]. split.
  - rewrite D. cbn [ref_operand t_dims]. rewrite HD. unfold longer. now rewrite Nat.ltb_irrefl.
  - split; [|exact FI]. rewrite FO. exact CO.
Qed.
Print Assumptions c86_arrays.

(** A matrix minus a row, a transposed matrix minus a matrix, in both builds; shapes that do not match. *)
Example c86_example : forall dbg,
  let m := e_copied (read [10; 20; 30; 40]) (x_e_view dbg 4 true (whole ty2 [2; 2])) in
  let t := e_copied (read [10; 20; 30; 40]) (x_e_view dbg 4 true ex_2x2) in
  let r := e_copied (read [1; 2]) (x_e_view dbg 2 true (whole ty1 [2])) in
  let sub := pure_op Z.sub in
  let out e := let* e := e in let* l := x_fold dbg e (fun l r => Ok (r :: l)) [] in Ok (rev l) in
  out (op_expr sub tt m r) = Ok [9; 18; 29; 38] /\ out (op_expr sub tt t m) = Ok [0; 10; -10; 0] /\
  out (op_expr sub tt r m) = Ok [-9; -18; -29; -38] /\
  out (Ok (neg_expr (fun x (c : unit) => Ok (- x, c)) tt t)) = Ok [-10; -30; -20; -40] /\
  op_expr sub tt m (e_copied (read [1; 2; 3]) (x_e_view dbg 3 true (whole ty1 [3]))) = Panic.
Proof. intros []; cbv zeta; repeat split; vm_compute; reflexivity. Qed.
Example c86_walkable : forall dbg, walkable dbg 4 ex_2x2.
Proof.
  intros dbg. split; [exact ex_2x2_valid|]. split; [vm_compute; discriminate|]. split; [repeat constructor|].
  repeat constructor; vm_compute; discriminate.
Qed.
