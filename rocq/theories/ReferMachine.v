(** The reference interpreter (Refer.v) for programs that run with 64-bit machine integers.

    [x_code] is the code of an action with the operands that the machine code makes: their views come from [x_run]
    (Machine.v) and are visited with the strides found there (MachineIter.v).  Used in the statements of C81 and C82. *)
From Verif Require Import Base Spec Shape Mapping Index View Wf IndexFacts Expr ExprSpec Tensor TensorSpec History Program.
From Verif Require Import Machine MachineSpec MachineIter MachineTensor MachineProgram Select Refer.

(** [&j.view(..)] as an operand (compare [operand]). *)
Definition x_operand {T C} (dbg : bool) (st : state T C) (j : nat) (ops : list vop) : expression T :=
  match var st j with
  | Some t =>
      match x_run dbg (whole (tn_ty t) (tn_dims t)) ops with
      | Ok v => e_copied (read (tn_mem t)) (x_e_view dbg (zlen (tn_mem t)) true v)
      | _ => e_into (STuple [DDyn]) [0] []
      end
  | None => e_into (STuple [DDyn]) [0] []
  end.

Definition x_code {T C} (dbg : bool) (a : act T C) (st : state T C) : cmd T C :=
  match a with
  | AExpand i j ops cl => Own (Expand i (x_operand dbg st j ops) cl)
  | AZipWith i j ops f => Own (ZipWith i (x_operand dbg st j ops) f)
  | AZipEach i ops j ops' h => ZipMut i ops (x_operand dbg st j ops') h
  | a => code a st
  end.

(** ** What is asked *)

(** The arguments that are not covered by [views]: the offset of a diagonal is an [isize]. *)
Definition isize_args (ops : list vop) : Prop :=
  Forall (fun o => match o with OpDiag k => is_isize k | _ => True end) ops.

Section Asked.
  Context {T C : Type}.

  (** Arguments are machine integers; the views that are walked through have elements. *)
  Definition m_act_ok (k : act T C) (s : rstate T C) : Prop :=
    let filled i ops :=
      isize_args ops /\ forall a, rvar s i = Some a -> chain_fits (a_dims a) ops -> positive (chain_dims (a_dims a) ops) in
    match k with
    | ANew ty cap => machine_dims (sh_default ty)
    | AFromVec items => zlen items <= isize_max
    | AResizeWith _ dims _ | AResize _ dims _ _ | AIntoShape _ _ dims => machine_dims dims
    | AExpand _ _ ops _ | AZipWith _ _ ops _ | ASetAt _ ops _ _ | ASetLinear _ ops _ _ => isize_args ops
    | AEach i ops _ | AFillWith i ops _ | AFill i ops _ _ => filled i ops
    | AZipEach _ ops _ ops' _ => isize_args ops /\ isize_args ops'
    | AHalves _ ops a mid ops1 ops2 _ => isize_args ops /\ isize_args ops1 /\ isize_args ops2
    | _ => True
    end.
  Fixpoint m_acts_ok (p : list (act T C)) (s : rstate T C) : Prop :=
    match p with [] => True | k :: p' => m_act_ok k s /\ m_acts_ok p' (r_do k s) end.

  (** *** Overflow checks *)

  (** Making the view overflows nowhere, and no stride is [isize::MIN], which has no negation. *)
  Definition calm (a : arr T) (ops : list vop) : Prop :=
    forall v, x_run false (whole (a_ty a) (a_dims a)) ops = Ok v ->
      x_run true (whole (a_ty a) (a_dims a)) ops = Ok v /\ Forall (fun s => s <> isize_min) (m_strides (v_map v)).
  (** The views of an action are such, the lengths of what is appended are computed right, and so is the stride behind an
      empty dimension that [resize] asks for. *)
  Definition calm_one (k : act T C) (a : arr T) (s : rstate T C) : Prop :=
    let lent j ops := forall b, rvar s j = Some b -> calm b ops in
    match k with
    | AExpand _ j ops _ => lent j ops /\ forall b, rvar s j = Some b -> fits (chain_dims (a_dims b) ops)
    | AResizeWith _ dims _ | AResize _ dims _ _ => 0 < prodZ dims -> ~ stride_overflow (a_dims a)
    | AZipWith _ j ops _ => lent j ops
    | AEach _ ops _ | AFillWith _ ops _ | AFill _ ops _ _ | ASetAt _ ops _ _ | ASetLinear _ ops _ _ => calm a ops
    | AZipEach _ ops j ops' _ => calm a ops /\ lent j ops'
    | AHalves _ ops x mid ops1 ops2 _ => calm a (ops ++ OpSplitFst x mid :: ops1) /\ calm a (ops ++ OpSplitSnd x mid :: ops2)
    | _ => True
    end.
  Definition calm_act (k : act T C) (s : rstate T C) : Prop :=
    forall i a, on k = Some i -> rvar s i = Some a -> calm_one k a s.
  Fixpoint calm_acts (p : list (act T C)) (s : rstate T C) : Prop :=
    match p with [] => True | k :: p' => calm_act k s /\ calm_acts p' (r_do k s) end.

  (** A chain without steps and diagonals, on whose way no view is empty. *)
  Fixpoint plain_ops (dims : list Z) (ops : list vop) : Prop :=
    match ops with
    | [] => True
    | o :: ops' =>
        match o with OpView xs => Forall (fun x => Z.abs (ix_step x) = 1) xs | OpDiag _ => False | _ => True end /\
        (op_fits dims o -> 0 < prodZ (op_dims dims o) /\ plain_ops (op_dims dims o) ops')
    end.
  Definition plain (a : arr T) (ops : list vop) : Prop :=
    positive (a_dims a) /\ 2 * zlen (a_els a) <= isize_max /\ plain_ops (a_dims a) ops.
  Definition plain_one (k : act T C) (a : arr T) (s : rstate T C) : Prop :=
    let lent j ops := forall b, rvar s j = Some b -> plain b ops in
    match k with
    | AExpand _ j ops _ | AZipWith _ j ops _ => lent j ops
    | AResizeWith _ dims _ | AResize _ dims _ _ => 0 < prodZ dims -> ~ stride_overflow (a_dims a)
    | AEach _ ops _ | AFillWith _ ops _ | AFill _ ops _ _ | ASetAt _ ops _ _ | ASetLinear _ ops _ _ => plain a ops
    | AZipEach _ ops j ops' _ => plain a ops /\ lent j ops'
    | AHalves _ ops x mid ops1 ops2 _ => plain a (ops ++ OpSplitFst x mid :: ops1) /\ plain a (ops ++ OpSplitSnd x mid :: ops2)
    | _ => True
    end.
  Definition plain_act (k : act T C) (s : rstate T C) : Prop :=
    forall i a, on k = Some i -> rvar s i = Some a -> plain_one k a s.
  Fixpoint plain_acts (p : list (act T C)) (s : rstate T C) : Prop :=
    match p with [] => True | k :: p' => plain_act k s /\ plain_acts p' (r_do k s) end.
End Asked.
