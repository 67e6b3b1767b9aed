(** Vocabulary for the theorems about machine arithmetic: when the numbers involved fit. *)
From Verif Require Import Base Spec Shape Mapping Index View Wf MappingFacts IndexFacts ViewFacts Machine.

(** Values of the machine types. *)
Definition is_usize (x : Z) : Prop := 0 <= x <= usize_max.
Definition is_isize (x : Z) : Prop := isize_min <= x <= isize_max.

(** The product of the dimensions, counting empty dimensions as one. *)
Definition mx (dims : list Z) : Z := prodZ (map (Z.max 1) dims).
(** The dimensions leave room: no partial product exceeds [isize::MAX]. *)
Definition roomy (dims : list Z) : Prop := mx dims <= isize_max.

(** All strides fit. *)
Definition strides_small (m : mapping) : Prop := Forall (fun s => Z.abs s <= isize_max) (m_strides m).

(** Stepping over all dimensions at once stays within [isize]. *)
Fixpoint spread (strides dims : list Z) : Z :=
  match strides, dims with
  | s :: ss, d :: ds => Z.abs s * d + spread ss ds
  | _, _ => 0
  end.

(** The view as a matrix, as in [into_col], [into_row] and [diag]. *)
Definition as_matrix (v : view) : outcome view := v_reshape v (mat_ty (v_ty v)) (v_dims v).

(** What an operation may still overflow on, although the view itself is small: the new stride of a
    stepped range or of a diagonal, the offset of an empty subarray, the bit mask of a permutation. *)
Definition op_room (v : view) (o : vop) : Prop :=
  match o with
  | OpView xs => Forall2 ix_ok (v_dims v) xs ->
      Forall2 (fun s x => Z.abs (s * ix_step x) <= isize_max) (m_strides (v_map v)) xs /\
      (0 < prodZ (sub_dims (v_dims v) xs) \/ spread (m_strides (v_map v)) (v_dims v) <= isize_max)
  | OpDiag k => is_isize k /\ forall r, as_matrix v = Ok r -> Z.abs (nth 0 (m_strides (v_map r)) 0 + nth 1 (m_strides (v_map r)) 0) <= isize_max
  | OpPermute _ _ => (length (v_dims v) < 64)%nat
  | _ => True
  end.

(** Every operation of a run has room and is applied to a view with elements. *)
Fixpoint run_room (v : view) (os : list vop) : Prop :=
  match os with
  | [] => True
  | o :: ot => 0 < prodZ (v_dims v) /\ op_room v o /\ forall v', v_step v o = Ok v' -> run_room v' ot
  end.

(** A run without stepped ranges and diagonals. *)
Definition op_plain (v : view) (o : vop) : Prop :=
  match o with
  | OpView xs => Forall (fun x => Z.abs (ix_step x) = 1) xs
  | OpPermute _ _ => (length (v_dims v) < 64)%nat
  | OpDiag _ => False
  | _ => True
  end.
Fixpoint run_plain (v : view) (os : list vop) : Prop :=
  match os with
  | [] => True
  | o :: ot => op_plain v o /\ forall v', v_step v o = Ok v' -> 0 < prodZ (v_dims v') /\ run_plain v' ot
  end.

(** The same view up to strides that no element depends on. *)
Record same_view (a b : view) : Prop := {
  sv_ptr : v_ptr a = v_ptr b;
  sv_ty : v_ty a = v_ty b;
  sv_layout : v_layout a = v_layout b;
  sv_dims : v_dims a = v_dims b;
  sv_addr : forall idx, in_bounds (v_dims a) idx -> v_addr a idx = v_addr b idx
}.

(** A view of [n] cells as it exists at run time: dimensions and stored strides are machine numbers. *)
Record machine_view (n : Z) (v : view) : Prop := {
  mv_valid : valid_view n v;
  mv_dims : Forall (fun d => d <= usize_max) (v_dims v);
  mv_strides : v_layout v = Strided -> Forall is_isize (m_strides (v_map v))
}.

(** Arguments of machine type; permutations of fewer than 64 dimensions. *)
Definition op_machine (v : view) (o : vop) : Prop :=
  op_arg v o /\
  match o with
  | OpPermute _ _ => (length (v_dims v) < 64)%nat
  | OpDiag k => is_isize k
  | _ => True
  end.
(** Every operation of a run gets such arguments. *)
Fixpoint run_machine (dbg : bool) (v : view) (os : list vop) : Prop :=
  match os with
  | [] => True
  | o :: ot => op_machine v o /\ forall v', x_step dbg v o = Ok v' -> run_machine dbg v' ot
  end.
(** The same for a run of the exact operations. *)
Fixpoint run_wide (v : view) (os : list vop) : Prop :=
  match os with
  | [] => True
  | o :: ot => op_machine v o /\ forall v', v_step v o = Ok v' -> run_wide v' ot
  end.
