(** Well-formed values: what the Rust types guarantee about shapes, mappings and views.
    Used in theorem statements. *)
From Verif Require Import Base Spec Shape Mapping Index View.

(** A size agrees with a dimension type. *)
Definition dim_ok (d : dimty) (n : Z) : Prop :=
  match d with DConst c => n = c | DDyn => True end.

(** Dimensions that a value of shape type [ty] can have. *)
Definition typed (ty : shty) (dims : list Z) : Prop :=
  match ty with SDynRank => True | STuple ds => Forall2 dim_ok ds dims end.

(** Tuple shapes have at most 6 dimensions. *)
Definition ty_wf (ty : shty) : Prop :=
  match ty with SDynRank => True | STuple ds => (length ds <= 6)%nat end.

(** The strides of a mapping: row-major for dense layout, stored otherwise. *)
Definition m_strides (m : mapping) : list Z :=
  match m with DenseM _ dims => row_major dims | StridedM _ _ strides => strides end.

Record wf_map (m : mapping) : Prop := {
  wf_nonneg : nonneg (m_dims m);
  wf_typed : typed (m_ty m) (m_dims m);
  wf_ty : ty_wf (m_ty m);
  wf_strides : length (m_strides m) = length (m_dims m)
}.

(** Axis [a] of an array of rank [rank] is dimension [i]: [Rows] is the last dimension and
    [Cols] the one before it. *)
Definition is_axis (a : axis) (rank i : nat) : Prop :=
  (i < rank)%nat /\
  match a with
  | AxConst n => i = n
  | AxDyn n => i = n
  | AxRows => (i + 1 = rank)%nat
  | AxCols => (i + 2 = rank)%nat
  end.

(** A view of a storage with [n] cells is valid if its mapping is well formed, every in-bounds
    index addresses a cell and different indices address different cells. *)
Record valid_view (n : Z) (v : view) : Prop := {
  vv_wf : wf_map (v_map v);
  vv_range : forall idx, in_bounds (v_dims v) idx -> 0 <= v_addr v idx < n;
  vv_inj : forall i j, in_bounds (v_dims v) i -> in_bounds (v_dims v) j ->
                       v_addr v i = v_addr v j -> i = j
}.

(** The view of a whole owned array: storage of [len] cells, dense mapping. *)
Definition whole (ty : shty) (dims : list Z) : view := mkView 0 (DenseM ty dims).

(** [v'] shows elements of [v]: its element at [idx] is the element of [v] at [f idx]
    (the same storage cell). *)
Definition shows (v v' : view) (f : list Z -> list Z) : Prop :=
  forall idx, in_bounds (v_dims v') idx ->
    in_bounds (v_dims v) (f idx) /\ v_addr v' idx = v_addr v (f idx).

(** The entries known at compile time are the run-time ones; tuples have at most 6 entries. *)
Definition perm_matches (p : perm_arg) (perm : list Z) : Prop :=
  match p with
  | PermTuple xs =>
      Forall2 (fun x q => match x with PConst n => q = Z.of_nat n | PDyn => True end) xs perm /\
      (length xs <= 6)%nat
  | PermDyn => True
  end.

(** The shape type of a request of [n] dimensions. *)
Definition ty_of_len (ty : shty) (n : nat) : Prop :=
  ty_wf ty /\ match sh_rank ty with Some k => n = k | None => True end.

(** Arguments that the Rust types admit: [usize] values, tuples of the right length.
    [view] is only defined for tuple shapes with as many arguments as dimensions. *)
Definition op_arg (v : view) (o : vop) : Prop :=
  match o with
  | OpAxisAt _ i | OpSplitFst _ i | OpSplitSnd _ i | OpCol i | OpRow i => usize i
  | OpView xs => Forall ix_arg xs /\ length xs = length (v_dims v)
  | OpPermute p perm => Forall usize perm /\ perm_matches p perm
  | OpReshape ty dims => Forall usize dims /\ ty_of_len ty (length dims)
  | OpRemap _ ty => ty_wf ty
  | OpDiag _ | OpReorder | OpFlatten => True
  end.

(** Every operation of a run gets arguments of the right type. *)
Fixpoint run_args (v : view) (os : list vop) : Prop :=
  match os with
  | [] => True
  | o :: ot => op_arg v o /\ forall v', v_step v o = Ok v' -> run_args v' ot
  end.
