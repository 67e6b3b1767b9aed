(** What chains of view operations mean, in terms of indices alone: no strides, offsets, layouts or storage
    occur here.  An operation on an array of sizes [dims] gives an array of sizes [op_dims dims o], whose element at
    [idx] is the element at [op_index dims o idx] of the array it was applied to.  Used in the statement of C77. *)
From Verif Require Import Base Spec Shape Mapping Index View Wf.

(** The dimension that an axis stands for. *)
Definition axis_dim (a : axis) (rank : nat) : nat :=
  match a with AxConst n | AxDyn n => n | AxRows => rank - 1 | AxCols => rank - 2 end%nat.

(** The first place of [x] in a list. *)
Fixpoint place (x : Z) (l : list Z) : nat :=
  match l with [] => 0%nat | y :: l' => if y =? x then 0%nat else S (place x l') end.

(** The index that [pick perm] takes to [idx]: coordinate [k] is where [perm] has put it. *)
Definition put_back (perm idx : list Z) : list Z :=
  map (fun k => nth (place (Z.of_nat k) perm) idx 0) (seq 0 (length perm)).

(** The sizes that a request stands for: the one that is left open takes what remains. *)
Definition resolved (len : Z) (req : list Z) : list Z :=
  map (fun r => if r =? usize_max then len / prodZ (known req) else r) req.

Definition op_dims (dims : list Z) (o : vop) : list Z :=
  match o with
  | OpAxisAt a _ => remove_at (axis_dim a (length dims)) dims
  | OpSplitFst a mid => upd dims (axis_dim a (length dims)) mid
  | OpSplitSnd a mid => let p := axis_dim a (length dims) in upd dims p (nth p dims 0 - mid)
  | OpView xs => sub_dims dims xs
  | OpPermute _ perm => pick perm dims
  | OpReorder => rev dims
  | OpReshape _ req => resolved (prodZ dims) req
  | OpFlatten => [prodZ dims]
  | OpRemap _ _ => dims
  | OpCol _ => [nth 0 dims 0]
  | OpRow _ => [nth 1 dims 0]
  | OpDiag k => [if k >=? 0 then Z.min (nth 0 dims 0) (nth 1 dims 0 - k) else Z.min (nth 1 dims 0) (nth 0 dims 0 + k)]
  end.

Definition op_index (dims : list Z) (o : vop) (idx : list Z) : list Z :=
  match o with
  | OpAxisAt a k => insert_at (axis_dim a (length dims)) k idx
  | OpSplitFst _ _ | OpRemap _ _ => idx
  | OpSplitSnd a mid => let p := axis_dim a (length dims) in upd idx p (nth p idx 0 + mid)
  | OpView xs => sub_index dims xs idx
  | OpPermute _ perm => put_back perm idx
  | OpReorder => rev idx
  | OpReshape _ _ | OpFlatten => unflat dims (flat (op_dims dims o) idx)
  | OpCol k => [hd 0 idx; k]
  | OpRow k => [k; hd 0 idx]
  | OpDiag k => if k >=? 0 then [hd 0 idx; hd 0 idx + k] else [hd 0 idx - k; hd 0 idx]
  end.

(** The operation makes sense for these sizes. *)
Definition op_fits (dims : list Z) (o : vop) : Prop :=
  match o with
  | OpAxisAt a k => exists p, is_axis a (length dims) p /\ k < nth p dims 0
  | OpSplitFst a mid | OpSplitSnd a mid => exists p, is_axis a (length dims) p /\ mid <= nth p dims 0
  | OpView xs => Forall2 ix_ok dims xs
  | OpPermute _ perm => perm_of (length dims) perm
  | OpReorder => True
  | OpReshape ty req => fits (known req) /\ resolves (prodZ dims) req (resolved (prodZ dims) req) /\
                        typed ty (resolved (prodZ dims) req)
  | OpFlatten => True
  | OpRemap _ ty => typed ty dims
  | OpCol k => exists d0 d1, dims = [d0; d1] /\ k < d1
  | OpRow k => exists d0 d1, dims = [d0; d1] /\ k < d0
  | OpDiag k => exists d0 d1, dims = [d0; d1] /\ - d0 <= k <= d1
  end.

(** Arguments of the right type, as in Wf.v. *)
Definition op_given (dims : list Z) (o : vop) : Prop :=
  match o with
  | OpAxisAt _ i | OpSplitFst _ i | OpSplitSnd _ i | OpCol i | OpRow i => usize i
  | OpView xs => Forall ix_arg xs /\ length xs = length dims
  | OpPermute p perm => Forall usize perm /\ perm_matches p perm
  | OpReshape ty req => Forall usize req /\ ty_of_len ty (length req)
  | OpRemap _ ty => ty_wf ty
  | OpDiag _ | OpReorder | OpFlatten => True
  end.

(** Chains.  The index of an element of the result is taken back through the operations, the last one first. *)
Fixpoint chain_dims (dims : list Z) (os : list vop) : list Z :=
  match os with [] => dims | o :: ot => chain_dims (op_dims dims o) ot end.
Fixpoint chain_index (dims : list Z) (os : list vop) (idx : list Z) : list Z :=
  match os with [] => idx | o :: ot => op_index dims o (chain_index (op_dims dims o) ot idx) end.
Fixpoint chain_fits (dims : list Z) (os : list vop) : Prop :=
  match os with [] => True | o :: ot => op_fits dims o /\ chain_fits (op_dims dims o) ot end.
Fixpoint chain_given (dims : list Z) (os : list vop) : Prop :=
  match os with [] => True | o :: ot => op_given dims o /\ (op_fits dims o -> chain_given (op_dims dims o) ot) end.

(** Operations that work on every layout. *)
Definition any_layout (o : vop) : bool :=
  match o with OpReshape _ _ | OpFlatten | OpRemap Dense _ => false | _ => true end.

(** Two chains that select the same elements in the same places. *)
Definition same_selection (dims : list Z) (os os' : list vop) : Prop :=
  chain_dims dims os = chain_dims dims os' /\
  forall idx, in_bounds (chain_dims dims os) idx -> chain_index dims os idx = chain_index dims os' idx.
