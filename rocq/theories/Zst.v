(** Model of arrays whose elements have no size, such as [Tensor<()>].

    All elements are at the same address, so nothing bounds the number of elements but [usize]: the array has at
    most [usize::MAX] of them.  The index computations are those of the other arrays ([Machine.v]); a pointer moves
    by zero bytes whatever the computed offset is, and every access is in place. *)
From Verif Require Import Base Spec Shape Mapping Index View Wf Machine MachineSpec Expr.

(** ** Access *)

(** index/slice.rs:26-62, 84-112 [v[idx]], [v[k]]: the offset is computed and has no effect. *)
Definition z_get (dbg : bool) (v : view) (idx : list Z) : outcome unit :=
  let* _ := x_index_multi dbg (v_map v) idx in Ok tt.
Definition z_get_linear (dbg : bool) (v : view) (k : Z) : outcome unit :=
  let* _ := x_index_linear dbg (v_map v) k in Ok tt.

(** ** Iteration *)

(** view.rs:346-395: the offsets are computed as in [x_e_view] and have no effect. *)
Definition z_view (dbg rep : bool) (v : view) : expression unit :=
  let m := v_map v in
  mkExpr unit tt (v_ty v) (v_dims v) (map_inner_rank m) rep
    (fun i p => let* _ := i_res dbg (inner_stride m * as_isize i) in Ok (tt, p))
    (fun d c p => let* s := x_stride dbg m d in
                  let* t := i_res dbg (- s) in
                  let* _ := i_res dbg (t * as_isize c) in
                  Ok p)
    (fun d p => let* _ := x_stride dbg m d in Ok p).

(** ** Vocabulary *)

(** A view of an array of such elements: any shape of at most [usize::MAX] elements, any strides. *)
Record zst_view (v : view) : Prop := {
  zv_wf : wf_map (v_map v);
  zv_dims : Forall (fun d => d <= usize_max) (v_dims v);
  zv_len : prodZ (v_dims v) <= usize_max;
  zv_strides : v_layout v = Strided -> Forall is_isize (m_strides (v_map v))
}.

(** [f] called [n] times. *)
Fixpoint times {T : Type} (n : nat) (f : T -> outcome T) (acc : T) : outcome T :=
  match n with O => Ok acc | S k => let* acc := f acc in times k f acc end.

(** The shape that an operation on a view of shape [d] gives. *)
Definition shape_after (d : list Z) (o : vop) (d' : list Z) : Prop :=
  match o with
  | OpAxisAt a k => exists i, is_axis a (length d) i /\ k < nth i d 0 /\ d' = remove_at i d
  | OpSplitFst a k => exists i, is_axis a (length d) i /\ k <= nth i d 0 /\ d' = upd d i k
  | OpSplitSnd a k => exists i, is_axis a (length d) i /\ k <= nth i d 0 /\ d' = upd d i (nth i d 0 - k)
  | OpView xs => Forall2 ix_ok d xs /\ d' = sub_dims d xs
  | OpPermute _ perm => perm_of (length d) perm /\ d' = pick perm d
  | OpReorder => d' = rev d
  | OpReshape ty req => typed ty d' /\ length d' = length req /\ prodZ d' = prodZ d /\
      forall i, (i < length req)%nat -> nth i req 0 <> usize_max -> nth i d' 0 = nth i req 0
  | OpFlatten => d' = [prodZ d]
  | OpRemap _ _ => d' = d
  | OpCol k => exists d0 d1, d = [d0; d1] /\ k < d1 /\ d' = [d0]
  | OpRow k => exists d0 d1, d = [d0; d1] /\ k < d0 /\ d' = [d1]
  | OpDiag k => exists d0 d1, d = [d0; d1] /\ - d0 <= k <= d1 /\ d' = [if k <? 0 then Z.min (d0 + k) d1 else Z.min d0 (d1 - k)]
  end.
Fixpoint shapes_after (d : list Z) (os : list vop) (d' : list Z) : Prop :=
  match os with
  | [] => d' = d
  | o :: ot => exists d1, shape_after d o d1 /\ shapes_after d1 ot d'
  end.
