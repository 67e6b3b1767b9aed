(** Model of the view operations of [src/view.rs] and [src/slice.rs].

    A view is the address of its first element (relative to the start of the storage it
    borrows from) and a mapping.  Shared and mutable forms run the same code. *)
From Verif Require Import Base Spec Shape Mapping Index.

(** view.rs:18-27, raw_slice.rs:8-11. *)
Record view := mkView { v_ptr : Z; v_map : mapping }.

Definition v_dims (v : view) : list Z := m_dims (v_map v).
Definition v_ty (v : view) : shty := m_ty (v_map v).
Definition v_layout (v : view) : layout := m_layout (v_map v).

(** Address of the element at a multi-index. *)
Definition v_addr (v : view) (idx : list Z) : Z := v_ptr v + m_offset (v_map v) idx.

(** Reading a storage cell.  Outside the storage this is undefined behaviour. *)
Definition read {T : Type} (mem : list T) (addr : Z) : outcome T :=
  if addr <? 0 then UB
  else match nth_error mem (Z.to_nat addr) with Some x => Ok x | None => UB end.

(** index/slice.rs:37-47: [v[idx]]. *)
Definition v_get {T : Type} (mem : list T) (v : view) (idx : list Z) : outcome T :=
  let* off := slice_index_multi (v_map v) idx in read mem (v_ptr v + off).

(** index/slice.rs:96-102: [v[k]]. *)
Definition v_get_linear {T : Type} (mem : list T) (v : view) (k : Z) : outcome T :=
  let* off := slice_index_linear (v_map v) k in read mem (v_ptr v + off).

(** view.rs:248-267 [axis_at]; slice.rs:86-105, view.rs:59-65. *)
Definition v_axis_at (v : view) (a : axis) (index : Z) : outcome view :=
  let m := v_map v in
  let* i := ax_index a (m_rank m) in
  let* size := m_dim m i in
  let* _ := assert (negb (index >=? size)) in
  let* m' := ax_remove_map a m in
  let* st := m_stride m i in
  let offset := st * index in
  let count := if m_is_empty m' then 0 else offset in
  Ok (mkView (v_ptr v + count) m').

(** slice.rs:64-75, view.rs:43-48 [at]. *)
Definition v_at (v : view) (index : Z) : outcome view := v_axis_at v (AxConst 0) index.

(** view.rs:269-298 [split_axis_at]; slice.rs:563-587. *)
Definition v_split_axis_at (v : view) (a : axis) (mid : Z) : outcome (view * view) :=
  let m := v_map v in
  let* i := ax_index a (m_rank m) in
  let* size := m_dim m i in
  let* _ := assert (negb (mid >? size)) in
  let* m1 := ax_resize_map a m mid in
  let* m2 := ax_resize_map a m (size - mid) in
  let* st := m_stride m i in
  let offset := st * mid in
  let count := if m_is_empty m2 then 0 else offset in
  Ok (mkView (v_ptr v) m1, mkView (v_ptr v + count) m2).

(** view.rs:467-482, 491-506 [into_view]; slice.rs:695-720 [view], [view_mut].  Only defined
    for tuple shapes with as many indices as dimensions (a type error otherwise). *)
Definition v_view (v : view) (xs : list dim_index) : outcome view :=
  let* (offset, m') := view_index xs (v_ty v) (v_map v) in
  let count := if m_is_empty m' then 0 else offset in
  Ok (mkView (v_ptr v + count) m').

(** view.rs:142-154 [into_permuted]; slice.rs:371-399 [permute]. *)
Definition v_permute (v : view) (p : perm_arg) (perm : list Z) : outcome view :=
  let* m' := m_permute (perm_arg_layout p (v_layout v)) (perm_arg_shape p (v_ty v)) (v_map v) perm in
  Ok (mkView (v_ptr v) m').

(** view.rs:157-163 [into_reordered]; slice.rs:429-440 [reorder]. *)
Definition v_reorder (v : view) : outcome view :=
  let* m' := m_reorder (sh_layout (sh_tail (v_ty v)) (v_layout v)) (v_map v) in
  Ok (mkView (v_ptr v) m').

(** view.rs:194-201 [into_shape]; slice.rs:460-480 [reshape]. *)
Definition v_reshape (v : view) (ty : shty) (dims : list Z) : outcome view :=
  let* m' := m_reshape (v_map v) ty dims in
  Ok (mkView (v_ptr v) m').

(** view.rs:126-130 [into_mapping]; slice.rs:411-426 [remap]. *)
Definition v_remap (v : view) (l : layout) (ty : shty) : outcome view :=
  let* m' := m_remap l ty (v_map v) in
  Ok (mkView (v_ptr v) m').

(** view.rs:114-118 [into_flat]; slice.rs:244-255 [flatten]. *)
Definition v_flatten (v : view) : outcome view :=
  v_reshape v (STuple [DDyn]) [m_len (v_map v)].

(** view.rs:72-76 [into_col]; slice.rs:138-153 [col]. *)
Definition v_col (v : view) (index : Z) : outcome view :=
  let ty := STuple [sh_head (v_ty v); sh_head (sh_tail (v_ty v))] in
  let* shape := sh_from_dims ty (v_dims v) in
  let* r := v_reshape v ty shape in
  v_view r [IxFull; IxUsize index].

(** view.rs:170-174 [into_row]; slice.rs:487-502 [row]. *)
Definition v_row (v : view) (index : Z) : outcome view :=
  let ty := STuple [sh_head (v_ty v); sh_head (sh_tail (v_ty v))] in
  let* shape := sh_from_dims ty (v_dims v) in
  let* r := v_reshape v ty shape in
  v_view r [IxUsize index; IxFull].

(** view.rs:85-102 [into_diag]. *)
Definition v_into_diag (v : view) (index : Z) : outcome view :=
  let m := v_map v in
  let* _ := assert (m_rank m =? 2)%nat in
  let* d0 := m_dim m 0 in
  let* d1 := m_dim m 1 in
  let* s0 := m_stride m 0 in
  let* s1 := m_stride m 1 in
  let* (offset, len) :=
    if index >=? 0
    then let* _ := assert (index <=? d1) in Ok (index * s1, Z.min d0 (d1 - index))
    else let* _ := assert (- index <=? d0) in Ok (- index * s0, Z.min d1 (d0 - - index)) in
  let count := if len >? 0 then offset else 0 in
  let* m' := strided_new (STuple [DDyn]) [len] [s0 + s1] in
  Ok (mkView (v_ptr v + count) m').

(** slice.rs:188-205 [diag]. *)
Definition v_diag (v : view) (index : Z) : outcome view :=
  let ty := STuple [sh_head (v_ty v); sh_head (sh_tail (v_ty v))] in
  let* shape := sh_from_dims ty (v_dims v) in
  let* r := v_reshape v ty shape in
  v_into_diag r index.

(** ** Programs over views: any sequence of the operations above on a view. *)
Inductive vop :=
| OpAxisAt (a : axis) (index : Z)
| OpSplitFst (a : axis) (mid : Z)         (* split_axis_at, keep the first part *)
| OpSplitSnd (a : axis) (mid : Z)         (* split_axis_at, keep the second part *)
| OpView (xs : list dim_index)
| OpPermute (p : perm_arg) (perm : list Z)
| OpReorder
| OpReshape (ty : shty) (dims : list Z)
| OpFlatten
| OpRemap (l : layout) (ty : shty)
| OpCol (index : Z)
| OpRow (index : Z)
| OpDiag (index : Z).

Definition v_step (v : view) (o : vop) : outcome view :=
  match o with
  | OpAxisAt a i => v_axis_at v a i
  | OpSplitFst a mid => let* (x, _) := v_split_axis_at v a mid in Ok x
  | OpSplitSnd a mid => let* (_, y) := v_split_axis_at v a mid in Ok y
  | OpView xs => v_view v xs
  | OpPermute p perm => v_permute v p perm
  | OpReorder => v_reorder v
  | OpReshape ty dims => v_reshape v ty dims
  | OpFlatten => v_flatten v
  | OpRemap l ty => v_remap v l ty
  | OpCol i => v_col v i
  | OpRow i => v_row v i
  | OpDiag i => v_diag v i
  end.

Fixpoint v_run (v : view) (os : list vop) : outcome view :=
  match os with
  | [] => Ok v
  | o :: ot => let* v' := v_step v o in v_run v' ot
  end.
