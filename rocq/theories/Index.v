(** Model of [src/index/*.rs]: axes, ranges, view indexing, permutation types, element access. *)
From Verif Require Import Base Spec Shape Mapping.

(** ** Axes: index/axis.rs *)

Inductive axis := AxConst (n : nat) | AxCols | AxRows | AxDyn (i : nat).

(** axis.rs:103-117, 119-144: type functions of [Const<n>], by recursion on [n]. *)
Fixpoint cdim (n : nat) (s : shty) : dimty :=
  match n with O => sh_head s | S k => cdim k (sh_tail s) end.
Fixpoint cinit (n : nat) (s : shty) : shty :=
  match n with O => STuple [] | S k => sh_prepend (sh_head s) (cinit k (sh_tail s)) end.
Fixpoint crest (n : nat) (s : shty) : shty :=
  match n with O => sh_tail s | S k => crest k (sh_tail s) end.
Fixpoint cremove (n : nat) (s : shty) : shty :=
  match n with O => sh_tail s | S k => sh_prepend (sh_head s) (cremove k (sh_tail s)) end.
Fixpoint cinsert (n : nat) (d : dimty) (s : shty) : shty :=
  match n with
  | O => sh_prepend d s
  | S k => sh_prepend (sh_head s) (cinsert k d (sh_tail s))
  end.

(** axis.rs:104, 123, 149, 171 [Dim] *)
Definition ax_dim (a : axis) (s : shty) : dimty :=
  match a with
  | AxConst n => cdim n s
  | AxCols => cdim 1 (sh_reverse s)
  | AxRows => cdim 0 (sh_reverse s)
  | AxDyn _ => DDyn
  end.
(** axis.rs:106, 125, 151, 173 [Init] *)
Definition ax_init (a : axis) (s : shty) : shty :=
  match a with
  | AxConst n => cinit n s
  | AxCols => sh_reverse (crest 1 (sh_reverse s))
  | AxRows => sh_reverse (crest 0 (sh_reverse s))
  | AxDyn _ => SDynRank
  end.
(** axis.rs:107, 127, 152, 174 [Rest] *)
Definition ax_rest (a : axis) (s : shty) : shty :=
  match a with
  | AxConst n => crest n s
  | AxCols => sh_reverse (cinit 1 (sh_reverse s))
  | AxRows => sh_reverse (cinit 0 (sh_reverse s))
  | AxDyn _ => SDynRank
  end.
(** axis.rs:109, 129, 154, 176 [Remove] *)
Definition ax_remove (a : axis) (s : shty) : shty :=
  match a with
  | AxConst n => cremove n s
  | AxCols => sh_reverse (cremove 1 (sh_reverse s))
  | AxRows => sh_reverse (cremove 0 (sh_reverse s))
  | AxDyn _ => sh_dyn (sh_tail s)
  end.
(** axis.rs:110, 131, 155, 177 [Insert] *)
Definition ax_insert (a : axis) (d : dimty) (s : shty) : shty :=
  match a with
  | AxConst n => cinsert n d s
  | AxCols => sh_reverse (cinsert 1 d (sh_reverse s))
  | AxRows => sh_reverse (cinsert 0 d (sh_reverse s))
  | AxDyn _ => sh_prepend DDyn (sh_dyn s)
  end.

(** axis.rs:112-116, 134-138, 158-162, 179-183 [index] *)
Definition ax_index (a : axis) (rank : nat) : outcome nat :=
  match a with
  | AxConst n => let* _ := assert (n <? rank)%nat in Ok n
  | AxCols => let* _ := assert (1 <? rank)%nat in Ok (rank - 1 - 1)%nat
  | AxRows => let* _ := assert (0 <? rank)%nat in Ok (rank - 0 - 1)%nat
  | AxDyn i => let* _ := assert (i <? rank)%nat in Ok i
  end.

(** axis.rs:71, 74, 77 [Resize], [Keep], [Split] *)
Definition ax_resize_ty (a : axis) (s : shty) : shty := ax_insert a DDyn (ax_remove a s).
Definition ax_keep (a : axis) (s : shty) (l : layout) : layout := sh_layout (ax_rest a s) l.
Definition ax_split (a : axis) (s : shty) (l : layout) : layout := sh_layout (ax_init a s) l.

(** axis.rs:30-37 [get]: the one-dimensional mapping along the axis. *)
Definition ax_get (a : axis) (m : mapping) : outcome mapping :=
  let* i := ax_index a (m_rank m) in
  let* d := m_dim m i in
  let* s := m_stride m i in
  m_prepend_dim (ax_keep a (m_ty m) (m_layout m)) (STuple [ax_dim a (m_ty m)])
    (DenseM (STuple []) []) d s.

(** axis.rs:40-45 [remove]. *)
Definition ax_remove_map (a : axis) (m : mapping) : outcome mapping :=
  let* i := ax_index a (m_rank m) in
  m_remove_dim (ax_split a (m_ty m) (m_layout m)) (ax_remove a (m_ty m)) m i.

(** axis.rs:48-54 [resize]. *)
Definition ax_resize_map (a : axis) (m : mapping) (size : Z) : outcome mapping :=
  let* i := ax_index a (m_rank m) in
  m_resize_dim (ax_split a (m_ty m) (m_layout m)) (ax_resize_ty a (m_ty m)) m i size.

(** ** Ranges: index/mod.rs:17-45 [range] *)
Definition ix_range (lo hi : bound) (len : Z) : outcome (Z * Z) :=
  let* s := match lo with
            | Included n => Ok n
            | Excluded n => let* _ := assert (n + 1 <=? usize_max) in Ok (n + 1)
            | Unbounded => Ok 0
            end in
  let* e := match hi with
            | Included n => let* _ := assert (n + 1 <=? usize_max) in Ok (n + 1)
            | Excluded n => Ok n
            | Unbounded => Ok len
            end in
  let* _ := assert (s <=? e) in
  let* _ := assert (e <=? len) in
  Ok (s, e).

(** ** View indexing: index/view.rs *)

(** view.rs:56, 79, 100, 137, 164, 181 [Shape] *)
Fixpoint vi_shape (xs : list dim_index) (s : shty) : shty :=
  match xs with
  | [] => STuple []
  | IxUsize _ :: xt => vi_shape xt (sh_tail s)
  | IxFull :: xt => sh_prepend (sh_head s) (vi_shape xt (sh_tail s))
  | IxRange _ _ :: xt => sh_prepend DDyn (vi_shape xt (sh_tail s))
  | IxStep _ _ _ :: xt => sh_prepend DDyn (vi_shape xt (sh_tail s))
  end.

(** view.rs:58, 81, 102, 139, 166, 183 [Outer] *)
Fixpoint vi_outer (xs : list dim_index) (l : layout) : layout :=
  match xs with
  | [] => l
  | IxUsize _ :: _ => Strided
  | IxFull :: xt => vi_outer xt l
  | IxRange _ _ :: _ => Strided
  | IxStep _ _ _ :: _ => Strided
  end.

(** view.rs:57, 80, 101, 138, 165, 182 [Layout] *)
Fixpoint vi_layout (xs : list dim_index) (l : layout) : layout :=
  match xs with
  | [] => l
  | IxUsize _ :: xt => vi_layout xt l
  | IxFull :: xt => vi_outer xt l
  | IxRange _ _ :: xt => vi_outer xt l
  | IxStep _ _ _ :: _ => Strided
  end.

(** [usize::div_ceil]; division by zero panics. *)
Definition div_ceil (a b : Z) : outcome Z :=
  let* _ := assert (negb (b =? 0)) in Ok ((a + b - 1) / b).

(** view.rs:55-161 [dim_index] and 163-202 [view_index]: returns the offset of the first
    element and the mapping of the subarray.  [s] is the shape type of the remaining dimensions. *)
Fixpoint view_index (xs : list dim_index) (s : shty) (m : mapping) : outcome (Z * mapping) :=
  match xs with
  | [] => Ok (0, m_default (m_layout m) (STuple []))
  | x :: xt =>
      let l := vi_layout xs (m_layout m) in
      let ty := vi_shape xs s in
      let* (offset, inner) := view_index xt (sh_tail s) m in
      let* size := m_dim m (m_rank m - 1 - length xt) in
      let* stride := m_stride m (m_rank m - 1 - length xt) in
      match x with
      | IxUsize i =>                                             (* view.rs:65-74 *)
          let* _ := assert (negb (i >=? size)) in
          let* m' := m_remap l ty inner in
          Ok (offset + stride * i, m')
      | IxFull =>                                                (* view.rs:88-93 *)
          let* m' := m_prepend_dim l ty inner size stride in
          Ok (offset, m')
      | IxRange lo hi =>                                         (* view.rs:112-123 *)
          let* (a, b) := ix_range lo hi size in
          let* m' := m_prepend_dim l ty inner (b - a) stride in
          Ok (offset + stride * a, m')
      | IxStep lo hi step =>                                     (* view.rs:146-159 *)
          let* (a, b) := ix_range lo hi size in
          let* len := div_ceil (b - a) (Z.abs step) in
          let delta := if (step <? 0) && negb (b <=? a) then b - 1 else a in
          let* m' := m_prepend_dim l ty inner len (stride * step) in
          Ok (offset + stride * delta, m')
      end
  end.

(** ** Permutation types: index/permutation.rs *)

(** A compile-time permutation entry is [Const<n>] or [Dyn] (run-time [usize]). *)
Inductive permax := PConst (n : nat) | PDyn.

Definition pax_init (x : permax) : shty :=
  match x with PConst n => cinit n (STuple []) | PDyn => SDynRank end.
Definition pax_dim (x : permax) (s : shty) : dimty :=
  match x with PConst n => cdim n s | PDyn => DDyn end.

(** permutation.rs:21, 34-35 [Init] *)
Fixpoint perm_init (xs : list permax) : shty :=
  match xs with
  | [] => STuple []
  | [x] => pax_init x
  | x :: xt => sh_merge (sh_tail (perm_init xt)) (pax_init x)
  end.

(** permutation.rs:18, 30-31 [Shape] *)
Fixpoint perm_shape (xs : list permax) (s : shty) : shty :=
  match xs with
  | [] => STuple []
  | [x] => STuple [pax_dim x s]
  | x :: xt => sh_prepend (pax_dim x s) (perm_shape xt s)
  end.

(** permutation.rs:19, 32 [Layout] *)
Definition perm_layout (xs : list permax) (l : layout) : layout :=
  match xs with
  | [_] => l
  | _ => sh_layout (perm_init xs) l
  end.

(** A permutation argument: a tuple with type-level entries, or a run-time list ([DynRank]). *)
Inductive perm_arg := PermTuple (xs : list permax) | PermDyn.

(** permutation.rs:18-19, 30-32, 46-47 *)
Definition perm_arg_shape (p : perm_arg) (s : shty) : shty :=
  match p with PermTuple xs => perm_shape xs s | PermDyn => sh_dyn s end.
Definition perm_arg_layout (p : perm_arg) (l : layout) : layout :=
  match p with PermTuple xs => perm_layout xs l | PermDyn => Strided end.

(** ** Element access: index/slice.rs *)

(** slice.rs:38-44, 52-58: the bounds check loop. *)
Fixpoint index_in_bounds (idx dims : list Z) : outcome unit :=
  match idx, dims with
  | i :: it, d :: dt =>
      let* _ := assert (negb (i >=? d)) in index_in_bounds it dt
  | _, _ => Ok tt
  end.

(** slice.rs:26-62 [&[usize]]: the relative address of the element. *)
Definition slice_index_multi (m : mapping) (idx : list Z) : outcome Z :=
  let* _ := assert (length idx =? m_rank m)%nat in
  let* _ := index_in_bounds idx (m_dims m) in
  Ok (m_offset m idx).

(** slice.rs:84-112 [usize]: the relative address of the element. *)
Definition slice_index_linear (m : mapping) (k : Z) : outcome Z :=
  let* _ := assert (negb (k >=? m_len m)) in
  Ok (m_linear_offset m k).
