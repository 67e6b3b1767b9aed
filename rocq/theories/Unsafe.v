(** Model of the [unsafe] entry points ([get_unchecked], raw parts, [set_mapping] with
    [spare_capacity_mut]) and of indexing a dense array with a range. *)
From Verif Require Import Base Spec Shape Mapping Index View Expr Tensor Ops Machine.

(** ** Elements without bounds check: index/slice.rs:32-39 [&[usize]], 68-74 [[usize; N]], 88-94 [usize];
    slice.rs:262-275 [get_unchecked], [get_unchecked_mut].  [dbg]: as in [Machine.v]. *)
Definition get_unchecked {T : Type} (dbg : bool) (mem : list T) (v : view) (idx : list Z) : outcome T :=
  let* off := x_offset dbg (v_map v) idx in read mem (v_ptr v + off).
Definition get_unchecked_linear {T : Type} (dbg : bool) (mem : list T) (v : view) (k : Z) : outcome T :=
  let* off := x_linear_offset dbg (v_map v) k in read mem (v_ptr v + off).

(** ** Ranges: index/slice.rs:113-144, for dense arrays only.  The array is flattened and made into a
    slice (view.rs:407-411).  [ix_range] is [slice::range] of the standard library, which slices use to
    check the bounds. *)
Definition get_slice {T : Type} (mem : list T) (v : view) (lo hi : bound) : outcome (list T) :=
  let* f := v_flatten v in
  let* s := Ops.cells mem (v_ptr f) (m_len (v_map f)) in
  let* (a, b) := ix_range lo hi (Z.of_nat (length s)) in
  Ok (firstn (Z.to_nat (b - a)) (skipn (Z.to_nat a) s)).

(** 118-124 [get_unchecked] of a range [a..b]: a slice of the cells, wherever they are. *)
Definition get_unchecked_slice {T : Type} (mem : list T) (v : view) (a b : Z) : outcome (list T) :=
  let* f := v_flatten v in
  if (a <=? b) && (b <=? m_len (v_map f)) then Ops.cells mem (v_ptr f + a) (b - a) else UB.

(** ** Raw parts *)

(** A tensor as a mapping and an allocation of cells that may be uninitialized: raw_tensor.rs:20-27.  The
    capacity is the number of cells. *)
Record raw (T : Type) : Type := mkRaw {
  rw_ty : shty;
  rw_dims : list Z;
  rw_cells : list (option T)
}.
Arguments mkRaw {T} _ _ _.
Arguments rw_ty {T} _.
Arguments rw_dims {T} _.
Arguments rw_cells {T} _.

(** tensor.rs:213-218, 500-505 [into_raw_parts]: the cells after the elements are uninitialized. *)
Definition into_raw {T : Type} (t : tensor T) : raw T :=
  mkRaw (tn_ty t) (tn_dims t) (map Some (tn_mem t) ++ repeat None (Z.to_nat (tn_cap t - tn_len t))).

(** The first [n] cells as elements. *)
Fixpoint initialized {T : Type} (n : nat) (cells : list (option T)) : option (list T) :=
  match n, cells with
  | O, _ => Some []
  | S n', Some x :: ct => match initialized n' ct with Some xs => Some (x :: xs) | None => None end
  | S _, _ => None
  end.

(** tensor.rs:179-188, 495-497 [from_raw_parts], and using the tensor afterwards: the cells covered by
    the mapping are elements.  Reading or dropping an uninitialized cell, or one outside the allocation,
    is undefined behaviour. *)
Definition from_raw {T : Type} (r : raw T) : outcome (tensor T) :=
  match initialized (Z.to_nat (sh_len (rw_dims r))) (rw_cells r) with
  | Some xs => Ok (mkTensor (rw_ty r) (rw_dims r) xs (Z.of_nat (length (rw_cells r))))
  | None => UB
  end.

(** tensor.rs:339-344 [spare_capacity_mut]: the number of cells of the slice and writing to one of them
    ([MaybeUninit::write] drops nothing). *)
Definition spare_len {T : Type} (r : raw T) : Z := Z.of_nat (length (rw_cells r)) - sh_len (rw_dims r).
Definition spare_write {T : Type} (r : raw T) (i : Z) (x : T) : outcome (raw T) :=
  let* _ := assert (i <? spare_len r) in
  Ok (mkRaw (rw_ty r) (rw_dims r) (upd (rw_cells r) (Z.to_nat (sh_len (rw_dims r) + i)) (Some x))).
(** Filling the slice from its start. *)
Fixpoint spare_fill {T : Type} (r : raw T) (i : Z) (xs : list T) : outcome (raw T) :=
  match xs with
  | [] => Ok r
  | x :: xt => let* r' := spare_write r i x in spare_fill r' (i + 1) xt
  end.

(** tensor.rs:315-319, raw_tensor.rs:153-160 [set_mapping]. *)
Definition set_mapping {T : Type} (dbg : bool) (r : raw T) (dims : list Z) : outcome (raw T) :=
  let* _ := dassert dbg (match sh_checked_len dims with Some _ => true | None => false end) in
  let* _ := if dbg then let* n := x_len dbg dims in assert (n <=? Z.of_nat (length (rw_cells r))) else Ok tt in
  Ok (mkRaw (rw_ty r) dims (rw_cells r)).
