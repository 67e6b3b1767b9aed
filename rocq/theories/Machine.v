(** Model of the address arithmetic of [src/shape.rs], [src/mapping.rs], [src/index] and [src/view.rs]
    with 64-bit machine integers.

    The other model files compute with unbounded integers.  Here every product and sum is a [usize] or
    [isize]: when it does not fit, a build with overflow checks ([dbg = true]; debug assertions are on as
    well) panics, and a build without wraps around.  Comparisons, copies and divisions are as before. *)
From Verif Require Import Base Spec Shape Mapping Index View.

(** ** Machine integers *)

Definition isize_min : Z := - 2 ^ 63.
Definition u_fits (x : Z) : bool := (0 <=? x) && (x <=? usize_max).
Definition i_fits (x : Z) : bool := (isize_min <=? x) && (x <=? isize_max).
(** Wrapping, and the casts [as usize], [as isize]. *)
Definition as_usize (x : Z) : Z := x mod 2 ^ 64.
Definition as_isize (x : Z) : Z := (x + 2 ^ 63) mod 2 ^ 64 - 2 ^ 63.
(** The result of an operation on [usize] or [isize] whose exact value is [x]. *)
Definition u_res (dbg : bool) (x : Z) : outcome Z :=
  if u_fits x then Ok x else if dbg then Panic else Ok (as_usize x).
Definition i_res (dbg : bool) (x : Z) : outcome Z :=
  if i_fits x then Ok x else if dbg then Panic else Ok (as_isize x).
(** [debug_assert!] *)
Definition dassert (dbg b : bool) : outcome unit := if dbg then assert b else Ok tt.
(** [1 << n] and [usize::MAX << n]: the shift amount must be below 64. *)
Definition u_shl (dbg : bool) (x n : Z) : outcome Z :=
  if n <? 64 then Ok (as_usize (Z.shiftl x n))
  else if dbg then Panic else Ok (as_usize (Z.shiftl x (n mod 64))).

(** ** Shapes *)

(** [iter().product()] from [acc]. *)
Fixpoint x_prod (dbg : bool) (acc : Z) (dims : list Z) : outcome Z :=
  match dims with
  | [] => Ok acc
  | d :: dt => let* a := u_res dbg (acc * d) in x_prod dbg a dt
  end.

(** shape.rs:74-76 [len], 69-71 [is_empty]. *)
Definition x_len (dbg : bool) (dims : list Z) : outcome Z := x_prod dbg 1 dims.
Definition x_is_empty (dbg : bool) (dims : list Z) : outcome bool := let* n := x_len dbg dims in Ok (n =? 0).

(** shape.rs:126-152 [reshape]; the new length is computed with [checked_mul]. *)
Definition x_sh_reshape (dbg : bool) (old_dims : list Z) (ty : shty) (new_dims : list Z) : outcome (list Z) :=
  let* (inferred, dims) := infer_loop 0 None new_dims in
  let* dims := sh_store ty dims in
  let* old_len := x_len dbg old_dims in
  match sh_checked_len dims with
  | None => Panic
  | Some new_len =>
      match inferred with
      | Some i =>
          let* _ := assert (negb (new_len =? 0)) in
          let* _ := assert (old_len mod new_len =? 0) in
          sh_store ty (upd dims i (old_len / new_len))
      | None =>
          let* _ := assert (new_len =? old_len) in
          Ok dims
      end
  end.

(** ** Mappings *)

(** mapping.rs:154-164, 294-298 [stride]. *)
Definition x_stride (dbg : bool) (m : mapping) (i : nat) : outcome Z :=
  match m with
  | DenseM _ dims =>
      let* _ := assert (i <? length dims)%nat in
      let* s := x_prod dbg 1 (skipn (i + 1) dims) in
      Ok (as_isize s)
  | StridedM _ dims strides =>
      let* _ := assert (i <? length dims)%nat in
      get_nth strides i
  end.

(** mapping.rs:166-173, 300-304: the calls made by [for_each_stride].  The calls are collected first;
    what they store is lost anyway if a later product overflows. *)
Fixpoint x_dense_calls (dbg : bool) (n : nat) (dims : list Z) (stride : Z) : outcome (list (nat * Z)) :=
  match n with
  | O => Ok []
  | S i =>
      let* s := u_res dbg (stride * nth i dims 0) in
      let* l := x_dense_calls dbg i dims s in
      Ok ((i, as_isize stride) :: l)
  end.
Definition x_calls (dbg : bool) (m : mapping) : outcome (list (nat * Z)) :=
  match m with
  | DenseM _ dims => x_dense_calls dbg (length dims) dims 1
  | StridedM _ dims strides => Ok (map (fun i => (i, nth i strides 0)) (seq 0 (length dims)))
  end.

(** mapping.rs:95-107 [offset]. *)
Fixpoint x_offset_loop (dbg : bool) (dims idx : list Z) (calls : list (nat * Z)) (offset : Z) : outcome Z :=
  match calls with
  | [] => Ok offset
  | (i, stride) :: ct =>
      let* k := get_nth idx i in
      let* _ := dassert dbg (k <? nth i dims 0) in
      let* p := i_res dbg (stride * as_isize k) in
      let* o := i_res dbg (offset + p) in
      x_offset_loop dbg dims idx ct o
  end.
Definition x_offset (dbg : bool) (m : mapping) (idx : list Z) : outcome Z :=
  let* _ := dassert dbg (length idx =? m_rank m)%nat in
  let* calls := x_calls dbg m in
  x_offset_loop dbg (m_dims m) idx calls 0.

(** mapping.rs:181-185, 310-322 [linear_offset]. *)
Fixpoint x_linear_loop (dbg : bool) (n : nat) (dims strides : list Z) (dividend offset : Z) : outcome Z :=
  match n with
  | O => Ok offset
  | S i =>
      let* _ := assert (negb (nth i dims 0 =? 0)) in
      let* p := i_res dbg (nth i strides 0 * as_isize (dividend mod nth i dims 0)) in
      let* o := i_res dbg (offset + p) in
      x_linear_loop dbg i dims strides (dividend / nth i dims 0) o
  end.
Definition x_linear_offset (dbg : bool) (m : mapping) (index : Z) : outcome Z :=
  let* _ := if dbg then let* n := x_len dbg (m_dims m) in assert (index <? n) else Ok tt in
  match m with
  | DenseM _ _ => Ok (as_isize index)
  | StridedM _ dims strides => x_linear_loop dbg (length dims) dims strides index 0
  end.

(** mapping.rs:146-148, 276-288 [is_contiguous]. *)
Fixpoint x_contiguous_loop (dbg : bool) (n : nat) (dims strides : list Z) (stride : Z) : outcome bool :=
  match n with
  | O => Ok true
  | S i =>
      if negb (nth i strides 0 =? stride) then Ok false
      else let* s := i_res dbg (stride * as_isize (nth i dims 0)) in x_contiguous_loop dbg i dims strides s
  end.
Definition x_is_contiguous (dbg : bool) (m : mapping) : outcome bool :=
  match m with
  | DenseM _ _ => Ok true
  | StridedM _ dims strides => x_contiguous_loop dbg (length dims) dims strides 1
  end.

(** mapping.rs:204-208, 367-373 [remap]. *)
Definition x_remap (dbg : bool) (l : layout) (ty : shty) (m : mapping) : outcome mapping :=
  match l with
  | Dense =>
      let* b := x_is_contiguous dbg m in
      let* _ := assert b in
      let* dims := sh_from_dims ty (m_dims m) in
      Ok (DenseM ty dims)
  | Strided =>
      let* strides := dims_new ty (m_rank m) in
      let* calls := x_calls dbg m in
      let strides := store_strides strides (fun i => i) calls in
      let* dims := sh_from_dims ty (m_dims m) in
      Ok (StridedM ty dims strides)
  end.

(** mapping.rs:327-335: the bit mask of a permutation. *)
Fixpoint x_mask_loop (dbg : bool) (rank : nat) (perm : list Z) (mask : Z) : outcome Z :=
  match perm with
  | [] => Ok mask
  | p :: ps =>
      let* _ := assert (p <? Z.of_nat rank) in
      let* b := u_shl dbg 1 p in
      x_mask_loop dbg rank ps (Z.lor mask b)
  end.

(** mapping.rs:187-195, 324-356 [permute]. *)
Definition x_permute (dbg : bool) (l : layout) (ty : shty) (m : mapping) (perm : list Z) : outcome mapping :=
  let* _ := assert (length perm =? m_rank m)%nat in
  match l with
  | Dense =>
      let* _ := assert (perm_is_identity 0 perm) in
      x_remap dbg Dense ty m
  | Strided =>
      let* mask := x_mask_loop dbg (m_rank m) perm 0 in
      let* full := u_shl dbg usize_max (Z.of_nat (m_rank m)) in
      let* _ := assert (mask =? Z.lxor usize_max full) in
      let* dims := sh_new ty (m_rank m) in
      let* strides := dims_new ty (m_rank m) in
      let dims := fold_left (fun acc i => upd acc (Z.to_nat (nth i perm 0)) (Z.of_nat i))
                            (seq 0 (m_rank m)) dims in
      let* calls := x_calls dbg m in
      let strides := store_strides strides (fun i => Z.to_nat (nth i dims 0)) calls in
      let dims := fold_left (fun acc i => upd acc i (nth (Z.to_nat (nth i perm 0)) (m_dims m) 0))
                            (seq 0 (m_rank m)) dims in
      let* dims := sh_store ty dims in
      Ok (StridedM ty dims strides)
  end.

(** mapping.rs:197-202, 358-365 [prepend_dim]. *)
Definition x_prepend_dim (dbg : bool) (l : layout) (ty : shty) (m : mapping) (size stride : Z) : outcome mapping :=
  match l with
  | Dense =>
      let* _ := assert (is_dense (m_layout m)) in
      let* n := x_len dbg (m_dims m) in
      let* _ := assert (stride =? as_isize n) in
      let* dims := sh_prepend_dim ty (m_dims m) size in
      Ok (DenseM ty dims)
  | Strided =>
      let* strides := dims_new ty (m_rank m + 1) in
      let strides := upd strides 0 stride in
      let* calls := x_calls dbg m in
      let strides := store_strides strides (fun i => i + 1)%nat calls in
      let* dims := sh_prepend_dim ty (m_dims m) size in
      Ok (StridedM ty dims strides)
  end.

(** mapping.rs:210-215, 375-389 [remove_dim]. *)
Definition x_remove_dim (dbg : bool) (l : layout) (ty : shty) (m : mapping) (index : nat) : outcome mapping :=
  match l with
  | Dense => m_remove_dim Dense ty m index
  | Strided =>
      let* _ := assert (index <? m_rank m)%nat in
      let* strides := dims_new ty (m_rank m - 1) in
      let* calls := x_calls dbg m in
      let strides :=
        fold_left (fun acc c =>
                     if (fst c <? index)%nat then upd acc (fst c) (snd c)
                     else if (index <? fst c)%nat then upd acc (fst c - 1) (snd c)
                     else acc) calls strides in
      let* dims := sh_remove_dim ty (m_dims m) index in
      Ok (StridedM ty dims strides)
  end.

(** mapping.rs:217-221, 391-397 [reorder]. *)
Definition x_reorder (dbg : bool) (l : layout) (m : mapping) : outcome mapping :=
  let ty := sh_reverse (m_ty m) in
  match l with
  | Dense => m_reorder Dense m
  | Strided =>
      let* strides := dims_new ty (m_rank m) in
      let* calls := x_calls dbg m in
      let strides := store_strides strides (fun i => m_rank m - 1 - i)%nat calls in
      let* dims := sh_reverse_dims ty (m_dims m) in
      Ok (StridedM ty dims strides)
  end.

(** mapping.rs:227-232, 455-461 [resize_dim]. *)
Definition x_resize_dim (dbg : bool) (l : layout) (ty : shty) (m : mapping) (index : nat) (size : Z)
  : outcome mapping :=
  match l with
  | Dense => m_resize_dim Dense ty m index size
  | Strided =>
      let* strides := dims_new ty (m_rank m) in
      let* calls := x_calls dbg m in
      let strides := store_strides strides (fun i => i) calls in
      let* dims := sh_resize_dim ty (m_dims m) index size in
      Ok (StridedM ty dims strides)
  end.

(** mapping.rs:426-437, the inner loop of [reshape]. *)
Fixpoint x_reshape_inner (dbg : bool) (j : nat) (new_dims : list Z) (old_len new_len new_stride : Z)
    (strides : list Z) : outcome (nat * Z * Z * list Z) :=
  match j with
  | O => Ok (O, new_len, new_stride, strides)
  | S j' =>
      let* p := u_res dbg (new_len * nth j' new_dims 0) in
      if p >? old_len
      then Ok (j, new_len, new_stride, strides)
      else
        let strides := upd strides j' new_stride in
        let* new_len := u_res dbg (new_len * nth j' new_dims 0) in
        let* new_stride := i_res dbg (new_stride * as_isize (nth j' new_dims 0)) in
        x_reshape_inner dbg j' new_dims old_len new_len new_stride strides
  end.

(** mapping.rs:413-438 *)
Definition x_reshape_step (dbg : bool) (dims strides new_dims : list Z) (i : nat) (s : reshape_state)
  : outcome reshape_state :=
  let st := nth i strides 0 in
  let d := nth i dims 0 in
  let same := rs_old_len s =? rs_new_len s in
  let old_stride := if same then st else rs_old_stride s in
  let new_stride := if same then st else rs_new_stride s in
  let valid := if same then rs_valid s else rs_valid s && (rs_old_stride s =? st) in
  let* old_len := u_res dbg (rs_old_len s * d) in
  let* old_stride := i_res dbg (old_stride * as_isize d) in
  let* (jl, ns) := x_reshape_inner dbg (rs_j s) new_dims old_len (rs_new_len s) new_stride (rs_strides s) in
  let '(j, new_len, new_stride) := jl in
  Ok {| rs_old_len := old_len; rs_new_len := new_len;
        rs_old_stride := old_stride; rs_new_stride := new_stride;
        rs_valid := valid; rs_j := j; rs_strides := ns |}.

Fixpoint x_reshape_loop (dbg : bool) (n : nat) (dims strides new_dims : list Z) (s : reshape_state)
  : outcome reshape_state :=
  match n with
  | O => Ok s
  | S i => let* s' := x_reshape_step dbg dims strides new_dims i s in x_reshape_loop dbg i dims strides new_dims s'
  end.

(** mapping.rs:441-448 *)
Fixpoint x_reshape_rest (dbg : bool) (j : nat) (new_dims : list Z) (new_len new_stride : Z) (strides : list Z)
  : outcome (Z * list Z) :=
  match j with
  | O => Ok (new_len, strides)
  | S j' =>
      let strides := upd strides j' new_stride in
      let* new_len := u_res dbg (new_len * nth j' new_dims 0) in
      let* new_stride := i_res dbg (new_stride * as_isize (nth j' new_dims 0)) in
      x_reshape_rest dbg j' new_dims new_len new_stride strides
  end.

(** mapping.rs:223-225, 399-453 [reshape]. *)
Definition x_reshape (dbg : bool) (m : mapping) (ty : shty) (new_dims : list Z) : outcome mapping :=
  match m with
  | DenseM _ dims =>
      let* nd := x_sh_reshape dbg dims ty new_dims in
      Ok (DenseM ty nd)
  | StridedM _ dims strides =>
      let* nd := x_sh_reshape dbg dims ty new_dims in
      let* ns := dims_new ty (length nd) in
      let* s := x_reshape_loop dbg (length dims) dims strides nd
                 {| rs_old_len := 1; rs_new_len := 1; rs_old_stride := 1; rs_new_stride := 1;
                    rs_valid := true; rs_j := length nd; rs_strides := ns |} in
      let* (new_len, ns) := x_reshape_rest dbg (rs_j s) nd (rs_new_len s) (rs_new_stride s) (rs_strides s) in
      let* _ := assert ((new_len =? 0) || rs_valid s) in
      Ok (StridedM ty nd ns)
  end.

(** ** Axes and view indexing *)

(** axis.rs:40-45 [remove], 48-54 [resize]. *)
Definition x_ax_remove (dbg : bool) (a : axis) (m : mapping) : outcome mapping :=
  let* i := ax_index a (m_rank m) in
  x_remove_dim dbg (ax_split a (m_ty m) (m_layout m)) (ax_remove a (m_ty m)) m i.
Definition x_ax_resize (dbg : bool) (a : axis) (m : mapping) (size : Z) : outcome mapping :=
  let* i := ax_index a (m_rank m) in
  x_resize_dim dbg (ax_split a (m_ty m) (m_layout m)) (ax_resize_ty a (m_ty m)) m i size.

(** index/view.rs:55-161 [dim_index], 163-202 [view_index].  In a range [start <= end <= len], so
    [range.len()] and [range.end - 1] do not overflow; [div_ceil] does not overflow either. *)
Fixpoint x_view_index (dbg : bool) (xs : list dim_index) (s : shty) (m : mapping) : outcome (Z * mapping) :=
  match xs with
  | [] => Ok (0, m_default (m_layout m) (STuple []))
  | x :: xt =>
      let l := vi_layout xs (m_layout m) in
      let ty := vi_shape xs s in
      let* (offset, inner) := x_view_index dbg xt (sh_tail s) m in
      let* size := m_dim m (m_rank m - 1 - length xt) in
      let* stride := x_stride dbg m (m_rank m - 1 - length xt) in
      match x with
      | IxUsize i =>
          let* _ := assert (negb (i >=? size)) in
          let* p := i_res dbg (stride * as_isize i) in
          let* o := i_res dbg (offset + p) in
          let* m' := x_remap dbg l ty inner in
          Ok (o, m')
      | IxFull =>
          let* m' := x_prepend_dim dbg l ty inner size stride in
          Ok (offset, m')
      | IxRange lo hi =>
          let* (a, b) := ix_range lo hi size in
          let* p := i_res dbg (stride * as_isize a) in
          let* o := i_res dbg (offset + p) in
          let* m' := x_prepend_dim dbg l ty inner (b - a) stride in
          Ok (o, m')
      | IxStep lo hi step =>
          let* (a, b) := ix_range lo hi size in
          let* len := div_ceil (b - a) (Z.abs step) in
          let delta := if (step <? 0) && negb (b <=? a) then b - 1 else a in
          let* p := i_res dbg (stride * as_isize delta) in
          let* o := i_res dbg (offset + p) in
          let* st := i_res dbg (stride * step) in
          let* m' := x_prepend_dim dbg l ty inner len st in
          Ok (o, m')
      end
  end.

(** index/slice.rs:26-62, 84-112: relative address of an element. *)
Definition x_index_multi (dbg : bool) (m : mapping) (idx : list Z) : outcome Z :=
  let* _ := assert (length idx =? m_rank m)%nat in
  let* _ := index_in_bounds idx (m_dims m) in
  x_offset dbg m idx.
Definition x_index_linear (dbg : bool) (m : mapping) (k : Z) : outcome Z :=
  let* n := x_len dbg (m_dims m) in
  let* _ := assert (negb (k >=? n)) in
  x_linear_offset dbg m k.

(** ** Views *)

(** [v[idx]], [v[k]] *)
Definition x_get {T : Type} (dbg : bool) (mem : list T) (v : view) (idx : list Z) : outcome T :=
  let* off := x_index_multi dbg (v_map v) idx in read mem (v_ptr v + off).
Definition x_get_linear {T : Type} (dbg : bool) (mem : list T) (v : view) (k : Z) : outcome T :=
  let* off := x_index_linear dbg (v_map v) k in read mem (v_ptr v + off).

(** view.rs:248-267 [axis_at]. *)
Definition x_axis_at (dbg : bool) (v : view) (a : axis) (index : Z) : outcome view :=
  let m := v_map v in
  let* i := ax_index a (m_rank m) in
  let* size := m_dim m i in
  let* _ := assert (negb (index >=? size)) in
  let* m' := x_ax_remove dbg a m in
  let* st := x_stride dbg m i in
  let* offset := i_res dbg (st * as_isize index) in
  let* e := x_is_empty dbg (m_dims m') in
  let count := if e : bool then 0 else offset in
  Ok (mkView (v_ptr v + count) m').

(** view.rs:269-298 [split_axis_at]. *)
Definition x_split_axis_at (dbg : bool) (v : view) (a : axis) (mid : Z) : outcome (view * view) :=
  let m := v_map v in
  let* i := ax_index a (m_rank m) in
  let* size := m_dim m i in
  let* _ := assert (negb (mid >? size)) in
  let* m1 := x_ax_resize dbg a m mid in
  let* m2 := x_ax_resize dbg a m (size - mid) in
  let* st := x_stride dbg m i in
  let* offset := i_res dbg (st * as_isize mid) in
  let* e := x_is_empty dbg (m_dims m2) in
  let count := if e : bool then 0 else offset in
  Ok (mkView (v_ptr v) m1, mkView (v_ptr v + count) m2).

(** view.rs:467-482, 491-506 [into_view]. *)
Definition x_view (dbg : bool) (v : view) (xs : list dim_index) : outcome view :=
  let* (offset, m') := x_view_index dbg xs (v_ty v) (v_map v) in
  let* e := x_is_empty dbg (m_dims m') in
  let count := if e : bool then 0 else offset in
  Ok (mkView (v_ptr v + count) m').

(** view.rs:142-154 [into_permuted], 157-163 [into_reordered], 194-201 [into_shape],
    126-130 [into_mapping], 114-118 [into_flat]. *)
Definition x_v_permute (dbg : bool) (v : view) (p : perm_arg) (perm : list Z) : outcome view :=
  let* m' := x_permute dbg (perm_arg_layout p (v_layout v)) (perm_arg_shape p (v_ty v)) (v_map v) perm in
  Ok (mkView (v_ptr v) m').
Definition x_v_reorder (dbg : bool) (v : view) : outcome view :=
  let* m' := x_reorder dbg (sh_layout (sh_tail (v_ty v)) (v_layout v)) (v_map v) in
  Ok (mkView (v_ptr v) m').
Definition x_v_reshape (dbg : bool) (v : view) (ty : shty) (dims : list Z) : outcome view :=
  let* m' := x_reshape dbg (v_map v) ty dims in
  Ok (mkView (v_ptr v) m').
Definition x_v_remap (dbg : bool) (v : view) (l : layout) (ty : shty) : outcome view :=
  let* m' := x_remap dbg l ty (v_map v) in
  Ok (mkView (v_ptr v) m').
Definition x_flatten (dbg : bool) (v : view) : outcome view :=
  let* n := x_len dbg (v_dims v) in
  x_v_reshape dbg v (STuple [DDyn]) [n].

(** view.rs:72-76 [into_col], 170-174 [into_row]. *)
Definition x_col (dbg : bool) (v : view) (index : Z) : outcome view :=
  let ty := STuple [sh_head (v_ty v); sh_head (sh_tail (v_ty v))] in
  let* shape := sh_from_dims ty (v_dims v) in
  let* r := x_v_reshape dbg v ty shape in
  x_view dbg r [IxFull; IxUsize index].
Definition x_row (dbg : bool) (v : view) (index : Z) : outcome view :=
  let ty := STuple [sh_head (v_ty v); sh_head (sh_tail (v_ty v))] in
  let* shape := sh_from_dims ty (v_dims v) in
  let* r := x_v_reshape dbg v ty shape in
  x_view dbg r [IxUsize index; IxFull].

(** view.rs:85-102 [into_diag]; [-index] overflows for [isize::MIN]. *)
Definition x_into_diag (dbg : bool) (v : view) (index : Z) : outcome view :=
  let m := v_map v in
  let* _ := assert (m_rank m =? 2)%nat in
  let* d0 := m_dim m 0 in
  let* d1 := m_dim m 1 in
  let* (offset, len) :=
    if index >=? 0
    then
      let* _ := assert (as_usize index <=? d1) in
      let* s1 := x_stride dbg m 1 in
      let* o := i_res dbg (index * s1) in
      let* l := u_res dbg (d1 - as_usize index) in
      Ok (o, Z.min d0 l)
    else
      let* neg := i_res dbg (- index) in
      let* _ := assert (as_usize neg <=? d0) in
      let* s0 := x_stride dbg m 0 in
      let* o := i_res dbg (neg * s0) in
      let* l := u_res dbg (d0 - as_usize neg) in
      Ok (o, Z.min d1 l) in
  let count := if len >? 0 then offset else 0 in
  let* s0 := x_stride dbg m 0 in
  let* s1 := x_stride dbg m 1 in
  let* s := i_res dbg (s0 + s1) in
  let* m' := strided_new (STuple [DDyn]) [len] [s] in
  Ok (mkView (v_ptr v + count) m').

(** slice.rs:188-205 [diag]. *)
Definition x_diag (dbg : bool) (v : view) (index : Z) : outcome view :=
  let ty := STuple [sh_head (v_ty v); sh_head (sh_tail (v_ty v))] in
  let* shape := sh_from_dims ty (v_dims v) in
  let* r := x_v_reshape dbg v ty shape in
  x_into_diag dbg r index.

(** Programs over views. *)
Definition x_step (dbg : bool) (v : view) (o : vop) : outcome view :=
  match o with
  | OpAxisAt a i => x_axis_at dbg v a i
  | OpSplitFst a mid => let* (x, _) := x_split_axis_at dbg v a mid in Ok x
  | OpSplitSnd a mid => let* (_, y) := x_split_axis_at dbg v a mid in Ok y
  | OpView xs => x_view dbg v xs
  | OpPermute p perm => x_v_permute dbg v p perm
  | OpReorder => x_v_reorder dbg v
  | OpReshape ty dims => x_v_reshape dbg v ty dims
  | OpFlatten => x_flatten dbg v
  | OpRemap l ty => x_v_remap dbg v l ty
  | OpCol i => x_col dbg v i
  | OpRow i => x_row dbg v i
  | OpDiag i => x_diag dbg v i
  end.

Fixpoint x_run (dbg : bool) (v : view) (os : list vop) : outcome view :=
  match os with
  | [] => Ok v
  | o :: ot => let* v' := x_step dbg v o in x_run dbg v' ot
  end.
