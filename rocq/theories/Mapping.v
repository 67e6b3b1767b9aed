(** Model of [src/mapping.rs] and [src/layout.rs]. *)
From Verif Require Import Base Shape.

(** layout.rs:13-31 *)
Inductive layout := Dense | Strided.
Definition is_dense (l : layout) : bool := match l with Dense => true | Strided => false end.

(** shape.rs:303, 343, 373, 427 [Shape::Layout<L>]: [L] for rank 0, else [Strided]. *)
Definition sh_layout (s : shty) (l : layout) : layout :=
  match s with STuple [] => l | _ => Strided end.

(** mapping.rs:112-121 *)
Inductive mapping :=
| DenseM (ty : shty) (dims : list Z)
| StridedM (ty : shty) (dims strides : list Z).

Definition m_layout (m : mapping) : layout :=
  match m with DenseM _ _ => Dense | StridedM _ _ _ => Strided end.
Definition m_ty (m : mapping) : shty :=
  match m with DenseM ty _ => ty | StridedM ty _ _ => ty end.
(** mapping.rs:150, 290 [shape] (its dimensions). *)
Definition m_dims (m : mapping) : list Z :=
  match m with DenseM _ d => d | StridedM _ d _ => d end.
(** mapping.rs:57-59 [rank], 52-54 [len], 47-49 [is_empty], 34-36 [dim]. *)
Definition m_rank (m : mapping) : nat := length (m_dims m).
Definition m_len (m : mapping) : Z := sh_len (m_dims m).
Definition m_is_empty (m : mapping) : bool := sh_is_empty (m_dims m).
Definition m_dim (m : mapping) (i : nat) : outcome Z := sh_dim (m_dims m) i.

(** mapping.rs:154-164 [DenseMapping::stride] (loop over the following dimensions),
    294-298 [StridedMapping::stride]. *)
Definition m_stride (m : mapping) (i : nat) : outcome Z :=
  match m with
  | DenseM _ dims =>
      let* _ := assert (i <? length dims)%nat in
      Ok (fold_left Z.mul (skipn (i + 1) dims) 1)
  | StridedM _ dims strides =>
      let* _ := assert (i <? length dims)%nat in
      get_nth strides i
  end.

(** mapping.rs:166-173: the calls [f(i, stride)] made by [DenseMapping::for_each_stride],
    in call order, for [i = n-1, .., 0]. *)
Fixpoint dense_calls (n : nat) (dims : list Z) (stride : Z) : list (nat * Z) :=
  match n with
  | O => []
  | S i => (i, stride) :: dense_calls i dims (stride * nth i dims 0)
  end.

(** mapping.rs:166-173, 300-304 [for_each_stride] as the list of calls. *)
Definition for_each_stride (m : mapping) : list (nat * Z) :=
  match m with
  | DenseM _ dims => dense_calls (length dims) dims 1
  | StridedM _ dims strides => map (fun i => (i, nth i strides 0)) (seq 0 (length dims))
  end.

(** mapping.rs:175-179, 306-308 [inner_stride]. *)
Definition inner_stride (m : mapping) : Z :=
  match m with
  | DenseM ty _ => match sh_rank ty with Some O => 0 | _ => 1 end
  | StridedM _ dims strides =>
      if (0 <? length dims)%nat then nth (length dims - 1) strides 0 else 0
  end.

(** mapping.rs:95-107 [offset] (the debug assertions are its safety precondition). *)
Definition m_offset (m : mapping) (idx : list Z) : Z :=
  fold_left (fun off c => off + snd c * nth (fst c) idx 0) (for_each_stride m) 0.

(** mapping.rs:316-319: the loop of [linear_offset] for [i = n-1, .., 0]. *)
Fixpoint linear_loop (n : nat) (dims strides : list Z) (dividend offset : Z) : Z :=
  match n with
  | O => offset
  | S i =>
      linear_loop i dims strides (dividend / nth i dims 0)
        (offset + nth i strides 0 * (dividend mod nth i dims 0))
  end.

(** mapping.rs:181-185, 310-322 [linear_offset]. *)
Definition m_linear_offset (m : mapping) (index : Z) : Z :=
  match m with
  | DenseM _ _ => index
  | StridedM _ dims strides => linear_loop (length dims) dims strides index 0
  end.

(** mapping.rs:276-288: loop of [is_contiguous] for [i = n-1, .., 0]. *)
Fixpoint contiguous_loop (n : nat) (dims strides : list Z) (stride : Z) : bool :=
  match n with
  | O => true
  | S i =>
      if negb (nth i strides 0 =? stride) then false
      else contiguous_loop i dims strides (stride * nth i dims 0)
  end.

(** mapping.rs:146-148, 276-288 [is_contiguous]. *)
Definition is_contiguous (m : mapping) : bool :=
  match m with
  | DenseM _ _ => true
  | StridedM _ dims strides => contiguous_loop (length dims) dims strides 1
  end.

(** [strides.as_mut()[g(i)] = stride] for each call of [for_each_stride]. *)
Definition store_strides (init : list Z) (g : nat -> nat) (calls : list (nat * Z)) : list Z :=
  fold_left (fun acc c => upd acc (g (fst c)) (snd c)) calls init.

(** mapping.rs:204-208, 367-373 [remap] into layout [l] and shape type [ty]. *)
Definition m_remap (l : layout) (ty : shty) (m : mapping) : outcome mapping :=
  match l with
  | Dense =>
      let* _ := assert (is_contiguous m) in
      let* dims := sh_from_dims ty (m_dims m) in
      Ok (DenseM ty dims)
  | Strided =>
      let* strides := dims_new ty (m_rank m) in
      let strides := store_strides strides (fun i => i) (for_each_stride m) in
      let* dims := sh_from_dims ty (m_dims m) in
      Ok (StridedM ty dims strides)
  end.

(** mapping.rs:190-192: every [perm[i] == i]. *)
Fixpoint perm_is_identity (i : nat) (perm : list Z) : bool :=
  match perm with
  | [] => true
  | p :: ps => (p =? Z.of_nat i) && perm_is_identity (S i) ps
  end.

(** mapping.rs:327-335: the bit mask test.  Shifts by 64 or more overflow (a panic in
    builds with overflow checks), so rank 64 and above is rejected here. *)
Fixpoint mask_loop (rank : nat) (perm : list Z) (mask : Z) : outcome Z :=
  match perm with
  | [] => Ok mask
  | p :: ps =>
      let* _ := assert (p <? Z.of_nat rank) in
      mask_loop rank ps (Z.lor mask (Z.shiftl 1 p))
  end.

Definition full_mask (rank : nat) : Z :=
  Z.lxor usize_max (Z.shiftl usize_max (Z.of_nat rank) mod 2 ^ 64).

(** mapping.rs:187-195, 324-356 [permute]. *)
Definition m_permute (l : layout) (ty : shty) (m : mapping) (perm : list Z) : outcome mapping :=
  let* _ := assert (length perm =? m_rank m)%nat in
  match l with
  | Dense =>
      let* _ := assert (perm_is_identity 0 perm) in
      m_remap Dense ty m
  | Strided =>
      let* mask := mask_loop (m_rank m) perm 0 in
      let* _ := assert (m_rank m <? 64)%nat in
      let* _ := assert (mask =? full_mask (m_rank m)) in
      let* dims := sh_new ty (m_rank m) in
      let* strides := dims_new ty (m_rank m) in
      (* inverse permutation *)
      let dims := fold_left (fun acc i => upd acc (Z.to_nat (nth i perm 0)) (Z.of_nat i))
                            (seq 0 (m_rank m)) dims in
      let strides := store_strides strides (fun i => Z.to_nat (nth i dims 0)) (for_each_stride m) in
      let dims := fold_left (fun acc i => upd acc i (nth (Z.to_nat (nth i perm 0)) (m_dims m) 0))
                            (seq 0 (m_rank m)) dims in
      let* dims := sh_store ty dims in
      Ok (StridedM ty dims strides)
  end.

(** mapping.rs:197-202, 358-365 [prepend_dim]. *)
Definition m_prepend_dim (l : layout) (ty : shty) (m : mapping) (size stride : Z) : outcome mapping :=
  match l with
  | Dense =>
      let* _ := assert (is_dense (m_layout m)) in
      let* _ := assert (stride =? m_len m) in
      let* dims := sh_prepend_dim ty (m_dims m) size in
      Ok (DenseM ty dims)
  | Strided =>
      let* strides := dims_new ty (m_rank m + 1) in
      let strides := upd strides 0 stride in
      let strides := store_strides strides (fun i => i + 1)%nat (for_each_stride m) in
      let* dims := sh_prepend_dim ty (m_dims m) size in
      Ok (StridedM ty dims strides)
  end.

(** mapping.rs:210-215, 375-389 [remove_dim]. *)
Definition m_remove_dim (l : layout) (ty : shty) (m : mapping) (index : nat) : outcome mapping :=
  match l with
  | Dense =>
      let* _ := assert (is_dense (m_layout m)) in
      let* _ := assert (index =? 0)%nat in
      let* dims := sh_remove_dim ty (m_dims m) index in
      Ok (DenseM ty dims)
  | Strided =>
      let* _ := assert (index <? m_rank m)%nat in
      let* strides := dims_new ty (m_rank m - 1) in
      let strides :=
        fold_left (fun acc c =>
                     if (fst c <? index)%nat then upd acc (fst c) (snd c)
                     else if (index <? fst c)%nat then upd acc (fst c - 1) (snd c)
                     else acc) (for_each_stride m) strides in
      let* dims := sh_remove_dim ty (m_dims m) index in
      Ok (StridedM ty dims strides)
  end.

(** mapping.rs:217-221, 391-397 [reorder]. *)
Definition m_reorder (l : layout) (m : mapping) : outcome mapping :=
  let ty := sh_reverse (m_ty m) in
  match l with
  | Dense =>
      let* _ := assert ((m_rank m <? 2)%nat && is_dense (m_layout m)) in
      let* dims := sh_reverse_dims ty (m_dims m) in
      Ok (DenseM ty dims)
  | Strided =>
      let* strides := dims_new ty (m_rank m) in
      let strides := store_strides strides (fun i => m_rank m - 1 - i)%nat (for_each_stride m) in
      let* dims := sh_reverse_dims ty (m_dims m) in
      Ok (StridedM ty dims strides)
  end.

(** mapping.rs:227-232, 455-461 [resize_dim]. *)
Definition m_resize_dim (l : layout) (ty : shty) (m : mapping) (index : nat) (size : Z)
  : outcome mapping :=
  match l with
  | Dense =>
      let* _ := assert (is_dense (m_layout m)) in
      let* _ := assert (index =? 0)%nat in
      let* dims := sh_resize_dim ty (m_dims m) index size in
      Ok (DenseM ty dims)
  | Strided =>
      let* strides := dims_new ty (m_rank m) in
      let strides := store_strides strides (fun i => i) (for_each_stride m) in
      let* dims := sh_resize_dim ty (m_dims m) index size in
      Ok (StridedM ty dims strides)
  end.

(** State of the loop of [StridedMapping::reshape], mapping.rs:403-411. *)
Record reshape_state := {
  rs_old_len : Z; rs_new_len : Z;
  rs_old_stride : Z; rs_new_stride : Z;
  rs_valid : bool;
  rs_j : nat;
  rs_strides : list Z
}.

(** mapping.rs:426-437: add new dimensions while they fit in the current region. *)
Fixpoint reshape_inner (j : nat) (new_dims : list Z) (old_len new_len new_stride : Z)
    (strides : list Z) : nat * Z * Z * list Z :=
  match j with
  | O => (O, new_len, new_stride, strides)
  | S j' =>
      if new_len * nth j' new_dims 0 >? old_len
      then (j, new_len, new_stride, strides)
      else reshape_inner j' new_dims old_len
             (new_len * nth j' new_dims 0) (new_stride * nth j' new_dims 0)
             (upd strides j' new_stride)
  end.

(** mapping.rs:413-438: the body for one old dimension [i]. *)
Definition reshape_step (dims strides new_dims : list Z) (i : nat) (s : reshape_state)
  : reshape_state :=
  let st := nth i strides 0 in
  let d := nth i dims 0 in
  let same := rs_old_len s =? rs_new_len s in
  let old_stride := if same then st else rs_old_stride s in
  let new_stride := if same then st else rs_new_stride s in
  let valid := if same then rs_valid s else rs_valid s && (rs_old_stride s =? st) in
  let old_len := rs_old_len s * d in
  let old_stride := old_stride * d in
  let '(j, new_len, new_stride, ns) :=
    reshape_inner (rs_j s) new_dims old_len (rs_new_len s) new_stride (rs_strides s) in
  {| rs_old_len := old_len; rs_new_len := new_len;
     rs_old_stride := old_stride; rs_new_stride := new_stride;
     rs_valid := valid; rs_j := j; rs_strides := ns |}.

Fixpoint reshape_loop (n : nat) (dims strides new_dims : list Z) (s : reshape_state)
  : reshape_state :=
  match n with
  | O => s
  | S i => reshape_loop i dims strides new_dims (reshape_step dims strides new_dims i s)
  end.

(** mapping.rs:441-448: remaining new dimensions. *)
Fixpoint reshape_rest (j : nat) (new_dims : list Z) (new_len new_stride : Z) (strides : list Z)
  : Z * list Z :=
  match j with
  | O => (new_len, strides)
  | S j' =>
      reshape_rest j' new_dims (new_len * nth j' new_dims 0) (new_stride * nth j' new_dims 0)
        (upd strides j' new_stride)
  end.

(** mapping.rs:223-225, 399-453 [reshape] to a shape of type [ty] and dimensions [new_dims]. *)
Definition m_reshape (m : mapping) (ty : shty) (new_dims : list Z) : outcome mapping :=
  match m with
  | DenseM _ dims =>
      let* nd := sh_reshape dims ty new_dims in
      Ok (DenseM ty nd)
  | StridedM _ dims strides =>
      let* nd := sh_reshape dims ty new_dims in
      let* ns := dims_new ty (length nd) in
      let s := reshape_loop (length dims) dims strides nd
                 {| rs_old_len := 1; rs_new_len := 1; rs_old_stride := 1; rs_new_stride := 1;
                    rs_valid := true; rs_j := length nd; rs_strides := ns |} in
      let '(new_len, ns) := reshape_rest (rs_j s) nd (rs_new_len s) (rs_new_stride s) (rs_strides s) in
      let* _ := assert ((new_len =? 0) || rs_valid s) in
      Ok (StridedM ty nd ns)
  end.

(** mapping.rs:239-245 [StridedMapping::new]. *)
Definition strided_new (ty : shty) (dims strides : list Z) : outcome mapping :=
  let* _ := assert (length dims =? length strides)%nat in
  Ok (StridedM ty dims strides).

(** mapping.rs:111 (derived) and 253-257 [Default]. *)
Definition m_default (l : layout) (ty : shty) : mapping :=
  match l with
  | Dense => DenseM ty (sh_default ty)
  | Strided => StridedM ty (sh_default ty) (repeat 0 (length (sh_default ty)))
  end.
