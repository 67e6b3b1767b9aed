(** References to slices.  [Slice] has no fields: a [&Slice] is the address of a descriptor (pointer and
    mapping) if the mapping takes up space, and the address of the elements themselves otherwise, when the
    type alone says what the mapping is.  Mutable references run the same code.  All sizes are for 64 bits. *)
From Verif Require Import Base Shape Mapping Tensor.

(** dim.rs:46-51: a constant is a unit struct, [Dyn] is [usize]. *)
Definition dim_bytes (d : dimty) : Z := match d with DConst _ => 0 | DDyn => 8 end.

(** shape.rs:206-211 (a box of a slice or a number) and the tuples of dimensions, shape.rs:332-453. *)
Definition shape_bytes (ty : shty) : Z :=
  match ty with SDynRank => 16 | STuple ds => fold_right Z.add 0 (map dim_bytes ds) end.

(** shape.rs:304, 344, 374, 428 [Shape::Dims]: an array, or a box. *)
Definition strides_bytes (ty : shty) : Z :=
  match ty with SDynRank => 16 | STuple ds => 8 * Z.of_nat (length ds) end.

(** mapping.rs:111-121 [size_of::<L::Mapping<S>>()]. *)
Definition map_bytes (l : layout) (ty : shty) : Z :=
  match l with Dense => shape_bytes ty | Strided => shape_bytes ty + strides_bytes ty end.

(** The value of a mapping type without fields.  Nothing is read to get it: every constant is a unit struct
    and the array of strides is empty. *)
Definition map_unit (l : layout) (ty : shty) : mapping :=
  match l with
  | Dense => DenseM ty (match ty with SDynRank => [] | STuple ds => map dim_default ds end)
  | Strided => StridedM ty (match ty with SDynRank => [] | STuple ds => map dim_default ds end) []
  end.

(** Memory: objects are descriptors or blocks of elements.  An address is an object and a position in it. *)
Definition addr : Type := (nat * Z)%type.
Inductive object (T : Type) : Type :=
| Desc (ptr : addr) (m : mapping)      (* raw_slice.rs:8-11; in a view, or at the start of a tensor *)
| Block (cells : list T).
Arguments Desc {T} ptr m.
Arguments Block {T} cells.

(** Reading the descriptor at an address.  Elements taken for a descriptor are undefined behaviour. *)
Definition desc_at {T : Type} (h : list (object T)) (a : addr) : outcome (addr * mapping) :=
  match nth_error h (fst a), snd a with
  | Some (Desc p m), 0 => Ok (p, m)
  | _, _ => UB
  end.

(** raw_slice.rs:18-24, 30-36 [as_slice], [as_mut_slice] of the descriptor at [a]. *)
Definition as_slice {T : Type} (h : list (object T)) (l : layout) (ty : shty) (a : addr) : outcome addr :=
  if 0 <? map_bytes l ty then Ok a
  else let* (p, _) := desc_at h a in Ok p.

(** raw_slice.rs:38-48 [from_slice], [from_mut_slice]. *)
Definition from_slice (l : layout) (ty : shty) (s : addr) : outcome addr :=
  let* _ := assert (0 <? map_bytes l ty) in Ok s.

(** slice.rs:33-48 [as_ptr], [as_mut_ptr]. *)
Definition slice_ptr {T : Type} (h : list (object T)) (l : layout) (ty : shty) (s : addr) : outcome addr :=
  if 0 <? map_bytes l ty
  then let* a := from_slice l ty s in let* (p, _) := desc_at h a in Ok p
  else Ok s.

(** slice.rs:329-335 [mapping]. *)
Definition slice_mapping {T : Type} (h : list (object T)) (l : layout) (ty : shty) (s : addr) : outcome mapping :=
  if 0 <? map_bytes l ty
  then let* a := from_slice l ty s in let* (_, m) := desc_at h a in Ok m
  else Ok (map_unit l ty).

(** slice.rs:217-224 [expr], [expr_mut] with view.rs:242-246 [new_unchecked]: a new descriptor. *)
Definition slice_expr {T : Type} (h : list (object T)) (l : layout) (ty : shty) (s : addr)
  : outcome (list (object T) * addr) :=
  let* p := slice_ptr h l ty s in
  let* m := slice_mapping h l ty s in
  Ok (h ++ [Desc p m], (length h, 0)).

(** array.rs:214-227 [Deref], [DerefMut]: the array at [a] taken for a slice. *)
Definition array_deref (ds : list dimty) (a : addr) : outcome addr :=
  match sh_checked_len (map dim_default ds) with Some _ => Ok a | None => Panic end.

(** slice.rs:788-805, array.rs:170-184: a slice taken for a nested array and the other way round. *)
Definition slice_as_nested (s : addr) : addr := s.

(** A reference dereferenced and made into an expression, again and again: view.rs:341-345, 429-435. *)
Fixpoint deref_expr {T : Type} (k : nat) (h : list (object T)) (l : layout) (ty : shty) (a : addr)
  : outcome (list (object T) * addr) :=
  match k with
  | O => Ok (h, a)
  | S k => let* s := as_slice h l ty a in
           let* (h', a') := slice_expr h l ty s in
           deref_expr k h' l ty a'
  end.
