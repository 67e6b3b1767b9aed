(** Specification vocabulary.  Nothing here mentions the code: these are the
    textbook notions in which the properties are stated. *)
From Verif Require Import Base.

(** Number of elements of an array with the given dimensions. *)
Definition prodZ (dims : list Z) : Z := fold_right Z.mul 1 dims.

(** [idx] is a valid multi-index of an array with dimensions [dims]. *)
Definition in_bounds (dims idx : list Z) : Prop :=
  Forall2 (fun d i => 0 <= i < d) dims idx.

(** All valid multi-indices in row-major (lexicographic) order. *)
Fixpoint indices (dims : list Z) : list (list Z) :=
  match dims with
  | [] => [[]]
  | d :: ds => flat_map (fun i => map (cons i) (indices ds)) (zrange d)
  end.

(** Row-major position of a multi-index. *)
Fixpoint flat (dims idx : list Z) : Z :=
  match dims, idx with
  | _ :: ds, i :: is => i * prodZ ds + flat ds is
  | _, _ => 0
  end.

(** Multi-index at a row-major position. *)
Fixpoint unflat (dims : list Z) (k : Z) : list Z :=
  match dims with
  | [] => []
  | _ :: ds => k / prodZ ds :: unflat ds (k mod prodZ ds)
  end.

(** Address of a multi-index relative to the first element, for given strides. *)
Fixpoint dot (strides idx : list Z) : Z :=
  match strides, idx with
  | s :: ss, i :: is => s * i + dot ss is
  | _, _ => 0
  end.

(** The strides of a row-major (C order) array. *)
Fixpoint row_major (dims : list Z) : list Z :=
  match dims with
  | [] => []
  | _ :: ds => prodZ ds :: row_major ds
  end.

(** Dimensions are sizes. *)
Definition nonneg (dims : list Z) : Prop := Forall (fun d => 0 <= d) dims.
Definition positive (dims : list Z) : Prop := Forall (fun d => 0 < d) dims.

(** Insert / remove a coordinate. *)
Definition insert_at {A : Type} (n : nat) (x : A) (l : list A) : list A :=
  firstn n l ++ x :: skipn n l.
Definition remove_at {A : Type} (n : nat) (l : list A) : list A :=
  firstn n l ++ skipn (S n) l.

(** The last [n] entries of a list (trailing coordinates). *)
Definition lastn {A : Type} (n : nat) (l : list A) : list A := skipn (length l - n) l.

(** ** Selections along one dimension (the arguments of [view]) *)

Inductive bound := Included (n : Z) | Excluded (n : Z) | Unbounded.

Inductive dim_index :=
| IxUsize (i : Z)                          (* a plain index: the dimension disappears *)
| IxFull                                   (* .. *)
| IxRange (lo hi : bound)                  (* a..b, a.., ..b, a..=b, ..=b, bound pairs *)
| IxStep (lo hi : bound) (step : Z).       (* step(range, step) *)

(** First position and one-past-the-last position denoted by a range of a dimension of size [d]. *)
Definition range_lo (b : bound) : Z :=
  match b with Included n => n | Excluded n => n + 1 | Unbounded => 0 end.
Definition range_hi (d : Z) (b : bound) : Z :=
  match b with Included n => n + 1 | Excluded n => n | Unbounded => d end.

(** The positions [lo, lo+1, .., hi-1]. *)
Definition positions (lo hi : Z) : list Z := map (Z.add lo) (zrange (hi - lo)).

(** The argument is acceptable for a dimension of size [d]. *)
Definition ix_ok (d : Z) (x : dim_index) : Prop :=
  match x with
  | IxUsize i => i < d
  | IxFull => True
  | IxRange lo hi => range_lo lo <= range_hi d hi <= d
  | IxStep lo hi s => range_lo lo <= range_hi d hi <= d /\ s <> 0
  end.

(** Index arguments are [usize] values. *)
Definition usize (n : Z) : Prop := 0 <= n <= usize_max.
Definition bound_arg (b : bound) : Prop :=
  match b with Included n | Excluded n => usize n | Unbounded => True end.
Definition ix_arg (x : dim_index) : Prop :=
  match x with
  | IxUsize i => usize i
  | IxFull => True
  | IxRange lo hi | IxStep lo hi _ => bound_arg lo /\ bound_arg hi
  end.

(** The positions it selects, in order.  A step range takes every [|s|]-th position of the
    range counting from its first (s > 0) or its last (s < 0) position. *)
Definition ix_positions (d : Z) (x : dim_index) : list Z :=
  match x with
  | IxUsize i => [i]
  | IxFull => positions 0 d
  | IxRange lo hi => positions (range_lo lo) (range_hi d hi)
  | IxStep lo hi s =>
      let a := range_lo lo in
      let b := range_hi d hi in
      if s >? 0
      then filter (fun p => (p - a) mod s =? 0) (positions a b)
      else filter (fun p => (b - 1 - p) mod (- s) =? 0) (rev (positions a b))
  end.

(** Whether the dimension is kept in the result. *)
Definition ix_kept (x : dim_index) : bool :=
  match x with IxUsize _ => false | _ => true end.

(** Shape of the selected subarray. *)
Fixpoint sub_dims (dims : list Z) (xs : list dim_index) : list Z :=
  match dims, xs with
  | d :: ds, x :: xt =>
      if ix_kept x
      then Z.of_nat (length (ix_positions d x)) :: sub_dims ds xt
      else sub_dims ds xt
  | _, _ => []
  end.

(** Index in the parent array of element [idx] of the selected subarray. *)
Fixpoint sub_index (dims : list Z) (xs : list dim_index) (idx : list Z) : list Z :=
  match dims, xs with
  | d :: ds, x :: xt =>
      if ix_kept x
      then match idx with
           | i :: it => nth (Z.to_nat i) (ix_positions d x) 0 :: sub_index ds xt it
           | [] => []
           end
      else nth 0 (ix_positions d x) 0 :: sub_index ds xt idx
  | _, _ => []
  end.

(** ** Permutations of the dimensions *)

(** [perm] lists each of [0 .. n-1] exactly once. *)
Definition perm_of (n : nat) (perm : list Z) : Prop :=
  Permutation perm (map Z.of_nat (seq 0 n)).
(** [perm] applied to a list: entry [i] of the result is entry [perm[i]] of the argument. *)
Definition pick (perm l : list Z) : list Z := map (fun p => nth (Z.to_nat p) l 0) perm.

(** ** Reshape requests *)

(** A request may contain [usize::MAX] in place of a size to be inferred. *)
Definition inferred (req : list Z) : nat := count_occ Z.eq_dec req usize_max.
(** The sizes given explicitly. *)
Definition known (req : list Z) : list Z := filter (fun r => negb (r =? usize_max)) req.
(** Multiplying the sizes from left to right stays within [usize]. *)
Definition fits (dims : list Z) : Prop := forall k, prodZ (firstn k dims) <= usize_max.

(** [dims] is the shape denoted by the request [req] for [len] elements. *)
Definition resolves (len : Z) (req dims : list Z) : Prop :=
  (inferred req = 0%nat /\ dims = req /\ prodZ dims = len) \/
  (inferred req = 1%nat /\ Forall2 (fun r d => r = usize_max \/ d = r) req dims /\
   prodZ (known req) <> 0 /\ prodZ dims = len).
