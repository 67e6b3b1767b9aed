(** Model of [src/dim.rs] and [src/shape.rs].

    Shape types are data.  A shape value of type [ty] is represented by its list of
    dimensions (what [with_dims] shows); constant-sized dimensions live in [ty]. *)
From Verif Require Import Base.

(** dim.rs:48 [Const<N>] and dim.rs:51 [Dyn]. *)
Inductive dimty := DConst (n : Z) | DDyn.

(** shape.rs:206 [DynRank] and the tuple shapes of shape.rs:333-460 (ranks 0 to 6). *)
Inductive shty := SDynRank | STuple (ds : list dimty).

(** The largest static rank: shape.rs:460. *)
Definition max_rank : nat := 6.

(** dim.rs:60, 77 [Dim::Merge]. *)
Definition dim_merge (x d : dimty) : dimty :=
  match x with DConst n => DConst n | DDyn => d end.

(** ** Type-level functions of the [Shape] trait *)

(** shape.rs:294, 334, 364, 417 [Head] *)
Definition sh_head (s : shty) : dimty :=
  match s with STuple (d :: _) => d | _ => DDyn end.

(** shape.rs:295, 335, 365, 418 [Tail] *)
Definition sh_tail (s : shty) : shty :=
  match s with SDynRank => SDynRank | STuple ds => STuple (tl ds) end.

(** shape.rs:297, 337, 367, 420 [Reverse] *)
Definition sh_reverse (s : shty) : shty :=
  match s with SDynRank => SDynRank | STuple ds => STuple (rev ds) end.

(** shape.rs:298, 338, 368, 421, 460 [Prepend]: prepending to rank 6 gives [DynRank]. *)
Definition sh_prepend (d : dimty) (s : shty) : shty :=
  match s with
  | SDynRank => SDynRank
  | STuple ds => if (length ds <? max_rank)%nat then STuple (d :: ds) else SDynRank
  end.

(** shape.rs:300, 340, 370, 423 [Dyn] *)
Definition sh_dyn (s : shty) : shty :=
  match s with SDynRank => SDynRank | STuple ds => STuple (map (fun _ => DDyn) ds) end.

(** shape.rs:301, 341, 371, 424 [Merge], by recursion over the tuple. *)
Fixpoint merge_tuple (ds : list dimty) (s : shty) : shty :=
  match ds with
  | [] => s
  | [x] => sh_prepend (dim_merge x (sh_head s)) (sh_tail s)
  | x :: dt => sh_prepend (dim_merge x (sh_head s)) (merge_tuple dt (sh_tail s))
  end.

Definition sh_merge (a b : shty) : shty :=
  match a with SDynRank => SDynRank | STuple ds => merge_tuple ds b end.

(** shape.rs:308, 348, 378, 432 [RANK] *)
Definition sh_rank (s : shty) : option nat :=
  match s with SDynRank => None | STuple ds => Some (length ds) end.

(** ** Shape values *)

(** dim.rs:65-69, 82-84 [Dim::from_size]: constant sizes are asserted. *)
Definition from_size (d : dimty) (n : Z) : outcome unit :=
  match d with
  | DConst c => assert (n =? c)
  | DDyn => Ok tt
  end.

Fixpoint from_sizes (ds : list dimty) (dims : list Z) : outcome unit :=
  match ds, dims with
  | d :: dt, n :: nt => let* _ := from_size d n in from_sizes dt nt
  | _, _ => Ok tt
  end.

(** Write-back at the end of [with_mut_dims]: shape.rs:323-330 (DynRank, in place),
    358-360, 390-397, 444-451 (tuples, through [from_size]). *)
Definition sh_store (ty : shty) (dims : list Z) : outcome (list Z) :=
  match ty with
  | SDynRank => Ok dims
  | STuple ds => let* _ := from_sizes ds dims in Ok dims
  end.

(** [Default] of a dimension: [Const] is its size, [Dyn] is 0. *)
Definition dim_default (d : dimty) : Z := match d with DConst c => c | DDyn => 0 end.

(** shape.rs:310-312, 350-352, 380-384, 434-438 [Shape::new]. *)
Definition sh_new (ty : shty) (rank : nat) : outcome (list Z) :=
  match ty with
  | SDynRank => Ok (repeat 0 rank)
  | STuple ds => let* _ := assert (rank =? length ds)%nat in Ok (map dim_default ds)
  end.

(** shape.rs:261-265 and derived [Default] of tuples. *)
Definition sh_default (ty : shty) : list Z :=
  match ty with SDynRank => [0] | STuple ds => map dim_default ds end.

(** dim.rs:91-111 [Dims::new]: static ranks assert the length, otherwise boxed. *)
Definition dims_new (ty : shty) (len : nat) : outcome (list Z) :=
  match ty with
  | SDynRank => Ok (repeat 0 len)
  | STuple ds => let* _ := assert (len =? length ds)%nat in Ok (repeat 0 len)
  end.

(** shape.rs:50-54 [dim]. *)
Definition sh_dim (dims : list Z) (i : nat) : outcome Z :=
  let* _ := assert (i <? length dims)%nat in get_nth dims i.

(** shape.rs:61-66 [from_dims]. *)
Definition sh_from_dims (ty : shty) (dims : list Z) : outcome (list Z) :=
  let* _ := sh_new ty (length dims) in sh_store ty dims.

(** shape.rs:74-76 [len] (the product of the dimensions; overflow is in Machine.v). *)
Definition sh_len (dims : list Z) : Z := fold_left Z.mul dims 1.

(** shape.rs:69-71 [is_empty]. *)
Definition sh_is_empty (dims : list Z) : bool := sh_len dims =? 0.

(** shape.rs:93-95 [checked_len]: left-to-right [checked_mul]. *)
Fixpoint checked_len_from (acc : Z) (dims : list Z) : option Z :=
  match dims with
  | [] => Some acc
  | d :: ds => if acc * d <=? usize_max then checked_len_from (acc * d) ds else None
  end.
Definition sh_checked_len (dims : list Z) : option Z := checked_len_from 1 dims.

(** shape.rs:98-107 [prepend_dim]. *)
Definition sh_prepend_dim (ty : shty) (dims : list Z) (size : Z) : outcome (list Z) :=
  let* _ := sh_new ty (length dims + 1) in sh_store ty (size :: dims).

(** shape.rs:110-123 [remove_dim]. *)
Definition sh_remove_dim (ty : shty) (dims : list Z) (i : nat) : outcome (list Z) :=
  let* _ := assert (i <? length dims)%nat in
  let* _ := sh_new ty (length dims - 1) in
  sh_store ty (firstn i dims ++ skipn (i + 1) dims).

(** shape.rs:130-137: the loop looking for the dimension to infer. *)
Fixpoint infer_loop (i : nat) (inferred : option nat) (dims : list Z)
  : outcome (option nat * list Z) :=
  match dims with
  | [] => Ok (inferred, [])
  | d :: ds =>
      if d =? usize_max
      then let* _ := assert (match inferred with None => true | Some _ => false end) in
           let* (inf, ds') := infer_loop (S i) (Some i) ds in
           Ok (inf, 1 :: ds')
      else let* (inf, ds') := infer_loop (S i) inferred ds in
           Ok (inf, d :: ds')
  end.

(** shape.rs:126-152 [reshape]; [old % new] panics for [new = 0]. *)
Definition sh_reshape (old_dims : list Z) (ty : shty) (new_dims : list Z) : outcome (list Z) :=
  let* (inferred, dims) := infer_loop 0 None new_dims in
  let* dims := sh_store ty dims in
  let old_len := sh_len old_dims in
  match sh_checked_len dims with
  | None => Panic
  | Some new_len =>
      match inferred with
      | Some i =>
          let* _ := assert (negb (new_len =? 0)) in
          let* _ := assert (old_len mod new_len =? 0) in
          sh_store ty (upd dims i (old_len / new_len))
      | None =>
          let* _ := assert (new_len =? old_len) in
          Ok dims
      end
  end.

(** shape.rs:155-166 [resize_dim]. *)
Definition sh_resize_dim (ty : shty) (dims : list Z) (i : nat) (size : Z) : outcome (list Z) :=
  let* _ := assert (i <? length dims)%nat in
  let* _ := sh_new ty (length dims) in
  sh_store ty (upd dims i size).

(** shape.rs:169-178 [reverse]; [ty] is the type of the result, [S::Reverse]. *)
Definition sh_reverse_dims (ty : shty) (dims : list Z) : outcome (list Z) :=
  let* _ := sh_new ty (length dims) in sh_store ty (rev dims).

(** ** The two representations of [DynRank] *)

(** shape.rs:206-211. *)
Inductive dynrank := DRDyn (dims : list Z) | DROne (size : Z).

(** shape.rs:218-223, 314-321 [dims], [with_dims]. *)
Definition dr_dims (d : dynrank) : list Z :=
  match d with DRDyn l => l | DROne n => [n] end.

(** shape.rs:227-238 [clone]. *)
Definition dr_clone (d : dynrank) : dynrank :=
  match d with
  | DROne n => DROne n
  | DRDyn l => match l with [n] => DROne n | _ => DRDyn l end
  end.

(** shape.rs:240-252 [clone_from]; returns the new value of [self]. *)
Definition dr_clone_from (self source : dynrank) : dynrank :=
  match self, source with
  | DRDyn dims, DRDyn src => if (length dims =? length src)%nat then DRDyn src else dr_clone source
  | _, _ => dr_clone source
  end.

(** Lexicographic comparison of slices, as in [<[usize]>::cmp]. *)
Fixpoint slice_cmp (a b : list Z) : comparison :=
  match a, b with
  | [], [] => Eq
  | [], _ :: _ => Lt
  | _ :: _, [] => Gt
  | x :: a', y :: b' =>
      match x ?= y with Eq => slice_cmp a' b' | c => c end
  end.

Fixpoint slice_eqb (a b : list Z) : bool :=
  match a, b with
  | [], [] => true
  | x :: a', y :: b' => (x =? y) && slice_eqb a' b'
  | _, _ => false
  end.

(** shape.rs:281-285 [eq], 275-279 [cmp], 269-273 [hash] (the value fed to the hasher:
    length prefix and elements of the slice). *)
Definition dr_eq (a b : dynrank) : bool := slice_eqb (dr_dims a) (dr_dims b).
Definition dr_cmp (a b : dynrank) : comparison := slice_cmp (dr_dims a) (dr_dims b).
Definition dr_hash (a : dynrank) : list Z := Z.of_nat (length (dr_dims a)) :: dr_dims a.

(** shape.rs:261-265 [default], 310-312 [new], 323-330 [with_mut_dims]. *)
Definition dr_default : dynrank := DROne 0.
Definition dr_new (rank : nat) : dynrank :=
  if (rank =? 1)%nat then DROne 0 else DRDyn (repeat 0 rank).
Definition dr_store (self : dynrank) (dims : list Z) : dynrank :=
  match self with DRDyn _ => DRDyn dims | DROne _ => DROne (nth 0 dims 0) end.
(** shape.rs:61-66 for DynRank, 516-526, 552-562: from a slice, a box or a vector. *)
Definition dr_from_dims (dims : list Z) : dynrank := dr_store (dr_new (length dims)) dims.
Definition dr_from_box (dims : list Z) : dynrank := DRDyn dims.
