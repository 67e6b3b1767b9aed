(** Allocators that may refuse, and arrays of zero-sized elements.

    [asks k s] is the number of elements that an action of the reference interpreter (Refer.v) wants to have room for.
    For zero-sized elements there is no allocation: a vector of them has the capacity [usize::MAX], and making room fails
    only if the length overflows.  Used in the statement of C80. *)
From Verif Require Import Base Spec Shape Mapping Index View Wf Expr ExprSpec Tensor TensorSpec History Program Select Refer.

(** ** What an action asks for *)
Section Asks.
  Context {T C : Type}.

  Definition one_asks (k : act T C) (a : arr T) (s : rstate T C) : Z :=
    match k with
    | AReserve _ n => zlen (a_els a) + n
    | AExpand _ j ops _ =>
        match rvar s j with Some b => zlen (a_els a) + prodZ (chain_dims (a_dims b) ops) | None => 0 end
    | AExtend _ fs => zlen (a_els a) + zlen fs
    | AResizeWith _ new _ | AResize _ new _ _ => if fitsb new then prodZ new else 0
    | ACloneFrom _ j _ => match rvar s j with Some b => zlen (a_els b) | None => 0 end
    | AAppend _ j => match rvar s j with Some b => zlen (a_els a) + zlen (a_els b) | None => 0 end
    | _ => 0
    end.
  Definition asks (k : act T C) (s : rstate T C) : Z :=
    match k with
    | ANew _ cap => cap
    | _ => match on k with
           | Some i => match rvar s i with Some a => one_asks k a s | None => 0 end
           | None => 0
           end
    end.

  (** No action of the program asks for more than [most] elements. *)
  Fixpoint asks_most (most : Z) (p : list (act T C)) (s : rstate T C) : Prop :=
    match p with [] => True | k :: p' => asks k s <= most /\ asks_most most p' (r_do k s) end.
End Asks.

(** The allocator grants every request for up to [most] elements. *)
Definition grants (al : allocator) (most : Z) : Prop := forall n, n <= most -> al_ok al n = true.

(** ** Zero-sized elements *)

(** [Vec::reserve] of zero-sized elements: nothing is allocated, but a length over [usize::MAX] is a capacity overflow. *)
Definition zst_alloc : allocator := mkAlloc (fun n => n <=? usize_max) (fun _ _ => usize_max).

(** raw_tensor.rs:61-63 [capacity], and [Vec::capacity] of the vector made by [into_parts] (raw_tensor.rs:90-110): both
    are [usize::MAX] whatever number is stored. *)
Definition full_cap {T} (t : tensor T) : tensor T := mkTensor (tn_ty t) (tn_dims t) (tn_mem t) usize_max.
Definition full {T C} (st : state T C) : state T C :=
  mkState (map (option_map full_cap) (st_vars st)) (st_w st).

(** A program on arrays of zero-sized elements: every call finds the capacities at [usize::MAX]. *)
Section Zst.
  Context {T C : Type}.
  Fixpoint zst_prog (p : list (state T C -> cmd T C)) : M (state T C) unit :=
    match p with
    | [] => ret tt
    | k :: p' => fun st => (exec zst_alloc (k (full st)) ;;; zst_prog p') (full st)
    end.

  (** The arrays have at most [usize::MAX] elements. *)
  Definition countable (s : rstate T C) : Prop :=
    Forall (fun v => match v with Some a => zlen (a_els a) <= usize_max | None => True end) (r_vars s).

  (** The interpreter for zero-sized elements: a request for more than [usize::MAX] elements panics.  Nothing changes
      then, except that the rows of the second array of [append] are gone. *)
  Definition z_do (k : act T C) (s : rstate T C) : rstate T C :=
    if asks k s <=? usize_max then r_do k s
    else match k with
         | AAppend _ j =>
             match rvar s j with
             | Some b => match rows b with Some (_, dt) => r_set j (Some (mkArr (a_ty b) (0 :: dt) [])) s | None => s end
             | None => s
             end
         | _ => s
         end.
  Fixpoint z_run (p : list (act T C)) (s : rstate T C) : rstate T C :=
    match p with [] => s | k :: p' => z_run p' (z_do k s) end.

  (** What is asked: as for other elements (Refer.v); the given vectors have at most [usize::MAX] elements, and
      [extend] does not get more than that. *)
  Definition z_act_ok (k : act T C) (s : rstate T C) : Prop :=
    act_ok k s /\
    match k with AFromVec items => zlen items <= usize_max | AExtend _ _ => asks k s <= usize_max | _ => True end.
  Fixpoint z_acts_ok (p : list (act T C)) (s : rstate T C) : Prop :=
    match p with [] => True | k :: p' => z_act_ok k s /\ z_acts_ok p' (z_do k s) end.
End Zst.
