(** Model of owned arrays with the [nightly] feature, where a tensor owns an allocator value:
    [src/raw_tensor.rs], [src/tensor.rs], [src/expr/buffer.rs].

    [Tensor.v] follows the stable branches, in which all memory comes from the global allocator.  Here the vector
    inside a tensor is its elements, its capacity and an allocator value of type [A]; the field
    [alloc: ManuallyDrop<A>] (raw_tensor.rs:35) is moved out with [ManuallyDrop::take] and moved back with [ptr::read],
    so that nothing but the code keeps it from being lost or dropped twice.  What the elements do is as in [Tensor.v]
    and [History.v]; the allocator's own code (its [Clone]) can panic.

    Simplified: one step that grows a vector several times counts as one reallocation; an allocator grants or refuses
    by the size alone ([allocator]); its [Drop] does not panic. *)
From Verif Require Import Base Spec Shape Mapping Index View Wf Expr Tensor TensorSpec History.

(** ** Allocator values *)

(** A call of [A::clone(&self)].  [self]: with interior mutability the call may put another value in place of [self];
    the old one is then gone.  (Think of an allocator with a [RefCell<Box<..>>] inside.) *)
Inductive cloned (A K : Type) : Type :=
| AGives (self : option A) (new : A) (k : K)
| AThrows (self : option A) (k : K).
Arguments AGives {A K} self new k.
Arguments AThrows {A K} self k.

(** The code of an allocator type: [K] is what its [clone] can reach, [ac_id] says which allocator a value is: memory
    belongs to it. *)
Record acode (A I K : Type) : Type := mkCode {
  ac_id : A -> I;
  ac_clone : A -> K -> cloned A K
}.
Arguments mkCode {A I K} _ _.
Arguments ac_id {A I K} _ _.
Arguments ac_clone {A I K} _ _ _.

(** What happened to allocator values: came into being ([h_made]), handed back to the caller ([h_given]), dropped;
    and to memory: allocated (by whom, how much), handed out, freed. *)
Record heap (A I K : Type) : Type := mkHeap {
  h_k : K;
  h_made : list A;
  h_given : list A;
  h_dropped : list A;
  h_got : list (I * Z);
  h_out : list (I * Z);
  h_freed : list (I * Z)
}.
Arguments mkHeap {A I K} _ _ _ _ _ _ _.
Arguments h_k {A I K} _.
Arguments h_made {A I K} _.
Arguments h_given {A I K} _.
Arguments h_dropped {A I K} _.
Arguments h_got {A I K} _.
Arguments h_out {A I K} _.
Arguments h_freed {A I K} _.

(** The arguments of the closure of [with_mut_parts]: raw_tensor.rs:211-214. *)
Record nparts (T C A I K : Type) : Type := mkN { n_p : parts T C; n_a : A; n_h : heap A I K }.
Arguments mkN {T C A I K} _ _ _.
Arguments n_p {T C A I K} _.
Arguments n_a {T C A I K} _.
Arguments n_h {T C A I K} _.

(** A tensor and its field [alloc], with everything outside it. *)
Record own (T C A I K : Type) : Type := mkOwn { o_t : tensor T; o_a : A; o_w : world T C; o_h : heap A I K }.
Arguments mkOwn {T C A I K} _ _ _ _.
Arguments o_t {T C A I K} _.
Arguments o_a {T C A I K} _.
Arguments o_w {T C A I K} _.
Arguments o_h {T C A I K} _.

Section Alloc.
  Context {T C A I K : Type} (code : acode A I K) (al : allocator).

  (** The memory of a vector with allocator [a]: none for capacity 0. *)
  Definition block (a : A) (cap : Z) : list (I * Z) := if cap =? 0 then [] else [(ac_id code a, cap)].

  Definition h_make (a : A) (h : heap A I K) : heap A I K :=
    mkHeap (h_k h) (h_made h ++ [a]) (h_given h) (h_dropped h) (h_got h) (h_out h) (h_freed h).
  Definition h_drop (a : A) (h : heap A I K) : heap A I K :=
    mkHeap (h_k h) (h_made h) (h_given h) (h_dropped h ++ [a]) (h_got h) (h_out h) (h_freed h).
  Definition h_set (k : K) (h : heap A I K) : heap A I K :=
    mkHeap k (h_made h) (h_given h) (h_dropped h) (h_got h) (h_out h) (h_freed h).
  Definition h_get (a : A) (cap : Z) (h : heap A I K) : heap A I K :=
    mkHeap (h_k h) (h_made h) (h_given h) (h_dropped h) (h_got h ++ block a cap) (h_out h) (h_freed h).
  Definition h_free (a : A) (cap : Z) (h : heap A I K) : heap A I K :=
    mkHeap (h_k h) (h_made h) (h_given h) (h_dropped h) (h_got h) (h_out h) (h_freed h ++ block a cap).
  Definition h_give (a : A) (cap : Z) (h : heap A I K) : heap A I K :=
    mkHeap (h_k h) (h_made h) (h_given h ++ [a]) (h_dropped h) (h_got h) (h_out h ++ block a cap) (h_freed h).

  (** Dropping a vector (its elements apart): the memory is freed, then the allocator is dropped. *)
  Definition drop_vec (a : A) (cap : Z) (h : heap A I K) : heap A I K := h_drop a (h_free a cap h).

  (** [A::clone] on the value at hand, which is [fst] afterwards. *)
  Definition h_self (a : A) (self : option A) (h : heap A I K) : A * heap A I K :=
    match self with None => (a, h) | Some a' => (a', h_drop a (h_make a' h)) end.

  (** ** Vectors *)

  (** Methods of [Vec] that know nothing about the allocator: when the capacity changes the old memory goes back to the
      allocator of the vector and the new memory comes from it. *)
  Definition regrow (a : A) (cap cap' : Z) (h : heap A I K) : heap A I K :=
    if cap =? cap' then h else h_free a cap (h_get a cap' h).
  Definition on_vec {B} (m : M (parts T C) B) : M (nparts T C A I K) B :=
    fun n =>
      match m (n_p n) with
      | Done b p => Done b (mkN p (n_a n) (regrow (n_a n) (p_cap (n_p n)) (p_cap p) (n_h n)))
      | Unwound p => Unwound (mkN p (n_a n) (regrow (n_a n) (p_cap (n_p n)) (p_cap p) (n_h n)))
      | Aborted => Aborted
      | Fault => Fault
      end.

  (** ** [with_mut_parts] *)

  (** raw_tensor.rs:210-261 and the drop guard 220-234: after [f] the pointer, the capacity and the allocator of the
      vector are read back into the tensor.  The guard resets the mapping without asking whether the default shape is
      empty (C55). *)
  Definition n_with_mut_parts {B} (m : shty -> M (nparts T C A I K) B) : M (own T C A I K) B :=
    fun s =>
      let t := o_t s in
      match to_vec_raw t with
      | None => Fault
      | Some items =>
          match m (tn_ty t) (mkN (mkParts items (tn_cap t) (tn_dims t) (o_w s)) (o_a s) (o_h s)) with
          | Done b n =>
              let p := n_p n in
              if zlen (p_items p) =? sh_len (p_dims p)
              then Done b (mkOwn (mkTensor (tn_ty t) (p_dims p) (p_items p) (p_cap p)) (n_a n) (p_w p) (n_h n))
              else Fault
          | Unwound n =>
              let p := n_p n in
              if zlen (p_items p) =? sh_len (p_dims p)
              then Unwound (mkOwn (mkTensor (tn_ty t) (p_dims p) (p_items p) (p_cap p)) (n_a n) (p_w p) (n_h n))
              else Unwound (mkOwn (mkTensor (tn_ty t) (sh_default (tn_ty t)) [] (p_cap p)) (n_a n)
                              (w_drop (p_items p) (p_w p)) (n_h n))
          | Aborted => Aborted
          | Fault => Fault
          end
      end.

  (** tensor.rs:99-101, 121-122, 357-358. *)
  Definition n_check_outer : M (own T C A I K) unit :=
    fun s => (check (0 <? length (tn_dims (o_t s)))%nat ;;; check (head_dyn (tn_ty (o_t s)))) s.

  (** tensor.rs:81-90. *)
  Definition n_clear : M (own T C A I K) unit :=
    fun s =>
      (check (sh_len (sh_default (tn_ty (o_t s))) =? 0) ;;;
       n_with_mut_parts (fun ty => on_vec (vec_truncate 0 ;;; p_set_dims (sh_default ty)))) s.

  (** tensor.rs:356-368. *)
  Definition n_truncate (size : Z) : M (own T C A I K) unit :=
    n_check_outer ;;;
    fun s =>
      if size <? nth 0 (tn_dims (o_t s)) 0
      then n_with_mut_parts (fun ty => on_vec (fun p =>
             (p_store ty (upd (p_dims p) 0 size) ;;;
              fun p => vec_truncate (sh_len (p_dims p)) p) p)) s
      else Done tt s.

  (** tensor.rs:280-291, 322-333, 375-386. *)
  Definition n_reserve (n : Z) : M (own T C A I K) unit := n_with_mut_parts (fun _ => on_vec (vec_reserve al n)).
  Definition n_try_reserve (n : Z) : M (own T C A I K) bool := n_with_mut_parts (fun _ => on_vec (vec_try_reserve al n)).
  Definition n_shrink_to (n : Z) : M (own T C A I K) unit := n_with_mut_parts (fun _ => on_vec (vec_shrink n)).

  (** tensor.rs:120-153 with expression.rs:184-197 (the [nightly] [clone_into_vec], the same but for the type). *)
  Definition n_expand {Y} (e : expression Y) (cl : Y -> C -> call T C) : M (own T C A I K) unit :=
    n_check_outer ;;;
    let len := sh_len (e_dims e) in
    if 0 <? len
    then n_with_mut_parts (fun ty => on_vec (vec_reserve al len ;;; expand_dims ty (e_dims e) ;;; clone_into_vec e cl))
    else ret tt.

  (** tensor.rs:705-714. *)
  Definition n_extend (ys : list (C -> call T C)) : M (own T C A I K) unit :=
    n_with_mut_parts (fun _ => on_vec (vec_extend al ys ;;; fun p => p_set_dims [zlen (p_items p)] p)).

  (** raw_tensor.rs:131-143: the new vector has a clone of the allocator (133); if it cannot be allocated the clone is
      dropped.  [*vec = new_vec] (143) drops the old vector, empty by then, with its allocator; when [copy_dim]
      unwinds the new vector is dropped with its own. *)
  Definition n_resize_copy (new_len : Z) (new_dims : list Z) (f : C -> call T C) : M (nparts T C A I K) unit :=
    fun n =>
      let p := n_p n in
      match ac_clone code (n_a n) (h_k (n_h n)) with
      | AThrows self k =>
          let (a, h) := h_self (n_a n) self (h_set k (n_h n)) in Unwound (mkN p a h)
      | AGives self new k =>
          let (a, h) := h_self (n_a n) self (h_make new (h_set k (n_h n))) in
          if al_ok al new_len
          then
            let cap := Z.max new_len (al_grow al 0 new_len) in
            let h := h_get new cap h in
            match copy_dim f (p_dims p) new_dims (mkCopy (p_items p) [] cap (p_w p)) with
            | Done _ c => Done tt (mkN (mkParts (c_new c) (c_cap c) (p_dims p) (w_drop (c_old c) (c_w c)))
                                     new (drop_vec a (p_cap p) h))
            | Unwound c => Unwound (mkN (mkParts [] (p_cap p) (p_dims p) (w_drop (c_old c ++ c_new c) (c_w c)))
                                      a (drop_vec new (c_cap c) h))
            | Aborted => Aborted
            | Fault => Fault
            end
          else Unwound (mkN p a (h_drop new h))
      end.

  (** raw_tensor.rs:111-151; tensor.rs:294-308. *)
  Definition n_resize_with (new_dims : list Z) (f : C -> call T C) : M (own T C A I K) unit :=
    fun s =>
      (check (length new_dims =? length (tn_dims (o_t s)))%nat ;;;
       match new_dims with
       | [] => ret tt
       | _ :: _ =>
           match sh_checked_len new_dims with
           | None => check false
           | Some new_len =>
               n_with_mut_parts (fun ty =>
                 (fun n => (if new_len =? 0 then on_vec (vec_truncate 0)
                            else if slice_eqb (tl new_dims) (tl (p_dims (n_p n)))
                                 then on_vec (vec_resize_with al new_len f)
                                 else n_resize_copy new_len new_dims f) n) ;;;
                 on_vec (p_store ty new_dims))
           end
       end) s.
  Definition n_resize (new_dims : list Z) (value : T) (clone : T -> C -> call T C) : M (own T C A I K) unit :=
    fun s =>
      let w := o_w s in
      let w := mkWorld (w_clo w) (w_made w ++ [value]) (w_used w) (w_dropped w) in
      match n_resize_with new_dims (clone value) (mkOwn (o_t s) (o_a s) w (o_h s)) with
      | Done b s => Done b (mkOwn (o_t s) (o_a s) (w_drop [value] (o_w s)) (o_h s))
      | Unwound s => Unwound (mkOwn (o_t s) (o_a s) (w_drop [value] (o_w s)) (o_h s))
      | Aborted => Aborted
      | Fault => Fault
      end.

  (** raw_tensor.rs:291-298: [Vec::clone_from] keeps the allocator; the vector made of the source (272-282) is
      never dropped. *)
  Definition n_clone_from (clone : T -> C -> call T C) (src : list T) (dims : list Z) : M (own T C A I K) unit :=
    n_with_mut_parts (fun _ => on_vec (vec_clone_from al clone src ;;; p_set_dims dims)).

  (** A drain (buffer.rs:32-83) borrows the tensor and does not touch the allocator; [m] is what happens to the rest. *)
  Definition on_tensor {B} (m : M (tensor T * world T C) B) : M (own T C A I K) B :=
    fun s =>
      match m (o_t s, o_w s) with
      | Done b (t, w) => Done b (mkOwn t (o_a s) w (o_h s))
      | Unwound (t, w) => Unwound (mkOwn t (o_a s) w (o_h s))
      | Aborted => Aborted
      | Fault => Fault
      end.

End Alloc.

Section Moves.
  Context {T C A I K : Type} (code : acode A I K) (al : allocator).

  (** tensor.rs:63-65; as [tn_append]. *)
  Definition n_append : M (own T C A I K * tensor T) unit :=
    fun s =>
      let '(self, other) := s in
      let w := o_w self in
      match tn_drain other Unbounded Unbounded with
      | Ok d =>
          let finish (unwinding : bool) (s : own T Z A I K) :=
            let d := mkDrain (d_ty d) (d_dims d) (d_mem d) (d_cap d) (d_ptr d) (d_view d) (d_new_size d) (d_tail d)
                       (w_clo (o_w s)) in
            match drain_drop d (mkWorld (w_clo w) (w_made w) (w_used w) (w_dropped (o_w s))) with
            | Done _ (other, w) =>
                let self := mkOwn (o_t s) (o_a s) w (o_h s) in
                if unwinding then Unwound (self, other) else Done tt (self, other)
            | Unwound (other, w) => Unwound (mkOwn (o_t s) (o_a s) w (o_h s), other)
            | Aborted => Aborted
            | Fault => Fault
            end in
          match n_expand code al (e_drain d) (fun x n => Gives x (n + 1))
                  (mkOwn (o_t self) (o_a self) (mkWorld 0 [] [] (w_dropped w)) (o_h self)) with
          | Done _ s => finish false s
          | Unwound s => finish true s
          | Aborted => Aborted
          | Fault => Fault
          end
      | Panic => Unwound s
      | _ => Fault
      end.

  (** ** Vectors in local variables *)

  (** Code that owns a vector ([a], [cap]; its elements are in [m]) and returns it: unwinding drops the vector. *)
  Definition keep_vec {B} (a : A) (cap : Z) (m : M (world T C) B) : M (world T C * heap A I K) B :=
    fun s =>
      match m (fst s) with
      | Done b w => Done b (w, snd s)
      | Unwound w => Unwound (w, drop_vec code a cap (snd s))
      | Aborted => Aborted
      | Fault => Fault
      end.
  (** Code that owns a vector and drops it. *)
  Definition lose_vec {B} (a : A) (cap : Z) (m : M (world T C) B) : M (world T C * heap A I K) B :=
    fun s =>
      match m (fst s) with
      | Done b w => Done b (w, drop_vec code a cap (snd s))
      | Unwound w => Unwound (w, drop_vec code a cap (snd s))
      | Aborted => Aborted
      | Fault => Fault
      end.
  (** The tensor made is that of [m] with the allocator [a]: raw_tensor.rs:79-89. *)
  Definition with_alloc (a : A) (m : M (world T C * heap A I K) (tensor T)) : M (world T C * heap A I K) (tensor T * A) :=
    t <- m ;; ret (t, a).

  (** tensor.rs:267-277, 388-398 [new_in], [with_capacity_in]: [alloc] is dropped when the assertion fails or the
      memory is refused. *)
  Definition n_with_capacity (ty : shty) (cap : Z) (a : A) : M (world T C * heap A I K) (tensor T * A) :=
    fun s =>
      match tn_with_capacity al ty cap (fst s) with
      | Done t w => Done (t, a) (w, h_get code a (tn_cap t) (snd s))
      | Unwound w => Unwound (w, h_drop a (snd s))
      | Aborted => Aborted
      | Fault => Fault
      end.

  (** tensor.rs:410-421 [from_expr_in]; 155-171 [from_elem_in], [from_fn_in]; slice.rs:616-622 [to_tensor_in]. *)
  Definition n_from_expr (e : expression T) (a : A) : M (world T C * heap A I K) (tensor T * A) :=
    fun s =>
      let (w, h) := s in
      let len := sh_len (e_dims e) in
      if (len =? 0) || al_ok al len
      then
        let cap := if len =? 0 then 0 else Z.max len (al_grow al 0 len) in
        match on_vec code (clone_into_vec e moved) (mkN (mkParts [] cap [] w) a (h_get code a cap h)) with
        | Done _ n =>
            with_alloc (n_a n) (fun s => from_parts (e_ty e) (e_dims e) (p_items (n_p n)) (p_cap (n_p n)) s)
              (p_w (n_p n), n_h n)
        | Unwound n => Unwound (w_drop (p_items (n_p n)) (p_w (n_p n)), drop_vec code (n_a n) (p_cap (n_p n)) (n_h n))
        | Aborted => Aborted
        | Fault => Fault
        end
      else Unwound (w, h_drop a h).

  (** tensor.rs:742-748 [From<Vec<T, A>>]; 736-740. *)
  Definition n_from_vec (items : list T) (cap : Z) (a : A) : M (world T C * heap A I K) (tensor T * A) :=
    with_alloc a (keep_vec a cap (tn_from_vec items cap)).

  (** raw_tensor.rs:286-289 [clone]: [with_vec] (272-282) makes a vector from a bitwise copy of the allocator
      ([ptr::read], 278) that is not dropped; [Vec::clone] clones that copy.  What the call puts in place of the copy
      is not copied back. *)
  Definition n_clone (clone : T -> C -> call T C) (t : tensor T) (a : A)
    : M (world T C * heap A I K) (tensor T * A) :=
    fun s =>
      let (w, h) := s in
      match ac_clone code a (h_k h) with
      | AThrows self k => Unwound (w, snd (h_self a self (h_set k h)))
      | AGives self new k =>
          let h := snd (h_self a self (h_make new (h_set k h))) in
          let cap := zlen (tn_mem t) in
          with_alloc new (keep_vec new cap (tn_clone clone t)) (w, h_get code new cap h)
      end.

  (** tensor.rs:190-260, 263-265, 427-469 and the drop guards: raw_tensor.rs:91-109 moves the allocator into the
      vector.  The guard of [zip_with] (436-454) owns the vector and drops it (443). *)
  Definition n_kept (m : tensor T -> M (world T C) (tensor T)) (t : tensor T) (a : A)
    : M (world T C * heap A I K) (option (tensor T * A)) :=
    x <- with_alloc a (keep_vec a (tn_cap t) (m t)) ;; ret (Some x).

  (** tensor.rs:838-862, 225-229; raw_tensor.rs:309-319: the buffer of the iterator, the vector in [into_scalar], the
      tensor itself is dropped. *)
  Definition n_lost (m : tensor T -> M (world T C) unit) (t : tensor T) (a : A)
    : M (world T C * heap A I K) (option (tensor T * A)) :=
    lose_vec a (tn_cap t) (m t) ;;; ret None.
End Moves.

(** ** Programs *)

Record nstate (T C A I K : Type) : Type := mkNs {
  ns_vars : list (option (tensor T * A));
  ns_w : world T C;
  ns_h : heap A I K
}.
Arguments mkNs {T C A I K} _ _ _.
Arguments ns_vars {T C A I K} _.
Arguments ns_w {T C A I K} _.
Arguments ns_h {T C A I K} _.

Inductive nop (T C A : Type) : Type :=
| Put (a : A) (o : op T C)          (* [New], [FromVec], [FromExpr] with the allocator [a] *)
| Do (o : op T C)                   (* any other operation *)
| IntoVec (i : nat)                 (* into_vec, to_vec_in: the vector is handed out *)
| Rebuild (i : nat).                (* into_raw_parts_with_alloc and from_raw_parts_in *)
Arguments Put {T C A} a o.
Arguments Do {T C A} o.
Arguments IntoVec {T C A} i.
Arguments Rebuild {T C A} i.

Section NStep.
  Context {T C A I K : Type} (code : acode A I K) (al : allocator).
  Notation world' := (world T C * heap A I K)%type.

  Definition nvar (st : nstate T C A I K) (i : nat) : option (tensor T * A) :=
    match nth_error (ns_vars st) i with Some (Some t) => Some t | _ => None end.
  Definition n_set (i : nat) (v : option (tensor T * A)) (w : world T C) (h : heap A I K) (st : nstate T C A I K)
    : nstate T C A I K := mkNs (upd (ns_vars st) i v) w h.

  Definition n_create (m : M world' (tensor T * A)) : M (nstate T C A I K) unit :=
    fun st =>
      match m (ns_w st, ns_h st) with
      | Done t (w, h) => Done tt (mkNs (ns_vars st ++ [Some t]) w h)
      | Unwound (w, h) => Done tt (mkNs (ns_vars st) w h)
      | Aborted => Aborted
      | Fault => Fault
      end.
  Definition n_on_var {B} (i : nat) (m : M (own T C A I K) B) : M (nstate T C A I K) unit :=
    fun st =>
      match nvar st i with
      | None => Done tt st
      | Some (t, a) =>
          match m (mkOwn t a (ns_w st) (ns_h st)) with
          | Done _ s | Unwound s => Done tt (n_set i (Some (o_t s, o_a s)) (o_w s) (o_h s) st)
          | Aborted => Aborted
          | Fault => Fault
          end
      end.
  Definition n_consume (i : nat) (m : tensor T -> A -> M world' (option (tensor T * A))) : M (nstate T C A I K) unit :=
    fun st =>
      match nvar st i with
      | None => Done tt st
      | Some (t, a) =>
          match m t a (ns_w st, ns_h st) with
          | Done v (w, h) => Done tt (n_set i v w h st)
          | Unwound (w, h) => Done tt (n_set i None w h st)
          | Aborted => Aborted
          | Fault => Fault
          end
      end.

  Definition n_do (o : op T C) : M (nstate T C A I K) unit :=
    match o with
    | New _ _ | FromVec _ _ | FromExpr _ => ret tt
    | Clone i cl => fun st =>
        match nvar st i with Some (t, a) => n_create (n_clone code cl t a) st | None => Done tt st end
    | Clear i => n_on_var i (n_clear code)
    | Truncate i n => n_on_var i (n_truncate code n)
    | Reserve i n => n_on_var i (n_reserve code al n)
    | TryReserve i n => n_on_var i (n_try_reserve code al n)
    | ShrinkTo i n => n_on_var i (n_shrink_to code n)
    | Expand i e cl => n_on_var i (n_expand code al e cl)
    | Extend i ys => n_on_var i (n_extend code al ys)
    | ResizeWith i dims f => n_on_var i (n_resize_with code al dims f)
    | Resize i dims v cl => n_on_var i (n_resize code al dims v cl)
    | DrainTake i lo hi k => n_on_var i (on_tensor (drained_by lo hi k drain_drop))
    | DrainLeak i lo hi k =>
        n_on_var i (on_tensor (drained_by lo hi k
          (fun d w => match drain_leak d with Some t => Done tt (t, w) | None => Fault end)))
    | CloneFrom i j cl => fun st =>
        match nvar st j with
        | Some (src, _) => n_on_var i (n_clone_from code al cl (tn_mem src) (tn_dims src)) st
        | None => Done tt st
        end
    | Append i j => fun st =>
        match nvar st i, nvar st j with
        | Some (self, a), Some (other, b) =>
            match n_append code al (mkOwn self a (ns_w st) (ns_h st), other) with
            | Done _ (s, other) | Unwound (s, other) =>
                Done tt (n_set j (Some (other, b)) (o_w s) (o_h s)
                          (n_set i (Some (o_t s, o_a s)) (o_w s) (o_h s) st))
            | Aborted => Aborted
            | Fault => Fault
            end
        | _, _ => Done tt st
        end
    | IntoShape i ty dims => n_consume i (n_kept code (tn_into_shape ty dims))
    | IntoMapping i ty => n_consume i (n_kept code (tn_into_mapping ty))
    | IntoFlat i => n_consume i (n_kept code tn_into_flat)
    | ZipWith i e f => n_consume i (n_kept code (tn_zip_with e f))
    | Map i f => n_consume i (n_kept code (tn_map f))
    | Iterate i k =>
        n_consume i (n_lost code (fun t w =>
          match it_nexts k (it_new (e_into (tn_ty t) (tn_dims t) (tn_mem t))) with
          | Ok (xs, it) =>
              Done tt (w_drop (into_dropped (tn_mem t) (it_st it))
                 (w_uses (flat_map (fun x => match x with Some x => [x] | None => [] end) xs) w))
          | Panic => Unwound w
          | _ => Fault
          end))
    | IntoScalar i => n_consume i (n_lost code (fun t => x <- tn_into_scalar t ;; fun w => Done tt (w_use x w)))
    | Drop i => n_consume i (n_lost code (fun t w => Done tt (w_drop (tn_mem t) w)))
    end.

  Definition n_step (o : nop T C A) : M (nstate T C A I K) unit :=
    match o with
    | Put a (New ty cap) => n_create (fun s => n_with_capacity code al ty cap a (fst s, h_make a (snd s)))
    | Put a (FromVec items cap) =>
        (* the vector was made elsewhere *)
        n_create (fun s =>
          let (w, h) := s in
          n_from_vec code items cap a
            (mkWorld (w_clo w) (w_made w ++ items) (w_used w) (w_dropped w), h_get code a cap (h_make a h)))
    | Put a (FromExpr e) => n_create (fun s => n_from_expr code al e a (fst s, h_make a (snd s)))
    | Put _ _ => ret tt
    | Do o => n_do o
    | IntoVec i =>
        (* tensor.rs:256-260, 736-740: its elements are the caller's *)
        n_consume i (fun t a s =>
          match tn_into_vec t (fst s) with
          | Done x w => Done None (w_uses (fst x) w, h_give code a (snd x) (snd s))
          | Unwound w => Unwound (w, snd s)
          | Aborted => Aborted
          | Fault => Fault
          end)
    | Rebuild i =>
        (* tensor.rs:211-218, 173-188: [Vec::from_raw_parts_in] with [mapping.len()], then [from_parts] *)
        n_consume i (fun t a s =>
          match tn_into_vec t (fst s) with
          | Done x w =>
              match from_parts (tn_ty t) (tn_dims t) (fst x) (snd x) w with
              | Done t w => Done (Some (t, a)) (w, snd s)
              | Unwound w => Unwound (w, drop_vec code a (snd x) (snd s))
              | Aborted => Aborted
              | Fault => Fault
              end
          | Unwound w => Unwound (w, snd s)
          | Aborted => Aborted
          | Fault => Fault
          end)
    end.

  Fixpoint n_run (ops : list (nop T C A)) : M (nstate T C A I K) unit :=
    match ops with
    | [] => ret tt
    | o :: os => n_step o ;;; n_run os
    end.

  (** ** What is asked *)

  (** The state without allocators, and the operation as on stable. *)
  Definition plain (st : nstate T C A I K) : state T C :=
    mkState (map (option_map fst) (ns_vars st)) (ns_w st).

  (** What the operation does to the elements, on stable (for the last two: tensor.rs:256-260, 490-505). *)
  Definition plain_step (o : nop T C A) : M (state T C) unit :=
    match o with
    | Put _ o | Do o => step al o
    | IntoVec i => consume i (fun t => x <- tn_into_vec t ;; fun w => Done None (w_uses (fst x) w))
    | Rebuild i => consume i (fun t => kept (x <- tn_into_vec t ;; from_parts (tn_ty t) (tn_dims t) (fst x) (snd x)))
    end.
  Fixpoint plain_run (ops : list (nop T C A)) : M (state T C) unit :=
    match ops with
    | [] => ret tt
    | o :: os => plain_step o ;;; plain_run os
    end.

  Definition creates (o : op T C) : bool :=
    match o with New _ _ | FromVec _ _ | FromExpr _ => true | _ => false end.
  (** The arguments are those of [op_ok]; an allocator comes with the operations that take one.  Where stable stops the
      process (a guard that cannot restore the tensor), [nightly] goes on with a tensor that is wrong: this is C55. *)
  Definition nop_ok (o : nop T C A) (st : nstate T C A I K) : Prop :=
    match o with
    | Put _ o => creates o = true /\ op_ok o (plain st)
    | Do o => creates o = false /\ op_ok o (plain st)
    | _ => True
    end /\ plain_step o (plain st) <> Aborted.
  Fixpoint nops_ok (ops : list (nop T C A)) (st : nstate T C A I K) : Prop :=
    match ops with
    | [] => True
    | o :: os => nop_ok o st /\ (forall st', n_step o st = Done tt st' -> nops_ok os st')
    end.
  Definition clones (o : nop T C A) : bool := match o with Do (Clone _ _) => true | _ => false end.
  Definition n_leak (o : nop T C A) : option nat :=
    match o with Put _ o | Do o => leak_limit o | _ => Some 0%nat end.
  Fixpoint n_leaks (ops : list (nop T C A)) : option nat :=
    match ops with
    | [] => Some 0%nat
    | o :: os => match n_leak o, n_leaks os with Some a, Some b => Some (a + b)%nat | _, _ => None end
    end.

  (** The allocators, and the memory, of the tensors in variables. *)
  Definition allocs (vars : list (option (tensor T * A))) : list A :=
    flat_map (fun v => match v with Some (_, a) => [a] | None => [] end) vars.
  Definition blocks (vars : list (option (tensor T * A))) : list (I * Z) :=
    flat_map (fun v => match v with Some (t, a) => block code a (tn_cap t) | None => [] end) vars.

  (** Every allocator value that came into being is in exactly one place: in a tensor, handed back or dropped.  Memory
      is owned by a tensor, handed out, or was freed, once, by the allocator it came from and with its size. *)
  Definition accounted (st : nstate T C A I K) : Prop :=
    let h := ns_h st in
    Permutation (h_made h) (allocs (ns_vars st) ++ h_given h ++ h_dropped h) /\
    Permutation (h_got h) (blocks (ns_vars st) ++ h_out h ++ h_freed h).

  (** [A::clone] leaves [self] as it was. *)
  Definition clone_pure : Prop :=
    forall a k, match ac_clone code a k with AGives self _ _ | AThrows self _ => self = None end.
  (** Whatever [A::clone] puts in place of [self] is still the same allocator. *)
  Definition clone_same : Prop :=
    forall a k a', match ac_clone code a k with AGives self _ _ | AThrows self _ => self = Some a' end ->
      ac_id code a' = ac_id code a.
  (** [A::clone] never panics. *)
  Definition clone_total : Prop :=
    forall a k, match ac_clone code a k with AGives _ _ _ => True | AThrows _ _ => False end.
End NStep.
