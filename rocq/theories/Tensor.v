(** Model of [src/raw_tensor.rs], [src/tensor.rs], the owning parts of [src/array.rs] and
    [src/expr/buffer.rs]: operations that create, move and drop elements.

    Here a panic matters beyond the fact that it happens: unwinding runs drop guards, and the
    tensor can be used afterwards.  The result of an operation is therefore one of
    - [Done a s]     it returned [a], in state [s];
    - [Unwound s]    it panicked and unwinding finished in state [s];
    - [Aborted]      a drop guard panicked during unwinding, which stops the process;
    - [Fault]        it did something a safe program must never do.

    The standard [Vec] is trusted: it is a list of elements with a capacity.  [Drop] of an element
    is assumed not to panic; [Dtor.v] is the same without this assumption.  Zero-sized element types, whose capacity is [usize::MAX], are not
    modelled. *)
From Verif Require Import Base Spec Shape Mapping Index View Wf Expr.

(** ** Results and sequencing *)

Inductive result (S A : Type) : Type :=
| Done (a : A) (s : S)
| Unwound (s : S)
| Aborted
| Fault.
Arguments Done {S A} a s.
Arguments Unwound {S A} s.
Arguments Aborted {S A}.
Arguments Fault {S A}.

(** A piece of code acting on a state [S]. *)
Definition M (S A : Type) : Type := S -> result S A.

Definition ret {S A} (a : A) : M S A := fun s => Done a s.
Definition seqM {S A B} (m : M S A) (k : A -> M S B) : M S B :=
  fun s => match m s with
           | Done a s' => k a s'
           | Unwound s' => Unwound s'
           | Aborted => Aborted
           | Fault => Fault
           end.
Notation "x <- m ;; k" := (seqM m (fun x => k)) (at level 100, m at next level, right associativity).
Notation "m ;;; k" := (seqM m (fun _ => k)) (at level 100, right associativity).

(** [assert!(b)] *)
Definition check {S} (b : bool) : M S unit := fun s => if b then Done tt s else Unwound s.

(** A call without effects on the state. *)
Definition lift {S A} (o : outcome A) : M S A :=
  fun s => match o with Ok a => Done a s | Panic => Unwound s | UB | NoFuel => Fault end.

(** [for _ in 0..n { m }] *)
Fixpoint timesM {S} (n : nat) (m : M S unit) : M S unit :=
  match n with O => ret tt | S k => m ;;; timesM k m end.

(** ** Elements

    [w_clo] is what the user's closure has captured.  The other fields record, in order, the
    elements that came into being or were handed to the operation ([w_made]), those given away to
    the closure by value ([w_used]) and those dropped ([w_dropped]). *)
Record world (T C : Type) : Type := mkWorld {
  w_clo : C;
  w_made : list T;
  w_used : list T;
  w_dropped : list T
}.
Arguments mkWorld {T C} _ _ _ _.
Arguments w_clo {T C} _.
Arguments w_made {T C} _.
Arguments w_used {T C} _.
Arguments w_dropped {T C} _.

(** A call of a user closure: it returns or panics. *)
Inductive call (A C : Type) : Type := Gives (a : A) (c : C) | Throws (c : C).
Arguments Gives {A C} a c.
Arguments Throws {A C} c.

Definition w_drop {T C} (xs : list T) (w : world T C) : world T C :=
  mkWorld (w_clo w) (w_made w) (w_used w) (w_dropped w ++ xs).
Definition w_use {T C} (x : T) (w : world T C) : world T C :=
  mkWorld (w_clo w) (w_made w) (w_used w ++ [x]) (w_dropped w).
Definition w_make {T C} (c : C) (x : T) (w : world T C) : world T C :=
  mkWorld c (w_made w ++ [x]) (w_used w) (w_dropped w).
Definition w_set {T C} (c : C) (w : world T C) : world T C :=
  mkWorld c (w_made w) (w_used w) (w_dropped w).

(** ** What an expression gives when it is consumed by [for_each] *)

(** A failed computation, at another type. *)
Definition fail {A B} (o : outcome A) : outcome B :=
  match o with Panic => Panic | UB => UB | NoFuel => NoFuel | Ok _ => Panic end.

(** iter.rs:84-86: the items of the inner loop and how it ends. *)
Fixpoint inner_trace {A} (e : expression A) (n : nat) (i : Z) (st : e_st e) : list A * outcome (e_st e) :=
  match n with
  | O => ([], Ok st)
  | S k =>
      match e_get e i st with
      | Ok (a, st) => let (xs, o) := inner_trace e k (i + 1) st in (a :: xs, o)
      | o => ([], fail o)
      end
  end.

(** iter.rs:83-93: the items given to the closure by [fold] and [for_each], in order, and how the
    loop ends if the closure always returns.  [Panic] is a panic of the expression itself (e.g. in
    the closure of [map]).  This is [fold_loop] of Expr.v without a closure; TraceFacts.v proves
    [fold] equal to giving these items to the closure and then ending this way. *)
Fixpoint loop_trace {A} {e : expression A} (fuel : nat) (it : iter e) : list A * outcome unit :=
  match fuel with
  | O => ([], NoFuel)
  | S k =>
      let n := Z.to_nat (it_limit it - it_index it) in
      let (xs, o) := inner_trace e n (it_index it) (it_st it) in
      match o with
      | Ok st =>
          match step_outer (mkIter st (it_index it) (it_limit it) (it_outer it) (it_olimit it)) with
          | Ok (true, it) =>
              let (ys, o) := loop_trace k (mkIter (it_st it) 0 (it_limit it) (it_outer it) (it_olimit it)) in
              (xs ++ ys, o)
          | Ok (false, _) => (xs, Ok tt)
          | o => (xs, fail o)
          end
      | o => (xs, fail o)
      end
  end.

Definition e_trace {A} (e : expression A) : list A * outcome unit := loop_trace (it_fuel (it_new e)) (it_new e).

(** ** Vectors: a list of elements and a capacity, with the mapping next to it *)

(** The allocator: which requests succeed, and the capacity it grows to. *)
Record allocator : Type := mkAlloc {
  al_ok : Z -> bool;                 (* a vector of this many elements can be allocated *)
  al_grow : Z -> Z -> Z              (* preferred new capacity: old capacity, needed capacity *)
}.

Definition zlen {A} (l : list A) : Z := Z.of_nat (length l).

(** The arguments of the closure of [with_mut_parts]: raw_tensor.rs:163-166. *)
Record parts (T C : Type) : Type := mkParts {
  p_items : list T;
  p_cap : Z;
  p_dims : list Z;
  p_w : world T C
}.
Arguments mkParts {T C} _ _ _ _.
Arguments p_items {T C} _.
Arguments p_cap {T C} _.
Arguments p_dims {T C} _.
Arguments p_w {T C} _.

(** [Vec::reserve]; a capacity overflow is a panic.  (An allocation failure would abort.) *)
Definition vec_reserve {T C} (al : allocator) (n : Z) : M (parts T C) unit :=
  fun p =>
    let need := zlen (p_items p) + n in
    if need <=? p_cap p then Done tt p
    else if al_ok al need
         then Done tt (mkParts (p_items p) (Z.max need (al_grow al (p_cap p) need)) (p_dims p) (p_w p))
         else Unwound p.

(** [Vec::try_reserve]: the same, but reporting failure. *)
Definition vec_try_reserve {T C} (al : allocator) (n : Z) : M (parts T C) bool :=
  fun p => match vec_reserve al n p with
           | Done _ p' => Done true p'
           | _ => Done false p
           end.

(** [Vec::shrink_to]. *)
Definition vec_shrink {T C} (n : Z) : M (parts T C) unit :=
  fun p => Done tt (mkParts (p_items p) (Z.min (p_cap p) (Z.max (zlen (p_items p)) n)) (p_dims p) (p_w p)).

(** [vec.as_mut_ptr().add(vec.len()).write(x); vec.set_len(vec.len() + 1)]: writing past the capacity
    is a fault. *)
Definition vec_write {T C} (x : T) : M (parts T C) unit :=
  fun p => if zlen (p_items p) <? p_cap p
           then Done tt (mkParts (p_items p ++ [x]) (p_cap p) (p_dims p) (p_w p))
           else Fault.

(** [Vec::truncate], [Vec::clear]. *)
Definition vec_truncate {T C} (n : Z) : M (parts T C) unit :=
  fun p => Done tt (mkParts (firstn (Z.to_nat n) (p_items p)) (p_cap p) (p_dims p)
                      (w_drop (skipn (Z.to_nat n) (p_items p)) (p_w p))).

(** A closure call giving an element. *)
Definition vec_call {T C} (f : C -> call T C) : M (parts T C) T :=
  fun p => match f (w_clo (p_w p)) with
           | Gives x c => Done x (mkParts (p_items p) (p_cap p) (p_dims p) (w_make c x (p_w p)))
           | Throws c => Unwound (mkParts (p_items p) (p_cap p) (p_dims p) (w_set c (p_w p)))
           end.

(** [Vec::resize_with]. *)
Definition vec_resize_with {T C} (al : allocator) (n : Z) (f : C -> call T C) : M (parts T C) unit :=
  fun p =>
    if zlen (p_items p) <? n
    then (vec_reserve al (n - zlen (p_items p)) ;;;
          timesM (Z.to_nat (n - zlen (p_items p))) (x <- vec_call f ;; vec_write x)) p
    else vec_truncate n p.

(** [mapping.shape_mut().with_mut_dims(..)] with the new dimensions; [*mapping = ..]. *)
Definition p_store {T C} (ty : shty) (dims : list Z) : M (parts T C) unit :=
  d <- lift (sh_store ty dims) ;;
  fun p => Done tt (mkParts (p_items p) (p_cap p) d (p_w p)).
Definition p_set_dims {T C} (dims : list Z) : M (parts T C) unit :=
  fun p => Done tt (mkParts (p_items p) (p_cap p) dims (p_w p)).

(** expression.rs:178-181: the closure of [clone_into_vec] on the items [ys]; [cl] is [into_cloned]. *)
Fixpoint clone_loop {T Y C} (cl : Y -> C -> call T C) (ys : list Y) : M (parts T C) unit :=
  match ys with
  | [] => ret tt
  | y :: yt => x <- vec_call (cl y) ;; vec_write x ;;; clone_loop cl yt
  end.

(** expression.rs:172-182 [clone_into_vec]. *)
Definition clone_into_vec {T Y C} (e : expression Y) (cl : Y -> C -> call T C) : M (parts T C) unit :=
  fun p =>
    (check (sh_len (e_dims e) <=? p_cap p - zlen (p_items p)) ;;;
     clone_loop cl (fst (e_trace e)) ;;;
     lift (snd (e_trace e))) p.

(** [into_cloned] of an owned element: it is moved. *)
Definition moved {T C} : T -> C -> call T C := fun x c => Gives x c.

(** ** Tensors *)

(** raw_tensor.rs:29-36, raw_slice.rs: the mapping, the allocation ([t_cap]) and the initialized
    elements at its front.  [RawTensor] does not store their number: it is the length of the
    mapping, and reading or freeing with a length that differs from [length (t_mem t)] is a fault. *)
Record tensor (T : Type) : Type := mkTensor {
  tn_ty : shty;
  tn_dims : list Z;
  tn_mem : list T;
  tn_cap : Z
}.
Arguments mkTensor {T} _ _ _ _.
Arguments tn_ty {T} _.
Arguments tn_dims {T} _.
Arguments tn_mem {T} _.
Arguments tn_cap {T} _.

Definition tn_len {T} (t : tensor T) : Z := sh_len (tn_dims t).

(** raw_tensor.rs:66-76 [from_parts] (the length is only checked by a debug assertion). *)
Definition from_parts {S T} (ty : shty) (dims : list Z) (items : list T) (cap : Z) : M S (tensor T) :=
  fun s => if zlen items =? sh_len dims then Done (mkTensor ty dims items cap) s else Fault.

(** [Vec::from_raw_parts(ptr, mapping.len(), capacity)]: raw_tensor.rs:91-109, 189-191, 265-270, 305. *)
Definition to_vec_raw {T} (t : tensor T) : option (list T) :=
  if zlen (tn_mem t) =? tn_len t then Some (tn_mem t) else None.

(** raw_tensor.rs:162-208 [with_mut_parts] and its drop guard. *)
Definition with_mut_parts {T C A} (m : shty -> M (parts T C) A) : M (tensor T * world T C) A :=
  fun s =>
    let (t, w) := s in
    match to_vec_raw t with
    | None => Fault
    | Some items =>
        match m (tn_ty t) (mkParts items (tn_cap t) (tn_dims t) w) with
        | Done a p =>
            if zlen (p_items p) =? sh_len (p_dims p)
            then Done a (mkTensor (tn_ty t) (p_dims p) (p_items p) (p_cap p), p_w p)
            else Fault
        | Unwound p =>
            if zlen (p_items p) =? sh_len (p_dims p)
            then Unwound (mkTensor (tn_ty t) (p_dims p) (p_items p) (p_cap p), p_w p)
            else if sh_len (sh_default (tn_ty t)) =? 0
                 then Unwound (mkTensor (tn_ty t) (sh_default (tn_ty t)) [] (p_cap p), w_drop (p_items p) (p_w p))
                 else Aborted
        | Aborted => Aborted
        | Fault => Fault
        end
    end.

(** [S::Head::SIZE.is_none()] *)
Definition head_dyn (ty : shty) : bool := match sh_head ty with DDyn => true | DConst _ => false end.

(** tensor.rs:99-101, 121-122, 357-358: the two assertions of [drain], [expand] and [truncate]. *)
Definition check_outer {T C} : M (tensor T * world T C) unit :=
  fun s => (check (0 <? length (tn_dims (fst s)))%nat ;;; check (head_dyn (tn_ty (fst s)))) s.

(** tensor.rs:81-90 [clear]. *)
Definition tn_clear {T C} : M (tensor T * world T C) unit :=
  fun s =>
    (check (sh_len (sh_default (tn_ty (fst s))) =? 0) ;;;
     with_mut_parts (fun ty => vec_truncate 0 ;;; p_set_dims (sh_default ty))) s.

(** tensor.rs:356-368 [truncate]. *)
Definition tn_truncate {T C} (size : Z) : M (tensor T * world T C) unit :=
  check_outer ;;;
  fun s =>
    if size <? nth 0 (tn_dims (fst s)) 0
    then with_mut_parts (fun ty => fun p =>
           (p_store ty (upd (p_dims p) 0 size) ;;;
            fun p => vec_truncate (sh_len (p_dims p)) p) p) s
    else Done tt s.

(** tensor.rs:280-291, 322-333, 375-386. *)
Definition tn_reserve {T C} (al : allocator) (n : Z) : M (tensor T * world T C) unit :=
  with_mut_parts (fun _ => vec_reserve al n).
Definition tn_try_reserve {T C} (al : allocator) (n : Z) : M (tensor T * world T C) bool :=
  with_mut_parts (fun _ => vec_try_reserve al n).
Definition tn_shrink_to {T C} (n : Z) : M (tensor T * world T C) unit :=
  with_mut_parts (fun _ => vec_shrink n).

(** tensor.rs:132-147: the new mapping of [expand]. *)
Definition expand_dims {T C} (ty : shty) (src : list Z) : M (parts T C) unit :=
  fun p =>
    (if sh_is_empty (p_dims p)
     then if (length src =? length (p_dims p))%nat
          then p_store ty src
          else d <- lift (sh_from_dims ty src) ;; p_set_dims d
     else check (length src =? length (p_dims p))%nat ;;;
          check (slice_eqb (tl src) (tl (p_dims p))) ;;;
          p_store ty (upd (p_dims p) 0 (nth 0 (p_dims p) 0 + nth 0 src 0))) p.

(** tensor.rs:120-153 [expand]. *)
Definition tn_expand {T Y C} (al : allocator) (e : expression Y) (cl : Y -> C -> call T C)
  : M (tensor T * world T C) unit :=
  check_outer ;;;
  let len := sh_len (e_dims e) in
  if 0 <? len
  then with_mut_parts (fun ty =>
         vec_reserve al len ;;;
         expand_dims ty (e_dims e) ;;;
         clone_into_vec e cl)
  else ret tt.

(** tensor.rs:709 [vec.extend(iter)]: [ys] are the successive calls of [next], which may panic.  A
    panic of [reserve] drops the element just obtained. *)
Fixpoint vec_extend {T C} (al : allocator) (ys : list (C -> call T C)) : M (parts T C) unit :=
  match ys with
  | [] => ret tt
  | f :: yt =>
      x <- vec_call f ;;
      (fun p => match vec_reserve al 1 p with
                | Unwound p => Unwound (mkParts (p_items p) (p_cap p) (p_dims p) (w_drop [x] (p_w p)))
                | r => r
                end) ;;;
      vec_write x ;;;
      vec_extend al yt
  end.
(** tensor.rs:705-714 [Extend::extend]. *)
Definition tn_extend {T C} (al : allocator) (ys : list (C -> call T C)) : M (tensor T * world T C) unit :=
  with_mut_parts (fun _ =>
    vec_extend al ys ;;; fun p => p_set_dims [zlen (p_items p)] p).

(** *** resize_with *)

(** The state of [copy_dim]: what is left of the old elements ([DropGuard]), the new vector. *)
Record copying (T C : Type) : Type := mkCopy {
  c_old : list T;
  c_new : list T;
  c_cap : Z;
  c_w : world T C
}.
Arguments mkCopy {T C} _ _ _ _.
Arguments c_old {T C} _.
Arguments c_new {T C} _.
Arguments c_cap {T C} _.
Arguments c_w {T C} _.

(** raw_tensor.rs:391-400: [copy_nonoverlapping] of [n] elements. *)
Definition copy_move {T C} (n : Z) : M (copying T C) unit :=
  fun c =>
    if (n <=? zlen (c_old c)) && (zlen (c_new c) + n <=? c_cap c)
    then Done tt (mkCopy (skipn (Z.to_nat n) (c_old c)) (c_new c ++ firstn (Z.to_nat n) (c_old c)) (c_cap c) (c_w c))
    else Fault.

(** raw_tensor.rs:403-413. *)
Definition copy_drop {T C} (n : Z) : M (copying T C) unit :=
  fun c =>
    if n <=? zlen (c_old c)
    then Done tt (mkCopy (skipn (Z.to_nat n) (c_old c)) (c_new c) (c_cap c)
                    (w_drop (firstn (Z.to_nat n) (c_old c)) (c_w c)))
    else Fault.

(** raw_tensor.rs:420-421. *)
Definition copy_new {T C} (f : C -> call T C) : M (copying T C) unit :=
  fun c => match f (w_clo (c_w c)) with
           | Gives x k =>
               if zlen (c_new c) <? c_cap c
               then Done tt (mkCopy (c_old c) (c_new c ++ [x]) (c_cap c) (w_make k x (c_w c)))
               else Fault
           | Throws k => Unwound (mkCopy (c_old c) (c_new c) (c_cap c) (w_set k (c_w c)))
           end.

(** raw_tensor.rs:345-424 [copy_dim]. *)
Fixpoint copy_dim {T C} (f : C -> call T C) (old_dims new_dims : list Z) : M (copying T C) unit :=
  match old_dims, new_dims with
  | old_size :: ot, new_size :: nt =>
      let old_stride := sh_len ot in
      let new_stride := sh_len nt in
      let min_size := Z.min old_size new_size in
      (match ot with
       | _ :: _ => timesM (Z.to_nat min_size) (copy_dim f ot nt)
       | [] => copy_move min_size
       end) ;;;
      (if min_size <? old_size then copy_drop ((old_size - min_size) * old_stride) else ret tt) ;;;
      timesM (Z.to_nat ((new_size - min_size) * new_stride)) (copy_new f)
  | _, _ => check false
  end.

(** raw_tensor.rs:129-143: the branch with a new vector.  When [copy_dim] unwinds, the guard drops
    the remaining old elements and the local [new_vec] its own; [vec] has length 0. *)
Definition resize_copy {T C} (al : allocator) (new_len : Z) (new_dims : list Z) (f : C -> call T C)
  : M (parts T C) unit :=
  fun p =>
    if al_ok al new_len
    then match copy_dim f (p_dims p) new_dims
                 (mkCopy (p_items p) [] (Z.max new_len (al_grow al 0 new_len)) (p_w p)) with
         | Done _ c => Done tt (mkParts (c_new c) (c_cap c) (p_dims p) (w_drop (c_old c) (c_w c)))
         | Unwound c => Unwound (mkParts [] (p_cap p) (p_dims p) (w_drop (c_old c ++ c_new c) (c_w c)))
         | Aborted => Aborted
         | Fault => Fault
         end
    else Unwound p.

(** raw_tensor.rs:111-151 [resize_with]; tensor.rs:294-308. *)
Definition tn_resize_with {T C} (al : allocator) (new_dims : list Z) (f : C -> call T C)
  : M (tensor T * world T C) unit :=
  fun s =>
    (check (length new_dims =? length (tn_dims (fst s)))%nat ;;;
     match new_dims with
     | [] => ret tt
     | _ :: _ =>
         match sh_checked_len new_dims with
         | None => check false
         | Some new_len =>
             with_mut_parts (fun ty =>
               (fun p => (if new_len =? 0 then vec_truncate 0
                          else if slice_eqb (tl new_dims) (tl (p_dims p)) then vec_resize_with al new_len f
                          else resize_copy al new_len new_dims f) p) ;;;
               p_store ty new_dims)
         end
     end) s.

(** tensor.rs:294-300 [resize]: the closure clones [value], which is dropped at the end. *)
Definition tn_resize {T C} (al : allocator) (new_dims : list Z) (value : T) (clone : T -> C -> call T C)
  : M (tensor T * world T C) unit :=
  fun s =>
    match tn_resize_with al new_dims (clone value) (fst s, mkWorld (w_clo (snd s)) (w_made (snd s) ++ [value])
                                                     (w_used (snd s)) (w_dropped (snd s))) with
    | Done a (t, w) => Done a (t, w_drop [value] w)
    | Unwound (t, w) => Unwound (t, w_drop [value] w)
    | Aborted => Aborted
    | Fault => Fault
    end.

(** *** Drain: buffer.rs:32-83 *)

(** The tensor being drained and the moved-out range.  [d_mem] are the cells of the allocation that
    held elements; those of the range are [ManuallyDrop].  [d_index] belongs to [IntoExpr]. *)
Record drain (T : Type) : Type := mkDrain {
  d_ty : shty;
  d_dims : list Z;          (* mapping of the tensor: the rows before the range *)
  d_mem : list T;
  d_cap : Z;
  d_ptr : Z;                (* view: first cell *)
  d_view : list Z;          (* view: dimensions *)
  d_new_size : Z;
  d_tail : Z;
  d_index : Z
}.
Arguments mkDrain {T} _ _ _ _ _ _ _ _ _.
Arguments d_ty {T} _.
Arguments d_dims {T} _.
Arguments d_mem {T} _.
Arguments d_cap {T} _.
Arguments d_ptr {T} _.
Arguments d_view {T} _.
Arguments d_new_size {T} _.
Arguments d_tail {T} _.
Arguments d_index {T} _.

(** buffer.rs:41-58 [Drain::new]; [Axis::resize] is [ax_resize_map] of Index.v. *)
Definition drain_new {T} (t : tensor T) (start stop : Z) : outcome (drain T) :=
  let size := nth 0 (tn_dims t) 0 in
  let* _ := assert ((start <=? stop) && (stop <=? size)) in
  let new_size := size - (stop - start) in
  let* tail := ax_resize_map (AxConst 0) (DenseM (tn_ty t) (tn_dims t)) (new_size - start) in
  let* dims := sh_resize_dim (tn_ty t) (tn_dims t) 0 start in
  let* vdims := sh_resize_dim (tn_ty t) dims 0 (stop - start) in
  Ok (mkDrain (tn_ty t) dims (tn_mem t) (tn_cap t) (sh_len dims) vdims new_size (m_len tail) 0).

(** tensor.rs:99-109 [drain]. *)
Definition tn_drain {T} (t : tensor T) (lo hi : bound) : outcome (drain T) :=
  let* _ := assert (0 <? length (tn_dims t))%nat in
  let* _ := assert (head_dyn (tn_ty t)) in
  let* (a, b) := ix_range lo hi (nth 0 (tn_dims t) 0) in
  drain_new t a b.

(** into_expr.rs:90-98 [get_unchecked] on the buffer. *)
Definition drain_take {T} (d : drain T) : outcome (T * drain T) :=
  if d_index d <? sh_len (d_view d)
  then match nth_error (d_mem d) (Z.to_nat (d_ptr d + d_index d)) with
       | Some x => Ok (x, mkDrain (d_ty d) (d_dims d) (d_mem d) (d_cap d) (d_ptr d) (d_view d) (d_new_size d)
                            (d_tail d) (d_index d + 1))
       | None => UB
       end
  else UB.

(** The expression [IntoExpr<Drain>] seen by its consumer: into_expr.rs:81-106. *)
Definition e_drain {T} (d : drain T) : expression T :=
  mkExpr (drain T) d (d_ty d) (d_view d) None false
    (fun _ s => drain_take s) (fun _ _ s => Ok s) (fun _ s => Ok s).

(** A slice of the cells. *)
Definition cells {T} (mem : list T) (pos len : Z) : list T :=
  firstn (Z.to_nat len) (skipn (Z.to_nat pos) mem).

(** [ptr::copy] of [n] cells from [src] to [dst]. *)
Definition copy_cells {T} (mem : list T) (src dst n : Z) : option (list T) :=
  if (src + n <=? zlen mem) && (dst + n <=? zlen mem) && (0 <=? src) && (0 <=? dst) && (0 <=? n)
  then Some (firstn (Z.to_nat dst) mem ++ cells mem src n ++ skipn (Z.to_nat (dst + n)) mem)
  else None.

(** into_expr.rs:70-79 and buffer.rs:74-83: dropping the expression drops the elements not taken,
    moves the tail down and restores the mapping.  Cells beyond the new length are free. *)
Definition drain_drop {T C} (d : drain T) (w : world T C) : result (tensor T * world T C) unit :=
  let left := sh_len (d_view d) - d_index d in
  if (0 <=? left) && (d_ptr d + sh_len (d_view d) <=? zlen (d_mem d))
  then match sh_resize_dim (d_ty d) (d_dims d) 0 (d_new_size d) with
       | Ok dims =>
           match copy_cells (d_mem d) (d_ptr d + sh_len (d_view d)) (d_ptr d) (d_tail d) with
           | Some mem =>
               if sh_len dims <=? zlen mem
               then Done tt (mkTensor (d_ty d) dims (firstn (Z.to_nat (sh_len dims)) mem) (d_cap d),
                             w_drop (cells (d_mem d) (d_ptr d + d_index d) left) w)
               else Fault
           | None => Fault
           end
       | Panic => Aborted
       | _ => Fault
       end
  else Fault.

(** Forgetting the expression leaves the tensor with the mapping set by [Drain::new]; the elements
    behind it are never dropped. *)
Definition drain_leak {T} (d : drain T) : option (tensor T) :=
  if sh_len (d_dims d) <=? zlen (d_mem d)
  then Some (mkTensor (d_ty d) (d_dims d) (firstn (Z.to_nat (sh_len (d_dims d))) (d_mem d)) (d_cap d))
  else None.

(** [k] elements taken. *)
Fixpoint drain_takes {T} (k : nat) (d : drain T) : outcome (list T * drain T) :=
  match k with
  | O => Ok ([], d)
  | S k => let* (x, d) := drain_take d in let* (xs, d) := drain_takes k d in Ok (x :: xs, d)
  end.

(** tensor.rs:63-65 [append]: the drained rows are moved into [self]; the expression is dropped when
    [expand] is left, normally or by unwinding.  The closure state counts the elements moved, which
    is the index of [IntoExpr]. *)
Definition tn_append {T C} (al : allocator) : M (tensor T * tensor T * world T C) unit :=
  fun s =>
    let '(self, other, w) := s in
    match tn_drain other Unbounded Unbounded with
    | Ok d =>
        let finish (unwinding : bool) (self : tensor T) (n : Z) (dropped : list T) :=
          let d := mkDrain (d_ty d) (d_dims d) (d_mem d) (d_cap d) (d_ptr d) (d_view d) (d_new_size d) (d_tail d) n in
          match drain_drop d (mkWorld (w_clo w) (w_made w) (w_used w) dropped) with
          | Done _ (other, w) => if unwinding then Unwound (self, other, w) else Done tt (self, other, w)
          | Unwound (other, w) => Unwound (self, other, w)
          | Aborted => Aborted
          | Fault => Fault
          end in
        match tn_expand al (e_drain d) (fun x n => Gives x (n + 1)) (self, mkWorld 0 [] [] (w_dropped w)) with
        | Done _ (self, w') => finish false self (w_clo w') (w_dropped w')
        | Unwound (self, w') => finish true self (w_clo w') (w_dropped w')
        | Aborted => Aborted
        | Fault => Fault
        end
    | Panic => Unwound s
    | _ => Fault
    end.

(** *** Clone: raw_tensor.rs:286-299 *)

(** [Vec::clone]; when a clone panics the ones made so far are dropped. *)
Fixpoint clone_items {T C} (clone : T -> C -> call T C) (done xs : list T) : M (world T C) (list T) :=
  match xs with
  | [] => ret done
  | x :: xt => fun w =>
      match clone x (w_clo w) with
      | Gives y c => clone_items clone (done ++ [y]) xt (w_make c y w)
      | Throws c => Unwound (w_drop done (w_set c w))
      end
  end.

(** The clone and the source. *)
Definition tn_clone {T C} (clone : T -> C -> call T C) (t : tensor T) : M (world T C) (tensor T) :=
  match to_vec_raw t with
  | None => fun _ => Fault
  | Some items =>
      ys <- clone_items clone [] items ;; from_parts (tn_ty t) (tn_dims t) ys (zlen ys)
  end.

(** [clone_from_slice] inside [Vec::clone_from]: element [i] of [dst] is replaced by a clone of
    element [i] of [src]; the old value is dropped. *)
Fixpoint assign_loop {T C} (clone : T -> C -> call T C) (i : nat) (src : list T) : M (parts T C) unit :=
  match src with
  | [] => ret tt
  | x :: xt =>
      y <- vec_call (clone x) ;;
      (fun p => match nth_error (p_items p) i with
                | Some old => Done tt (mkParts (upd (p_items p) i y) (p_cap p) (p_dims p) (w_drop [old] (p_w p)))
                | None => Fault
                end) ;;;
      assign_loop clone (S i) xt
  end.

(** [Vec::clone_from]: truncate, overwrite the common prefix, push clones of the rest. *)
Definition vec_clone_from {T C} (al : allocator) (clone : T -> C -> call T C) (src : list T) : M (parts T C) unit :=
  vec_truncate (zlen src) ;;;
  fun p =>
    let n := length (p_items p) in
    (assign_loop clone 0 (firstn n src) ;;;
     vec_reserve al (zlen (skipn n src)) ;;;
     clone_loop clone (skipn n src)) p.

(** raw_tensor.rs:291-298 [clone_from]; tensor.rs:895-905 [clone_from_slice] (the source is any slice
    with items [src] and dimensions [dims] of the same shape type). *)
Definition tn_clone_from {T C} (al : allocator) (clone : T -> C -> call T C) (src : list T) (dims : list Z)
  : M (tensor T * world T C) unit :=
  with_mut_parts (fun _ => vec_clone_from al clone src ;;; p_set_dims dims).

(** *** Conversions *)

(** The state after [self] was consumed: the world only. *)

(** tensor.rs:256-260 [into_vec]. *)
Definition tn_into_vec {T S} (t : tensor T) : M S (list T * Z) :=
  match to_vec_raw t with Some items => ret (items, tn_cap t) | None => fun _ => Fault end.

(** tensor.rs:742-748 [From<Vec>]; 195-198 [into_flat]. *)
Definition tn_from_vec {T S} (items : list T) (cap : Z) : M S (tensor T) :=
  from_parts (STuple [DDyn]) [zlen items] items cap.
Definition tn_into_flat {T S} (t : tensor T) : M S (tensor T) :=
  x <- tn_into_vec t ;; tn_from_vec (fst x) (snd x).

(** A panic while a vector is a local variable drops its elements. *)
Definition owning {T C A} (items : list T) (m : M (world T C) A) : M (world T C) A :=
  fun w => match m w with Unwound w' => Unwound (w_drop items w') | r => r end.

(** tensor.rs:205-209 [into_mapping], 191-193 [into_dyn]; 249-253 [into_shape]. *)
Definition tn_into_mapping {T C} (ty : shty) (t : tensor T) : M (world T C) (tensor T) :=
  x <- tn_into_vec t ;;
  m <- owning (fst x) (lift (m_remap Dense ty (DenseM (tn_ty t) (tn_dims t)))) ;;
  from_parts ty (m_dims m) (fst x) (snd x).
Definition tn_into_dyn {T C} (t : tensor T) : M (world T C) (tensor T) := tn_into_mapping SDynRank t.
Definition tn_into_shape {T C} (ty : shty) (dims : list Z) (t : tensor T) : M (world T C) (tensor T) :=
  x <- tn_into_vec t ;;
  m <- owning (fst x) (lift (m_reshape (DenseM (tn_ty t) (tn_dims t)) ty dims)) ;;
  from_parts ty (m_dims m) (fst x) (snd x).

(** tensor.rs:225-229 [into_scalar]; [pop().unwrap()] takes the last element. *)
Definition tn_into_scalar {T C} (t : tensor T) : M (world T C) T :=
  fun w =>
    if tn_len t =? 1
    then match to_vec_raw t with
         | Some items => match rev items with x :: _ => Done x w | [] => Unwound w end
         | None => Fault
         end
    else match to_vec_raw t with
         | Some items => Unwound (w_drop items w)
         | None => Fault
         end.

(** tensor.rs:401-408 [from_expr]: elements come from the expression.  The vector is a local variable. *)
Definition tn_from_expr {T C} (al : allocator) (e : expression T) : M (world T C) (tensor T) :=
  fun w =>
    let len := sh_len (e_dims e) in
    if (len =? 0) || al_ok al len
    then match clone_into_vec e moved (mkParts [] (if len =? 0 then 0 else Z.max len (al_grow al 0 len)) [] w) with
         | Done _ p => from_parts (e_ty e) (e_dims e) (p_items p) (p_cap p) (p_w p)
         | Unwound p => Unwound (w_drop (p_items p) (p_w p))
         | Aborted => Aborted
         | Fault => Fault
         end
    else Unwound w.

(** tensor.rs:512-516, 523-527 [new], [with_capacity]. *)
Definition tn_with_capacity {T C} (al : allocator) (ty : shty) (cap : Z) : M (world T C) (tensor T) :=
  check (match sh_checked_len (sh_default ty) with Some n => n =? 0 | None => false end) ;;;
  (if (cap =? 0) || al_ok al cap
   then from_parts ty (sh_default ty) [] (if cap =? 0 then 0 else Z.max cap (al_grow al 0 cap))
   else fun w => Unwound w).

(** *** [zip_with], [map]: tensor.rs:427-469, 263-265 *)

(** The elements are read out and written back one by one; [z_index] is the guard's counter. *)
Record zipping (T C : Type) : Type := mkZip {
  z_mem : list T;
  z_index : Z;
  z_w : world T C
}.
Arguments mkZip {T C} _ _ _.
Arguments z_mem {T C} _.
Arguments z_index {T C} _.
Arguments z_w {T C} _.

(** tensor.rs:459-462: the closure on the items; an item is an address and the other operand. *)
Fixpoint zip_loop {T Y C} (f : T * Y -> C -> call T C) (ps : list (Z * Y)) : M (zipping T C) unit :=
  match ps with
  | [] => ret tt
  | (addr, y) :: pt => fun z =>
      let index := z_index z + 1 in
      match nth_error (z_mem z) (Z.to_nat addr) with
      | None => Fault
      | Some x =>
          let w := w_use x (z_w z) in
          match f (x, y) (w_clo w) with
          | Gives r c => zip_loop f pt (mkZip (upd (z_mem z) (Z.to_nat addr) r) index (w_make c r w))
          | Throws c => Unwound (mkZip (z_mem z) index (w_set c w))
          end
      end
  end.

(** tensor.rs:436-454: the drop guard. *)
Definition zip_guard {T C} (z : zipping T C) : result (world T C) (tensor T) :=
  let tail := zlen (z_mem z) - z_index z in
  if 0 <=? tail
  then Unwound (w_drop (skipn (Z.to_nat (z_index z)) (z_mem z))
                  (if 1 <? z_index z then w_drop (firstn (Z.to_nat (z_index z - 1)) (z_mem z)) (z_w z) else z_w z))
  else Fault.

Definition tn_zip_with {T Y C} (e : expression Y) (f : T * Y -> C -> call T C) (t : tensor T)
  : M (world T C) (tensor T) :=
  fun w =>
    match to_vec_raw t with
    | None => Fault
    | Some items =>
        match e_zip (e_view (zlen items) false (whole (tn_ty t) (tn_dims t))) e with
        | Ok z =>
            match (zip_loop f (fst (e_trace z)) ;;; lift (snd (e_trace z))) (mkZip items 0 w) with
            | Done _ z => from_parts (tn_ty t) (tn_dims t) (z_mem z) (tn_cap t) (z_w z)
            | Unwound z => zip_guard z
            | Aborted => Aborted
            | Fault => Fault
            end
        | Panic => zip_guard (mkZip items 0 w)
        | _ => Fault
        end
    end.

Definition tn_map {T C} (f : T -> C -> call T C) (t : tensor T) : M (world T C) (tensor T) :=
  tn_zip_with (e_fill (fun s : unit => Ok (tt, s)) tt) (fun p => f (fst p)) t.

(** *** Arrays: array.rs:67-99 [from_expr]; 140-149 [map], [zip_with] *)

(** The uninitialized array of [n] elements: the written front and the guard's counter, which are
    in step.  [take] is what happens to an item before it is written (the closure of [map]). *)
Fixpoint fill_array {T Y C} (n : Z) (take : Y -> M (world T C) T) (ys : list Y)
  : M (list T * world T C) unit :=
  match ys with
  | [] => ret tt
  | y :: yt => fun s =>
      match take y (snd s) with
      | Done x w =>
          if zlen (fst s) <? n then fill_array n take yt (fst s ++ [x], w) else Fault
      | Unwound w => Unwound (fst s, w)
      | Aborted => Aborted
      | Fault => Fault
      end
  end.

(** The elements written, or the drops of the guard.  [ds] are the dimensions of the shape.  [for_each]
    owns the expression and drops it, with the elements [rest w] still in it, before the guard. *)
Definition array_fill {T Y C} (ds : list dimty) (dims : list Z) (take : Y -> M (world T C) T)
    (trace : list Y * outcome unit) (rest : world T C -> list T) : M (world T C) (list T) :=
  fun w =>
    match sh_from_dims (STuple ds) dims with
    | Ok _ =>
        let n := sh_len (map dim_default ds) in
        match (fill_array n take (fst trace) ;;; lift (snd trace)) ([], w) with
        | Done _ (xs, w) => if zlen xs =? n then Done xs (w_drop (rest w) w) else Fault
        | Unwound (xs, w) => Unwound (w_drop (rest w ++ xs) w)
        | Aborted => Aborted
        | Fault => Fault
        end
    | Panic => Unwound (w_drop (rest w) w)
    | _ => Fault
    end.

(** array.rs:67-99 for an expression giving elements. *)
Definition ar_from_expr {T C} (ds : list dimty) (e : expression T) : M (world T C) (list T) :=
  array_fill ds (e_dims e) (fun x => fun w => Done x (w_make (w_clo w) x w)) (e_trace e) (fun _ => []).

(** [S::default().checked_len().expect("invalid length")] in [Deref], [DerefMut] and [into_expr]:
    array.rs:211-227, 317-328. *)
Definition ar_length (ds : list dimty) : outcome Z :=
  match sh_checked_len (map dim_default ds) with Some n => Ok n | None => Panic end.

(** array.rs:144-149 [zip_with] of an owned array with elements [l]: [into_expr().zip(expr).map(f)].
    An element is moved out of the buffer, then the other operand is computed, then [f] is called with
    both.  At the end, or during unwinding, [IntoExpr] drops the elements not moved out; an element
    moved out but not yet given to [f] is a local of [Zip::get_unchecked] and dropped as well.
    (Input and output element types are taken to be the same; use their sum if they differ.) *)
Definition ar_zip_with {T Y C} (ds : list dimty) (l : list T) (e : expression Y) (f : T * Y -> C -> call T C)
  : M (world T C) (list T) :=
  fun w =>
    let dims := map dim_default ds in
    match (let* _ := ar_length ds in e_zip (e_into (STuple ds) dims l) e) with
    | Ok z =>
        let take (p : T * Y) : M (world T C) T := fun w =>
          match f p (w_clo w) with
          | Gives r c => Done r (w_make c r (w_use (fst p) w))
          | Throws c => Unwound (w_set c (w_use (fst p) w))
          end in
        let given (w' : world T C) := (length (w_used w') - length (w_used w))%nat in
        array_fill ds (e_dims z) take (e_trace z) (fun w' => skipn (given w') l) w
    | Panic => Unwound (w_drop l w)
    | _ => Fault
    end.
(** array.rs:140-142 [apply], 63-65 [map]: [into_expr().map(f)]. *)
Definition ar_map {T C} (ds : list dimty) (l : list T) (f : T -> C -> call T C) : M (world T C) (list T) :=
  fun w =>
    let e := e_into (STuple ds) (map dim_default ds) l in
    let take (x : T) : M (world T C) T := fun w =>
      match f x (w_clo w) with
      | Gives r c => Done r (w_make c r (w_use x w))
      | Throws c => Unwound (w_set c (w_use x w))
      end in
    let given (w' : world T C) := (length (w_used w') - length (w_used w))%nat in
    match ar_length ds with
    | Ok _ => array_fill ds (e_dims e) take (e_trace e) (fun w' => skipn (given w') l) w
    | _ => Unwound (w_drop l w)
    end.
