(** Model of the parts of [src/expr/into_expr.rs] not needed before: cloning a consuming expression;
    of copying subarrays ([src/slice.rs]) and of the [nightly] form of the guard of
    [src/raw_tensor.rs]. *)
From Verif Require Import Base Spec Shape Mapping Index View Wf Expr Tensor.

(** ** Cloning [IntoExpr]

    into_expr.rs:11-14: the buffer of [IntoExpr<Tensor<ManuallyDrop<T>, S>>] and the number of elements
    already moved out.  The elements of the buffer are wrapped in [ManuallyDrop]: neither [Vec] nor an
    assignment drops them. *)
Record into (T : Type) : Type := mkInto { in_buf : tensor T; in_index : Z }.
Arguments mkInto {T} _ _.
Arguments in_buf {T} _.
Arguments in_index {T} _.

(** [Vec<ManuallyDrop<T>>::clone]: when a clone panics the vector with the clones made so far is
    dropped, which does not drop its elements. *)
Fixpoint clone_kept {T C} (clone : T -> C -> call T C) (done xs : list T) : M (world T C) (list T) :=
  fun w =>
    match xs with
    | [] => Done done w
    | x :: xt =>
        match clone x (w_clo w) with
        | Gives y c => clone_kept clone (done ++ [y]) xt (w_make c y w)
        | Throws c => Unwound (w_set c w)
        end
    end.

(** into_expr.rs:45-49 [clone]; raw_tensor.rs:287-289. *)
Definition in_clone {T C} (clone : T -> C -> call T C) (e : into T) : M (world T C) (into T) :=
  check (in_index e =? 0) ;;;
  match to_vec_raw (in_buf e) with
  | None => fun _ => Fault
  | Some items =>
      ys <- clone_kept clone [] items ;;
      t <- from_parts (tn_ty (in_buf e)) (tn_dims (in_buf e)) ys (zlen ys) ;;
      ret (mkInto t 0)
  end.

(** [Vec<ManuallyDrop<T>>::clone_from]: [truncate] and the assignments of [clone_from_slice]
    ([ManuallyDrop] derives [Clone], so [clone_from] is [*self = source.clone()]) drop nothing. *)
Fixpoint assign_kept {T C} (clone : T -> C -> call T C) (i : nat) (src : list T) : M (parts T C) unit :=
  match src with
  | [] => ret tt
  | x :: xt =>
      y <- vec_call (clone x) ;;
      (fun p => match nth_error (p_items p) i with
                | Some _ => Done tt (mkParts (upd (p_items p) i y) (p_cap p) (p_dims p) (p_w p))
                | None => Fault
                end) ;;;
      assign_kept clone (S i) xt
  end.
Definition vec_clone_from_kept {T C} (al : allocator) (clone : T -> C -> call T C) (src : list T)
  : M (parts T C) unit :=
  (fun p => Done tt (mkParts (firstn (length src) (p_items p)) (p_cap p) (p_dims p) (p_w p))) ;;;
  fun p =>
    let n := length (p_items p) in
    (assign_kept clone 0 (firstn n src) ;;;
     vec_reserve al (zlen (skipn n src)) ;;;
     clone_loop clone (skipn n src)) p.

(** raw_tensor.rs:162-208 [with_mut_parts] for a tensor of [ManuallyDrop<T>]: [drop_in_place] of the
    guard drops nothing either. *)
Definition with_mut_parts_kept {T C A} (m : shty -> M (parts T C) A) : M (tensor T * world T C) A :=
  fun s =>
    let (t, w) := s in
    match to_vec_raw t with
    | None => Fault
    | Some items =>
        match m (tn_ty t) (mkParts items (tn_cap t) (tn_dims t) w) with
        | Done a p =>
            if zlen (p_items p) =? sh_len (p_dims p)
            then Done a (mkTensor (tn_ty t) (p_dims p) (p_items p) (p_cap p), p_w p)
            else Fault
        | Unwound p =>
            if zlen (p_items p) =? sh_len (p_dims p)
            then Unwound (mkTensor (tn_ty t) (p_dims p) (p_items p) (p_cap p), p_w p)
            else if sh_len (sh_default (tn_ty t)) =? 0
                 then Unwound (mkTensor (tn_ty t) (sh_default (tn_ty t)) [] (p_cap p), p_w p)
                 else Aborted
        | Aborted => Aborted
        | Fault => Fault
        end
    end.

(** into_expr.rs:51-55 [clone_from]; raw_tensor.rs:291-298. *)
Definition in_clone_from {T C} (al : allocator) (clone : T -> C -> call T C) (src : into T)
  : M (into T * world T C) unit :=
  fun s =>
    let (e, w) := s in
    if (in_index e =? 0) && (in_index src =? 0)
    then match with_mut_parts_kept (fun _ =>
                 vec_clone_from_kept al clone (tn_mem (in_buf src)) ;;; p_set_dims (tn_dims (in_buf src)))
               (in_buf e, w) with
         | Done a (t, w) => Done a (mkInto t (in_index e), w)
         | Unwound (t, w) => Unwound (mkInto t (in_index e), w)
         | Aborted => Aborted
         | Fault => Fault
         end
    else Unwound s.

(** into_expr.rs:70-79: dropping the expression. *)
Definition in_drop {T C} (e : into T) : M (world T C) unit :=
  fun w =>
    if (zlen (tn_mem (in_buf e)) =? tn_len (in_buf e)) && (in_index e <=? tn_len (in_buf e))
    then Done tt (w_drop (into_dropped (tn_mem (in_buf e)) (in_index e)) w)
    else Fault.

(** into_expr.rs:81-106: the expression that iteration uses. *)
Definition in_expr {T} (e : into T) : expression T :=
  e_into (tn_ty (in_buf e)) (tn_dims (in_buf e)) (tn_mem (in_buf e)).

(** ** Copies of subarrays *)

(** [T::clone] on a referenced element, as the closure of [cloned()]: [addr] is the reference. *)
Definition clone_at {T C} (mem : list T) (clone : T -> C -> outcome (T * C)) (addr : Z) (c : C) : outcome (T * C) :=
  let* x := read mem addr in clone x c.

(** slice.rs:607-615 [to_tensor], 885-891 [to_owned] for shapes whose owned array is a tensor: [self.into_expr().cloned()]. *)
Definition v_cloned {T C} (mem : list T) (clone : T -> C -> outcome (T * C)) (c0 : C) (v : view) : expression T :=
  e_cloned (clone_at mem clone) c0 (e_view (zlen mem) true v).
Definition v_to_tensor {T C W} (al : allocator) (mem : list T) (clone : T -> C -> outcome (T * C)) (c0 : C) (v : view)
  : M (world T W) (tensor T) :=
  tn_from_expr al (v_cloned mem clone c0 v).

(** slice.rs:680-688 [tensor(..)]: [self.view(..).to_tensor()]. *)
Definition v_tensor {T C W} (al : allocator) (mem : list T) (clone : T -> C -> outcome (T * C)) (c0 : C) (v : view)
    (ix : list dim_index) : M (world T W) (tensor T) :=
  w <- lift (v_view v ix) ;; v_to_tensor al mem clone c0 w.

(** slice.rs:598-605 [to_array], 664-673 [array(..)]; [ds] are the constants of the result's shape type. *)
Definition v_to_array {T C W} (ds : list dimty) (mem : list T) (clone : T -> C -> outcome (T * C)) (c0 : C) (v : view)
  : M (world T W) (list T) :=
  ar_from_expr ds (v_cloned mem clone c0 v).
Definition v_array {T C W} (ds : list dimty) (mem : list T) (clone : T -> C -> outcome (T * C)) (c0 : C) (v : view)
    (ix : list dim_index) : M (world T W) (list T) :=
  w <- lift (v_view v ix) ;; v_to_array ds mem clone c0 w.

(** ** The [nightly] feature *)

(** raw_tensor.rs:210-259 [with_mut_parts] under [cfg(feature = "nightly")]: the guard does not check
    that the default shape is empty.  The allocator moves along and is not modelled. *)
Definition with_mut_parts_nightly {T C A} (m : shty -> M (parts T C) A) : M (tensor T * world T C) A :=
  fun s =>
    let (t, w) := s in
    match to_vec_raw t with
    | None => Fault
    | Some items =>
        match m (tn_ty t) (mkParts items (tn_cap t) (tn_dims t) w) with
        | Done a p =>
            if zlen (p_items p) =? sh_len (p_dims p)
            then Done a (mkTensor (tn_ty t) (p_dims p) (p_items p) (p_cap p), p_w p)
            else Fault
        | Unwound p =>
            if zlen (p_items p) =? sh_len (p_dims p)
            then Unwound (mkTensor (tn_ty t) (p_dims p) (p_items p) (p_cap p), p_w p)
            else Unwound (mkTensor (tn_ty t) (sh_default (tn_ty t)) [] (p_cap p), w_drop (p_items p) (p_w p))
        | Aborted => Aborted
        | Fault => Fault
        end
    end.

(** raw_tensor.rs:111-151 [resize_with] on top of it. *)
Definition tn_resize_with_nightly {T C} (al : allocator) (new_dims : list Z) (f : C -> call T C)
  : M (tensor T * world T C) unit :=
  fun s =>
    (check (length new_dims =? length (tn_dims (fst s)))%nat ;;;
     match new_dims with
     | [] => ret tt
     | _ :: _ =>
         match sh_checked_len new_dims with
         | None => check false
         | Some new_len =>
             with_mut_parts_nightly (fun ty =>
               (fun p => (if new_len =? 0 then vec_truncate 0
                          else if slice_eqb (tl new_dims) (tl (p_dims p)) then vec_resize_with al new_len f
                          else resize_copy al new_len new_dims f) p) ;;;
               p_store ty new_dims)
         end
     end) s.

(** raw_tensor.rs:312-319: dropping a tensor drops [mapping.len()] elements from the front of the
    allocation. *)
Definition tn_drop {T C} (t : tensor T) : M (world T C) unit :=
  fun w => match to_vec_raw t with Some items => Done tt (w_drop items w) | None => Fault end.
