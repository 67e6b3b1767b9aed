(** Fixed-size arrays, [src/array.rs], with machine integers: [dbg] is a build with overflow checks and debug
    assertions, otherwise the arithmetic wraps.  The definitions are those of [Tensor.v], [Serde.v] and [Ops.v] with the
    iteration of [MachineIter.v].  The size of the array itself is a matter of its type and stays exact. *)
From Verif Require Import Base Spec Shape Mapping Index View Expr Tensor Ops Serde Machine MachineIter MachineTensor MachineSerde.

(** array.rs:88-91: [ptr.add(guard.index).write(x); guard.index += 1].  The state: what has been written, from the
    front, and the guard's counter. *)
Fixpoint x_fill_array (dbg : bool) {T Y C} (n : Z) (take : Y -> M (world T C) T) (ys : list Y)
  : M (list T * Z * world T C) unit :=
  match ys with
  | [] => ret tt
  | y :: yt => fun s =>
      let '(xs, index, w) := s in
      match take y w with
      | Done x w =>
          if index <? n
          then
            let xs := if index =? zlen xs then xs ++ [x] else upd xs (Z.to_nat index) x in
            match u_res dbg (index + 1) with
            | Ok index => x_fill_array dbg n take yt (xs, index, w)
            | Panic => Unwound (xs, index, w)
            | _ => Fault
            end
          else Fault
      | Unwound w => Unwound (xs, index, w)
      | Aborted => Aborted
      | Fault => Fault
      end
  end.

(** array.rs:67-99 [from_expr]; 73-80: the guard drops as many elements as it has counted. *)
Definition x_array_fill (dbg : bool) {T Y C} (ds : list dimty) (dims : list Z) (take : Y -> M (world T C) T)
    (trace : list Y * outcome unit) (rest : world T C -> list T) : M (world T C) (list T) :=
  fun w =>
    match sh_from_dims (STuple ds) dims with
    | Ok _ =>
        let n := sh_len (map dim_default ds) in
        match (x_fill_array dbg n take (fst trace) ;;; lift (snd trace)) ([], 0, w) with
        | Done _ (xs, _, w) => if zlen xs =? n then Done xs (w_drop (rest w) w) else Fault
        | Unwound (xs, index, w) => Unwound (w_drop (rest w ++ firstn (Z.to_nat index) xs) w)
        | Aborted => Aborted
        | Fault => Fault
        end
    | Panic => Unwound (w_drop (rest w) w)
    | _ => Fault
    end.

(** array.rs:67-99 for an expression giving elements. *)
Definition xr_from_expr (dbg : bool) {T C} (ds : list dimty) (e : expression T) : M (world T C) (list T) :=
  x_array_fill dbg ds (e_dims e) (fun x => fun w => Done x (w_make (w_clo w) x w)) (x_trace dbg e) (fun _ => []).

(** array.rs:144-149 [zip_with] of an owned array; [checked_len] (array.rs:321) does not wrap in any build. *)
Definition xr_zip_with (dbg : bool) {T Y C} (ds : list dimty) (l : list T) (e : expression Y) (f : T * Y -> C -> call T C)
  : M (world T C) (list T) :=
  fun w =>
    let dims := map dim_default ds in
    match (let* _ := ar_length ds in e_zip (x_into dbg (STuple ds) dims l) e) with
    | Ok z =>
        let take (p : T * Y) : M (world T C) T := fun w =>
          match f p (w_clo w) with
          | Gives r c => Done r (w_make c r (w_use (fst p) w))
          | Throws c => Unwound (w_set c (w_use (fst p) w))
          end in
        let given (w' : world T C) := (length (w_used w') - length (w_used w))%nat in
        x_array_fill dbg ds (e_dims z) take (x_trace dbg z) (fun w' => skipn (given w') l) w
    | Panic => Unwound (w_drop l w)
    | _ => Fault
    end.

(** array.rs:140-142 [apply], 63-65 [map]. *)
Definition xr_map (dbg : bool) {T C} (ds : list dimty) (l : list T) (f : T -> C -> call T C) : M (world T C) (list T) :=
  fun w =>
    let e := x_into dbg (STuple ds) (map dim_default ds) l in
    let take (x : T) : M (world T C) T := fun w =>
      match f x (w_clo w) with
      | Gives r c => Done r (w_make c r (w_use x w))
      | Throws c => Unwound (w_set c (w_use x w))
      end in
    let given (w' : world T C) := (length (w_used w') - length (w_used w))%nat in
    match ar_length ds with
    | Ok _ => x_array_fill dbg ds (e_dims e) take (x_trace dbg e) (fun w' => skipn (given w') l) w
    | _ => Unwound (w_drop l w)
    end.

(** array.rs:229-233 [From<Tensor<T, S>> for Array<T, S>]. *)
Definition xr_from_tensor (dbg : bool) {T C} (ds : list dimty) (t : tensor T) : M (world T C) (list T) :=
  owning (tn_mem t) (x_array_fill dbg ds (tn_dims t) (fun x w => Done x w)
                       (x_trace dbg (x_into dbg (tn_ty t) (tn_dims t) (tn_mem t))) (fun _ => [])).

(** serde.rs:89-99. *)
Definition xr_deserialize (dbg : bool) {T C E} (al : allocator) (de : sdata E -> C -> call (option T) C) (ds : list dimty)
    (v : sdata E) : M (world T C) (option (list T)) :=
  match ds with
  | [] => r <- de_elem de v ;; match r with Some x => ret (Some [x]) | None => ret None end
  | _ =>
      r <- x_de_tensor dbg al de ds v ;;
      match r with
      | Some t => l <- xr_from_tensor dbg ds t ;; ret (Some l)
      | None => ret None
      end
  end.

(** ops.rs:221-230: an operator with an owned array on the left; 144-348: on the right; 412-616: with one operand. *)
Definition xr_op_array (dbg : bool) {T B C : Type} (op : T -> B -> C -> call T C) (ds : list dimty) (lhs : list T)
    (rhs : expression B) : M (world T C) (list T) :=
  xr_zip_with dbg ds lhs rhs (fun p => op (fst p) (snd p)).
Definition xr_op_expr (dbg : bool) {A T C : Type} (op : A -> T -> C -> call T C) (lhs : expression A)
    (ds : list dimty) (rhs : list T) : M (world T C) (list T) :=
  xr_zip_with dbg ds rhs lhs (fun p => op (snd p) (fst p)).
Definition xr_neg (dbg : bool) {T C : Type} (op : T -> C -> call T C) (ds : list dimty) (l : list T)
  : M (world T C) (list T) := xr_map dbg ds l op.
