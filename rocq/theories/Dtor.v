(** The operations of [Tensor.v] once more, with destructors that may panic.

    [dtor x c] is the destructor of the element [x]; it may change what the program has captured
    ([c]) and may panic.  [ptr::drop_in_place] of a slice, and the destructor of [Vec], go on with
    the other elements after a panic and then pass the panic on; a second panic, or a panic while
    the stack is already unwinding, stops the process.  An element counts as dropped as soon as its
    destructor is called.  Only definitions that drop elements are repeated here; operands of
    [expand] and [zip_with] still have items without destructors. *)
From Verif Require Import Base Spec Shape Mapping Index View Wf Expr Tensor History.

(** Dropping elements one after the other: no panic, one panic, or the process stops. *)
Inductive drops (C : Type) : Type := Quiet (c : C) | Loud (c : C) | Twice.
Arguments Quiet {C} c.
Arguments Loud {C} c.
Arguments Twice {C}.

Section Dtor.
  Context {T C : Type} (dtor : T -> C -> call unit C) (al : allocator).

  (** [loud]: a panic is already under way. *)
  Fixpoint drop_seq (loud : bool) (xs : list T) (c : C) : drops C :=
    match xs with
    | [] => if loud then Loud c else Quiet c
    | x :: xt =>
        match dtor x c with
        | Gives _ c => drop_seq loud xt c
        | Throws c => if loud then Twice else drop_seq true xt c
        end
    end.

  (** The elements [xs] are dropped by code that has left everything in the state [k]. *)
  Definition dropping {S A} (xs : list T) (w : world T C) (a : A) (k : world T C -> S) : result S A :=
    match drop_seq false xs (w_clo w) with
    | Quiet c => Done a (k (w_drop xs (w_set c w)))
    | Loud c => Unwound (k (w_drop xs (w_set c w)))
    | Twice => Aborted
    end.
  (** The same while the stack is unwinding. *)
  Definition unwinding {S A} (xs : list T) (w : world T C) (k : world T C -> S) : result S A :=
    match drop_seq true xs (w_clo w) with
    | Loud c => Unwound (k (w_drop xs (w_set c w)))
    | _ => Aborted
    end.

  (** [Vec::truncate], [Vec::clear]: the length is set first. *)
  Definition vec_truncate_d (n : Z) : M (parts T C) unit :=
    fun p => dropping (skipn (Z.to_nat n) (p_items p)) (p_w p) tt
               (fun w => mkParts (firstn (Z.to_nat n) (p_items p)) (p_cap p) (p_dims p) w).

  (** [Vec::resize_with]. *)
  Definition vec_resize_with_d (n : Z) (f : C -> call T C) : M (parts T C) unit :=
    fun p =>
      if zlen (p_items p) <? n
      then (vec_reserve al (n - zlen (p_items p)) ;;;
            timesM (Z.to_nat (n - zlen (p_items p))) (x <- vec_call f ;; vec_write x)) p
      else vec_truncate_d n p.

  (** raw_tensor.rs:162-208 [with_mut_parts]: the guard stores the default mapping before it drops. *)
  Definition with_mut_parts_d {A} (m : shty -> M (parts T C) A) : M (tensor T * world T C) A :=
    fun s =>
      let (t, w) := s in
      match to_vec_raw t with
      | None => Fault
      | Some items =>
          match m (tn_ty t) (mkParts items (tn_cap t) (tn_dims t) w) with
          | Done a p =>
              if zlen (p_items p) =? sh_len (p_dims p)
              then Done a (mkTensor (tn_ty t) (p_dims p) (p_items p) (p_cap p), p_w p)
              else Fault
          | Unwound p =>
              if zlen (p_items p) =? sh_len (p_dims p)
              then Unwound (mkTensor (tn_ty t) (p_dims p) (p_items p) (p_cap p), p_w p)
              else if sh_len (sh_default (tn_ty t)) =? 0
                   then unwinding (p_items p) (p_w p)
                          (fun w => (mkTensor (tn_ty t) (sh_default (tn_ty t)) [] (p_cap p), w))
                   else Aborted
          | Aborted => Aborted
          | Fault => Fault
          end
      end.

  (** tensor.rs:81-90 [clear]. *)
  Definition tn_clear_d : M (tensor T * world T C) unit :=
    fun s =>
      (check (sh_len (sh_default (tn_ty (fst s))) =? 0) ;;;
       with_mut_parts_d (fun ty => vec_truncate_d 0 ;;; p_set_dims (sh_default ty))) s.

  (** tensor.rs:356-368 [truncate]: the mapping is set before the vector is shortened. *)
  Definition tn_truncate_d (size : Z) : M (tensor T * world T C) unit :=
    check_outer ;;;
    fun s =>
      if size <? nth 0 (tn_dims (fst s)) 0
      then with_mut_parts_d (fun ty => fun p =>
             (p_store ty (upd (p_dims p) 0 size) ;;;
              fun p => vec_truncate_d (sh_len (p_dims p)) p) p) s
      else Done tt s.

  (** tensor.rs:280-291, 322-333, 375-386. *)
  Definition tn_reserve_d (n : Z) : M (tensor T * world T C) unit :=
    with_mut_parts_d (fun _ => vec_reserve al n).
  Definition tn_try_reserve_d (n : Z) : M (tensor T * world T C) bool :=
    with_mut_parts_d (fun _ => vec_try_reserve al n).
  Definition tn_shrink_to_d (n : Z) : M (tensor T * world T C) unit :=
    with_mut_parts_d (fun _ => vec_shrink n).

  (** tensor.rs:120-153 [expand]. *)
  Definition tn_expand_d {Y} (e : expression Y) (cl : Y -> C -> call T C) : M (tensor T * world T C) unit :=
    check_outer ;;;
    let len := sh_len (e_dims e) in
    if 0 <? len
    then with_mut_parts_d (fun ty =>
           vec_reserve al len ;;;
           expand_dims ty (e_dims e) ;;;
           clone_into_vec e cl)
    else ret tt.

  (** tensor.rs:705-714 [Extend::extend]. *)
  Fixpoint vec_extend_d (ys : list (C -> call T C)) : M (parts T C) unit :=
    match ys with
    | [] => ret tt
    | f :: yt =>
        x <- vec_call f ;;
        (fun p => match vec_reserve al 1 p with
                  | Unwound p => unwinding [x] (p_w p) (fun w => mkParts (p_items p) (p_cap p) (p_dims p) w)
                  | r => r
                  end) ;;;
        vec_write x ;;;
        vec_extend_d yt
    end.
  Definition tn_extend_d (ys : list (C -> call T C)) : M (tensor T * world T C) unit :=
    with_mut_parts_d (fun _ =>
      vec_extend_d ys ;;; fun p => p_set_dims [zlen (p_items p)] p).

  (** raw_tensor.rs:403-413: the guard forgets the elements before they are dropped. *)
  Definition copy_drop_d (n : Z) : M (copying T C) unit :=
    fun c =>
      if n <=? zlen (c_old c)
      then dropping (firstn (Z.to_nat n) (c_old c)) (c_w c) tt
             (fun w => mkCopy (skipn (Z.to_nat n) (c_old c)) (c_new c) (c_cap c) w)
      else Fault.

  (** raw_tensor.rs:345-424 [copy_dim]. *)
  Fixpoint copy_dim_d (f : C -> call T C) (old_dims new_dims : list Z) : M (copying T C) unit :=
    match old_dims, new_dims with
    | old_size :: ot, new_size :: nt =>
        let old_stride := sh_len ot in
        let new_stride := sh_len nt in
        let min_size := Z.min old_size new_size in
        (match ot with
         | _ :: _ => timesM (Z.to_nat min_size) (copy_dim_d f ot nt)
         | [] => copy_move min_size
         end) ;;;
        (if min_size <? old_size then copy_drop_d ((old_size - min_size) * old_stride) else ret tt) ;;;
        timesM (Z.to_nat ((new_size - min_size) * new_stride)) (copy_new f)
    | _, _ => check false
    end.

  (** raw_tensor.rs:129-143.  The guard is dropped at the end of the call of [copy_dim]; if that
      panics, or if [copy_dim] does, [new_vec] is dropped after it. *)
  Definition resize_copy_d (new_len : Z) (new_dims : list Z) (f : C -> call T C) : M (parts T C) unit :=
    fun p =>
      if al_ok al new_len
      then match copy_dim_d f (p_dims p) new_dims
                   (mkCopy (p_items p) [] (Z.max new_len (al_grow al 0 new_len)) (p_w p)) with
           | Done _ c =>
               match dropping (c_old c) (c_w c) tt (fun w => w) with
               | Done _ w => Done tt (mkParts (c_new c) (c_cap c) (p_dims p) w)
               | Unwound w => unwinding (c_new c) w (fun w => mkParts [] (p_cap p) (p_dims p) w)
               | Aborted => Aborted
               | Fault => Fault
               end
           | Unwound c =>
               unwinding (c_old c ++ c_new c) (c_w c) (fun w => mkParts [] (p_cap p) (p_dims p) w)
           | Aborted => Aborted
           | Fault => Fault
           end
      else Unwound p.

  (** raw_tensor.rs:111-151 [resize_with]; tensor.rs:294-308. *)
  Definition tn_resize_with_d (new_dims : list Z) (f : C -> call T C) : M (tensor T * world T C) unit :=
    fun s =>
      (check (length new_dims =? length (tn_dims (fst s)))%nat ;;;
       match new_dims with
       | [] => ret tt
       | _ :: _ =>
           match sh_checked_len new_dims with
           | None => check false
           | Some new_len =>
               with_mut_parts_d (fun ty =>
                 (fun p => (if new_len =? 0 then vec_truncate_d 0
                            else if slice_eqb (tl new_dims) (tl (p_dims p)) then vec_resize_with_d new_len f
                            else resize_copy_d new_len new_dims f) p) ;;;
                 p_store ty new_dims)
           end
       end) s.

  (** tensor.rs:294-300 [resize]: [value] is dropped at the end. *)
  Definition tn_resize_d (new_dims : list Z) (value : T) (clone : T -> C -> call T C)
    : M (tensor T * world T C) unit :=
    fun s =>
      match tn_resize_with_d new_dims (clone value) (fst s, mkWorld (w_clo (snd s)) (w_made (snd s) ++ [value])
                                                       (w_used (snd s)) (w_dropped (snd s))) with
      | Done a (t, w) => dropping [value] w a (fun w => (t, w))
      | Unwound (t, w) => unwinding [value] w (fun w => (t, w))
      | Aborted => Aborted
      | Fault => Fault
      end.

  (** into_expr.rs:70-79 and buffer.rs:74-83: when the destructor of [IntoExpr] panics its buffer is
      dropped all the same, which moves the tail and restores the mapping.  [loud]: the expression is
      dropped by unwinding. *)
  Definition drain_drop_d (loud : bool) (d : drain T) (w : world T C) : result (tensor T * world T C) unit :=
    let left := sh_len (d_view d) - d_index d in
    if (0 <=? left) && (d_ptr d + sh_len (d_view d) <=? zlen (d_mem d))
    then match sh_resize_dim (d_ty d) (d_dims d) 0 (d_new_size d) with
         | Ok dims =>
             match copy_cells (d_mem d) (d_ptr d + sh_len (d_view d)) (d_ptr d) (d_tail d) with
             | Some mem =>
                 if sh_len dims <=? zlen mem
                 then let t := mkTensor (d_ty d) dims (firstn (Z.to_nat (sh_len dims)) mem) (d_cap d) in
                      let xs := cells (d_mem d) (d_ptr d + d_index d) left in
                      if loud then unwinding xs w (fun w => (t, w)) else dropping xs w tt (fun w => (t, w))
                 else Fault
             | None => Fault
             end
         | Panic => Aborted
         | _ => Fault
         end
    else Fault.

  (** tensor.rs:63-65 [append]. *)
  Definition tn_append_d : M (tensor T * tensor T * world T C) unit :=
    fun s =>
      let '(self, other, w) := s in
      match tn_drain other Unbounded Unbounded with
      | Ok d =>
          let finish (loud : bool) (self : tensor T) (n : Z) (dropped : list T) :=
            let d := mkDrain (d_ty d) (d_dims d) (d_mem d) (d_cap d) (d_ptr d) (d_view d) (d_new_size d) (d_tail d) n in
            match drain_drop_d loud d (mkWorld (w_clo w) (w_made w) (w_used w) dropped) with
            | Done _ (other, w) => Done tt (self, other, w)
            | Unwound (other, w) => Unwound (self, other, w)
            | Aborted => Aborted
            | Fault => Fault
            end in
          (* the guard of [expand] has nothing to drop here: moving elements does not panic *)
          match tn_expand al (e_drain d) (fun x n => Gives x (n + 1)) (self, mkWorld 0 [] [] (w_dropped w)) with
          | Done _ (self, w') => finish false self (w_clo w') (w_dropped w')
          | Unwound (self, w') => finish true self (w_clo w') (w_dropped w')
          | Aborted => Aborted
          | Fault => Fault
          end
      | Panic => Unwound s
      | _ => Fault
      end.

  (** raw_tensor.rs:286-299 [clone], [clone_from]. *)
  Fixpoint clone_items_d (clone : T -> C -> call T C) (done xs : list T) : M (world T C) (list T) :=
    match xs with
    | [] => ret done
    | x :: xt => fun w =>
        match clone x (w_clo w) with
        | Gives y c => clone_items_d clone (done ++ [y]) xt (w_make c y w)
        | Throws c => unwinding done (w_set c w) (fun w => w)
        end
    end.
  Definition tn_clone_d (clone : T -> C -> call T C) (t : tensor T) : M (world T C) (tensor T) :=
    match to_vec_raw t with
    | None => fun _ => Fault
    | Some items =>
        ys <- clone_items_d clone [] items ;; from_parts (tn_ty t) (tn_dims t) ys (zlen ys)
    end.

  (** An assignment stores the new value even when the destructor of the old one panics. *)
  Fixpoint assign_loop_d (clone : T -> C -> call T C) (i : nat) (src : list T) : M (parts T C) unit :=
    match src with
    | [] => ret tt
    | x :: xt =>
        y <- vec_call (clone x) ;;
        (fun p => match nth_error (p_items p) i with
                  | Some old =>
                      dropping [old] (p_w p) tt (fun w => mkParts (upd (p_items p) i y) (p_cap p) (p_dims p) w)
                  | None => Fault
                  end) ;;;
        assign_loop_d clone (S i) xt
    end.
  Definition vec_clone_from_d (clone : T -> C -> call T C) (src : list T) : M (parts T C) unit :=
    vec_truncate_d (zlen src) ;;;
    fun p =>
      let n := length (p_items p) in
      (assign_loop_d clone 0 (firstn n src) ;;;
       vec_reserve al (zlen (skipn n src)) ;;;
       clone_loop clone (skipn n src)) p.
  Definition tn_clone_from_d (clone : T -> C -> call T C) (src : list T) (dims : list Z)
    : M (tensor T * world T C) unit :=
    with_mut_parts_d (fun _ => vec_clone_from_d clone src ;;; p_set_dims dims).

  (** A panic while a vector is a local variable drops its elements. *)
  Definition owning_d {A} (items : list T) (m : M (world T C) A) : M (world T C) A :=
    fun w => match m w with Unwound w' => unwinding items w' (fun w => w) | r => r end.

  (** tensor.rs:205-209 [into_mapping]; 249-253 [into_shape]; 225-229 [into_scalar]. *)
  Definition tn_into_mapping_d (ty : shty) (t : tensor T) : M (world T C) (tensor T) :=
    x <- tn_into_vec t ;;
    m <- owning_d (fst x) (lift (m_remap Dense ty (DenseM (tn_ty t) (tn_dims t)))) ;;
    from_parts ty (m_dims m) (fst x) (snd x).
  Definition tn_into_shape_d (ty : shty) (dims : list Z) (t : tensor T) : M (world T C) (tensor T) :=
    x <- tn_into_vec t ;;
    m <- owning_d (fst x) (lift (m_reshape (DenseM (tn_ty t) (tn_dims t)) ty dims)) ;;
    from_parts ty (m_dims m) (fst x) (snd x).
  Definition tn_into_scalar_d (t : tensor T) : M (world T C) T :=
    fun w =>
      if tn_len t =? 1
      then match to_vec_raw t with
           | Some items => match rev items with x :: _ => Done x w | [] => Unwound w end
           | None => Fault
           end
      else match to_vec_raw t with
           | Some items => unwinding items w (fun w => w)
           | None => Fault
           end.

  (** tensor.rs:401-408 [from_expr]. *)
  Definition tn_from_expr_d (e : expression T) : M (world T C) (tensor T) :=
    fun w =>
      let len := sh_len (e_dims e) in
      if (len =? 0) || al_ok al len
      then match clone_into_vec e moved (mkParts [] (if len =? 0 then 0 else Z.max len (al_grow al 0 len)) [] w) with
           | Done _ p => from_parts (e_ty e) (e_dims e) (p_items p) (p_cap p) (p_w p)
           | Unwound p => unwinding (p_items p) (p_w p) (fun w => w)
           | Aborted => Aborted
           | Fault => Fault
           end
      else Unwound w.

  (** tensor.rs:427-469 [zip_with]: the guard empties the vector before it drops the elements. *)
  Definition zip_guard_d (z : zipping T C) : result (world T C) (tensor T) :=
    let tail := zlen (z_mem z) - z_index z in
    if 0 <=? tail
    then unwinding ((if 1 <? z_index z then firstn (Z.to_nat (z_index z - 1)) (z_mem z) else [])
                    ++ skipn (Z.to_nat (z_index z)) (z_mem z)) (z_w z) (fun w => w)
    else Fault.
  Definition tn_zip_with_d {Y} (e : expression Y) (f : T * Y -> C -> call T C) (t : tensor T)
    : M (world T C) (tensor T) :=
    fun w =>
      match to_vec_raw t with
      | None => Fault
      | Some items =>
          match e_zip (e_view (zlen items) false (whole (tn_ty t) (tn_dims t))) e with
          | Ok z =>
              match (zip_loop f (fst (e_trace z)) ;;; lift (snd (e_trace z))) (mkZip items 0 w) with
              | Done _ z => from_parts (tn_ty t) (tn_dims t) (z_mem z) (tn_cap t) (z_w z)
              | Unwound z => zip_guard_d z
              | Aborted => Aborted
              | Fault => Fault
              end
          | Panic => zip_guard_d (mkZip items 0 w)
          | _ => Fault
          end
      end.
  Definition tn_map_d (f : T -> C -> call T C) (t : tensor T) : M (world T C) (tensor T) :=
    tn_zip_with_d (e_fill (fun s : unit => Ok (tt, s)) tt) (fun p => f (fst p)) t.

  (** raw_tensor.rs:302-319: [Vec] drops the elements. *)
  Definition tn_drop_d (t : tensor T) : M (world T C) unit :=
    fun w => match to_vec_raw t with Some items => dropping items w tt (fun w => w) | None => Fault end.

  (** into_iter, [k] calls of [next], then the iterator is dropped: into_expr.rs:70-79. *)
  Definition tn_iterate_d (k : nat) (t : tensor T) : M (world T C) unit :=
    fun w =>
      match it_nexts k (it_new (e_into (tn_ty t) (tn_dims t) (tn_mem t))) with
      | Ok (xs, it) =>
          dropping (into_dropped (tn_mem t) (it_st it))
            (w_uses (flat_map (fun x => match x with Some x => [x] | None => [] end) xs) w) tt (fun w => w)
      | Panic => Unwound w
      | _ => Fault
      end.

  (** ** Programs: [step] of History.v *)

  Definition step_d (o : op T C) : M (state T C) unit :=
    match o with
    | New ty cap => create (tn_with_capacity al ty cap)
    | FromVec items cap =>
        create (fun w => tn_from_vec items cap (mkWorld (w_clo w) (w_made w ++ items) (w_used w) (w_dropped w)))
    | FromExpr e => create (tn_from_expr_d e)
    | Clone i cl => fun st => match var st i with Some t => create (tn_clone_d cl t) st | None => Done tt st end
    | Clear i => on_var i tn_clear_d
    | Truncate i n => on_var i (tn_truncate_d n)
    | Reserve i n => on_var i (tn_reserve_d n)
    | TryReserve i n => on_var i (tn_try_reserve_d n)
    | ShrinkTo i n => on_var i (tn_shrink_to_d n)
    | Expand i e cl => on_var i (tn_expand_d e cl)
    | Extend i ys => on_var i (tn_extend_d ys)
    | ResizeWith i dims f => on_var i (tn_resize_with_d dims f)
    | Resize i dims v cl => on_var i (tn_resize_d dims v cl)
    | DrainTake i lo hi k => on_var i (drained_by lo hi k (drain_drop_d false))
    | DrainLeak i lo hi k =>
        on_var i (drained_by lo hi k (fun d w => match drain_leak d with Some t => Done tt (t, w) | None => Fault end))
    | CloneFrom i j cl => fun st =>
        match var st j with
        | Some src => on_var i (tn_clone_from_d cl (tn_mem src) (tn_dims src)) st
        | None => Done tt st
        end
    | Append i j => fun st =>
        match var st i, var st j with
        | Some self, Some other =>
            match tn_append_d (self, other, st_w st) with
            | Done _ (self, other, w) | Unwound (self, other, w) =>
                Done tt (set_var j (Some other) w (set_var i (Some self) w st))
            | Aborted => Aborted
            | Fault => Fault
            end
        | _, _ => Done tt st
        end
    | IntoShape i ty dims => consume i (fun t => kept (tn_into_shape_d ty dims t))
    | IntoMapping i ty => consume i (fun t => kept (tn_into_mapping_d ty t))
    | IntoFlat i => consume i (fun t => kept (tn_into_flat t))
    | ZipWith i e f => consume i (fun t => kept (tn_zip_with_d e f t))
    | Map i f => consume i (fun t => kept (tn_map_d f t))
    | Iterate i k => consume i (fun t => tn_iterate_d k t ;;; ret None)
    | IntoScalar i => consume i (fun t => x <- tn_into_scalar_d t ;; fun w => Done None (w_use x w))
    | Drop i => consume i (fun t => tn_drop_d t ;;; ret None)
    end.

  Fixpoint run_ops_d (ops : list (op T C)) : M (state T C) unit :=
    match ops with
    | [] => ret tt
    | o :: os => step_d o ;;; run_ops_d os
    end.

  Fixpoint ops_ok_d (ops : list (op T C)) (st : state T C) : Prop :=
    match ops with
    | [] => True
    | o :: os => op_ok o st /\ (forall st', step_d o st = Done tt st' -> ops_ok_d os st')
    end.
End Dtor.
