(** Model of owned arrays ([src/raw_tensor.rs], [src/tensor.rs], [src/expr/buffer.rs]) with 64-bit machine integers.

    Like [Tensor.v] and [History.v], but every length, product, sum and difference that the code computes is one of
    [Machine.v]: with overflow checks ([dbg = true]; debug assertions are on as well) it panics when the result does
    not fit, without it wraps around.  [Vec] itself is trusted as before: it refuses what does not fit.  The debug
    assertions of [copy_dim] (raw_tensor.rs:388-389, 407, 417) check what is a fault here in any case. *)
From Verif Require Import Base Spec Shape Mapping Index View Wf Expr Tensor TensorSpec History Machine MachineIter.

(** ** What an expression gives *)

(** iter.rs:83-93, with [x_step_outer]; compare [loop_trace]. *)
Fixpoint x_loop_trace (dbg : bool) {A} {e : expression A} (fuel : nat) (it : iter e) : list A * outcome unit :=
  match fuel with
  | O => ([], NoFuel)
  | S k =>
      let n := Z.to_nat (it_limit it - it_index it) in
      let (xs, o) := inner_trace e n (it_index it) (it_st it) in
      match o with
      | Ok st =>
          match x_step_outer dbg (mkIter st (it_index it) (it_limit it) (it_outer it) (it_olimit it)) with
          | Ok (true, it) =>
              let (ys, o) := x_loop_trace dbg k (mkIter (it_st it) 0 (it_limit it) (it_outer it) (it_olimit it)) in
              (xs ++ ys, o)
          | Ok (false, _) => (xs, Ok tt)
          | o => (xs, fail o)
          end
      | o => (xs, fail o)
      end
  end.
Definition x_trace (dbg : bool) {A} (e : expression A) : list A * outcome unit :=
  match x_it_new dbg e with
  | Ok it => x_loop_trace dbg (it_fuel it) it
  | o => ([], fail o)
  end.

(** ** Parts *)

(** raw_tensor.rs:66-76 [from_parts]; the vector belongs to the function. *)
Definition xt_from_parts (dbg : bool) {T C} (ty : shty) (dims : list Z) (items : list T) (cap : Z)
  : M (world T C) (tensor T) :=
  fun w =>
    if dbg
    then match sh_checked_len dims with
         | Some n => if zlen items =? n then Done (mkTensor ty dims items cap) w else Unwound (w_drop items w)
         | None => Unwound (w_drop items w)
         end
    else match x_len dbg dims with
         | Ok n => if zlen items =? n then Done (mkTensor ty dims items cap) w else Fault
         | _ => Fault
         end.

(** [Vec::from_raw_parts(ptr, mapping.len(), capacity)]. *)
Definition xt_to_vec (dbg : bool) {T} (t : tensor T) : outcome (list T) :=
  let* n := x_len dbg (tn_dims t) in
  if zlen (tn_mem t) =? n then Ok (tn_mem t) else UB.

(** raw_tensor.rs:172-187: the drop guard of [with_mut_parts]; a panic in it, during unwinding, aborts. *)
Definition xt_guard (dbg : bool) {T C A} (ty : shty) (p : parts T C) : result (tensor T * world T C) A :=
  match x_len dbg (p_dims p) with
  | Ok n =>
      if zlen (p_items p) =? n
      then Unwound (mkTensor ty (p_dims p) (p_items p) (p_cap p), p_w p)
      else match x_len dbg (sh_default ty) with
           | Ok k =>
               if k =? 0
               then Unwound (mkTensor ty (sh_default ty) [] (p_cap p), w_drop (p_items p) (p_w p))
               else Aborted
           | _ => Aborted
           end
  | _ => Aborted
  end.

(** raw_tensor.rs:162-208 [with_mut_parts]. *)
Definition xt_with_mut_parts (dbg : bool) {T C A} (m : shty -> M (parts T C) A) : M (tensor T * world T C) A :=
  fun s =>
    let (t, w) := s in
    match xt_to_vec dbg t with
    | Ok items =>
        match m (tn_ty t) (mkParts items (tn_cap t) (tn_dims t) w) with
        | Done a p =>
            if dbg
            then match sh_checked_len (p_dims p) with
                 | Some n =>
                     if zlen (p_items p) =? n
                     then Done a (mkTensor (tn_ty t) (p_dims p) (p_items p) (p_cap p), p_w p)
                     else xt_guard dbg (tn_ty t) p
                 | None => xt_guard dbg (tn_ty t) p
                 end
            else match x_len dbg (p_dims p) with
                 | Ok n =>
                     if zlen (p_items p) =? n
                     then Done a (mkTensor (tn_ty t) (p_dims p) (p_items p) (p_cap p), p_w p)
                     else Fault
                 | _ => Fault
                 end
        | Unwound p => xt_guard dbg (tn_ty t) p
        | Aborted => Aborted
        | Fault => Fault
        end
    | Panic => Unwound s
    | _ => Fault
    end.

(** ** Operations on [&mut self] *)

(** tensor.rs:81-90 [clear]. *)
Definition xt_clear (dbg : bool) {T C} : M (tensor T * world T C) unit :=
  fun s =>
    (n <- lift (x_len dbg (sh_default (tn_ty (fst s)))) ;;
     check (n =? 0) ;;;
     xt_with_mut_parts dbg (fun ty => vec_truncate 0 ;;; p_set_dims (sh_default ty))) s.

(** tensor.rs:356-368 [truncate]. *)
Definition xt_truncate (dbg : bool) {T C} (size : Z) : M (tensor T * world T C) unit :=
  check_outer ;;;
  fun s =>
    if size <? nth 0 (tn_dims (fst s)) 0
    then xt_with_mut_parts dbg (fun ty => fun p =>
           (p_store ty (upd (p_dims p) 0 size) ;;;
            fun p => (n <- lift (x_len dbg (p_dims p)) ;; vec_truncate n) p) p) s
    else Done tt s.

(** tensor.rs:280-291, 322-333, 375-386. *)
Definition xt_reserve (dbg : bool) {T C} (al : allocator) (n : Z) : M (tensor T * world T C) unit :=
  xt_with_mut_parts dbg (fun _ => vec_reserve al n).
Definition xt_try_reserve (dbg : bool) {T C} (al : allocator) (n : Z) : M (tensor T * world T C) bool :=
  xt_with_mut_parts dbg (fun _ => vec_try_reserve al n).
Definition xt_shrink_to (dbg : bool) {T C} (n : Z) : M (tensor T * world T C) unit :=
  xt_with_mut_parts dbg (fun _ => vec_shrink n).

(** tensor.rs:132-147: the new mapping of [expand]. *)
Definition xt_expand_dims (dbg : bool) {T C} (ty : shty) (src : list Z) : M (parts T C) unit :=
  fun p =>
    (b <- lift (x_is_empty dbg (p_dims p)) ;;
     if b : bool
     then if (length src =? length (p_dims p))%nat
          then p_store ty src
          else d <- lift (sh_from_dims ty src) ;; p_set_dims d
     else check (length src =? length (p_dims p))%nat ;;;
          check (slice_eqb (tl src) (tl (p_dims p))) ;;;
          n <- lift (u_res dbg (nth 0 (p_dims p) 0 + nth 0 src 0)) ;;
          p_store ty (upd (p_dims p) 0 n)) p.

(** expression.rs:172-182 [clone_into_vec]. *)
Definition xt_clone_into_vec (dbg : bool) {T Y C} (e : expression Y) (cl : Y -> C -> call T C) : M (parts T C) unit :=
  fun p =>
    (n <- lift (x_len dbg (e_dims e)) ;;
     room <- lift (u_res dbg (p_cap p - zlen (p_items p))) ;;
     check (n <=? room) ;;;
     clone_loop cl (fst (x_trace dbg e)) ;;;
     lift (snd (x_trace dbg e))) p.

(** tensor.rs:120-153 [expand]. *)
Definition xt_expand (dbg : bool) {T Y C} (al : allocator) (e : expression Y) (cl : Y -> C -> call T C)
  : M (tensor T * world T C) unit :=
  check_outer ;;;
  len <- lift (x_len dbg (e_dims e)) ;;
  if 0 <? len
  then xt_with_mut_parts dbg (fun ty =>
         vec_reserve al len ;;;
         xt_expand_dims dbg ty (e_dims e) ;;;
         xt_clone_into_vec dbg e cl)
  else ret tt.

(** tensor.rs:705-714 [Extend::extend]. *)
Definition xt_extend (dbg : bool) {T C} (al : allocator) (ys : list (C -> call T C)) : M (tensor T * world T C) unit :=
  xt_with_mut_parts dbg (fun _ =>
    vec_extend al ys ;;; fun p => p_set_dims [zlen (p_items p)] p).

(** raw_tensor.rs:345-424 [copy_dim]: both strides are products that are computed first (352-353), whether they are
    used or not. *)
Fixpoint xt_copy_dim (dbg : bool) {T C} (f : C -> call T C) (old_dims new_dims : list Z) : M (copying T C) unit :=
  match old_dims, new_dims with
  | old_size :: ot, new_size :: nt =>
      old_stride <- lift (x_len dbg ot) ;;
      new_stride <- lift (x_len dbg nt) ;;
      let min_size := Z.min old_size new_size in
      (match ot with
       | _ :: _ => timesM (Z.to_nat min_size) (xt_copy_dim dbg f ot nt)
       | [] => copy_move min_size
       end) ;;;
      (if min_size <? old_size
       then k <- lift (u_res dbg (old_size - min_size)) ;;
            n <- lift (u_res dbg (k * old_stride)) ;;
            copy_drop n
       else ret tt) ;;;
      k <- lift (u_res dbg (new_size - min_size)) ;;
      n <- lift (u_res dbg (k * new_stride)) ;;
      timesM (Z.to_nat n) (copy_new f)
  | _, _ => check false
  end.

(** raw_tensor.rs:129-143. *)
Definition xt_resize_copy (dbg : bool) {T C} (al : allocator) (new_len : Z) (new_dims : list Z) (f : C -> call T C)
  : M (parts T C) unit :=
  fun p =>
    if al_ok al new_len
    then match xt_copy_dim dbg f (p_dims p) new_dims
                 (mkCopy (p_items p) [] (Z.max new_len (al_grow al 0 new_len)) (p_w p)) with
         | Done _ c => Done tt (mkParts (c_new c) (c_cap c) (p_dims p) (w_drop (c_old c) (c_w c)))
         | Unwound c => Unwound (mkParts [] (p_cap p) (p_dims p) (w_drop (c_old c ++ c_new c) (c_w c)))
         | Aborted => Aborted
         | Fault => Fault
         end
    else Unwound p.

(** raw_tensor.rs:111-151 [resize_with]; tensor.rs:294-308. *)
Definition xt_resize_with (dbg : bool) {T C} (al : allocator) (new_dims : list Z) (f : C -> call T C)
  : M (tensor T * world T C) unit :=
  fun s =>
    (check (length new_dims =? length (tn_dims (fst s)))%nat ;;;
     match new_dims with
     | [] => ret tt
     | _ :: _ =>
         match sh_checked_len new_dims with
         | None => check false
         | Some new_len =>
             xt_with_mut_parts dbg (fun ty =>
               (fun p => (if new_len =? 0 then vec_truncate 0
                          else if slice_eqb (tl new_dims) (tl (p_dims p)) then vec_resize_with al new_len f
                          else xt_resize_copy dbg al new_len new_dims f) p) ;;;
               p_store ty new_dims)
         end
     end) s.
Definition xt_resize (dbg : bool) {T C} (al : allocator) (new_dims : list Z) (value : T) (clone : T -> C -> call T C)
  : M (tensor T * world T C) unit :=
  fun s =>
    match xt_resize_with dbg al new_dims (clone value)
            (fst s, mkWorld (w_clo (snd s)) (w_made (snd s) ++ [value]) (w_used (snd s)) (w_dropped (snd s))) with
    | Done a (t, w) => Done a (t, w_drop [value] w)
    | Unwound (t, w) => Unwound (t, w_drop [value] w)
    | Aborted => Aborted
    | Fault => Fault
    end.

(** ** Drain *)

(** raw_tensor.rs:153-160: the debug assertions of [set_mapping]. *)
Definition set_mapping_checks (dbg : bool) (dims : list Z) (cap : Z) : outcome unit :=
  if dbg
  then let* _ := assert (match sh_checked_len dims with Some _ => true | None => false end) in
       let* n := x_len dbg dims in
       assert (n <=? cap)
  else Ok tt.

(** buffer.rs:41-58 [Drain::new]. *)
Definition xt_drain_new (dbg : bool) {T} (t : tensor T) (start stop : Z) : outcome (drain T) :=
  let size := nth 0 (tn_dims t) 0 in
  let* _ := assert ((start <=? stop) && (stop <=? size)) in
  let* count := u_res dbg (stop - start) in
  let* new_size := u_res dbg (size - count) in
  let* rest := u_res dbg (new_size - start) in
  let* tail := x_ax_resize dbg (AxConst 0) (DenseM (tn_ty t) (tn_dims t)) rest in
  let* tail := x_len dbg (m_dims tail) in
  let* dims := sh_resize_dim (tn_ty t) (tn_dims t) 0 start in
  let* _ := set_mapping_checks dbg dims (tn_cap t) in
  let* ptr := x_len dbg dims in
  let* count := u_res dbg (stop - start) in
  let* vdims := sh_resize_dim (tn_ty t) dims 0 count in
  Ok (mkDrain (tn_ty t) dims (tn_mem t) (tn_cap t) ptr vdims new_size tail 0).

(** tensor.rs:99-109 [drain]. *)
Definition xt_drain (dbg : bool) {T} (t : tensor T) (lo hi : bound) : outcome (drain T) :=
  let* _ := assert (0 <? length (tn_dims t))%nat in
  let* _ := assert (head_dyn (tn_ty t)) in
  let* (a, b) := ix_range lo hi (nth 0 (tn_dims t) 0) in
  xt_drain_new dbg t a b.

(** into_expr.rs:90-98 [get_unchecked]. *)
Definition xt_drain_take (dbg : bool) {T} (d : drain T) : outcome (T * drain T) :=
  let* _ := if dbg then let* n := x_len dbg (d_view d) in assert (d_index d <? n) else Ok tt in
  let* next := u_res dbg (d_index d + 1) in
  let* i := u_res dbg (next - 1) in
  if i <? sh_len (d_view d)
  then match nth_error (d_mem d) (Z.to_nat (d_ptr d + i)) with
       | Some x => Ok (x, mkDrain (d_ty d) (d_dims d) (d_mem d) (d_cap d) (d_ptr d) (d_view d) (d_new_size d)
                            (d_tail d) next)
       | None => UB
       end
  else UB.

Definition x_e_drain (dbg : bool) {T} (d : drain T) : expression T :=
  mkExpr (drain T) d (d_ty d) (d_view d) None false
    (fun _ s => xt_drain_take dbg s) (fun _ _ s => Ok s) (fun _ s => Ok s).

(** into_expr.rs:70-79 and buffer.rs:74-83.  (A panic here is taken to be fatal: none happens, see c73.) *)
Definition xt_drain_drop (dbg : bool) {T C} (d : drain T) (w : world T C) : result (tensor T * world T C) unit :=
  match (let* n := x_len dbg (d_view d) in
         let* unread := u_res dbg (n - d_index d) in
         let* dims := sh_resize_dim (d_ty d) (d_dims d) 0 (d_new_size d) in
         let* n := x_len dbg (d_view d) in
         let* _ := set_mapping_checks dbg dims (d_cap d) in
         let* new_len := x_len dbg dims in
         Ok (n, unread, dims, new_len)) with
  | Ok (n, unread, dims, new_len) =>
      if (unread =? n - d_index d) && (d_ptr d + n <=? zlen (d_mem d))
      then match copy_cells (d_mem d) (d_ptr d + n) (d_ptr d) (d_tail d) with
           | Some mem =>
               if new_len <=? zlen mem
               then Done tt (mkTensor (d_ty d) dims (firstn (Z.to_nat new_len) mem) (d_cap d),
                             w_drop (cells (d_mem d) (d_ptr d + d_index d) unread) w)
               else Fault
           | None => Fault
           end
      else Fault
  | Panic => Aborted
  | _ => Fault
  end.
(** Forgetting the drain: the tensor keeps the mapping set by [Drain::new]. *)
Definition xt_drain_leak (dbg : bool) {T} (d : drain T) : option (tensor T) :=
  match x_len dbg (d_dims d) with
  | Ok n => if n <=? zlen (d_mem d)
            then Some (mkTensor (d_ty d) (d_dims d) (firstn (Z.to_nat n) (d_mem d)) (d_cap d))
            else None
  | _ => None
  end.

(** tensor.rs:63-65 [append]; as [tn_append]. *)
Definition xt_append (dbg : bool) {T C} (al : allocator) : M (tensor T * tensor T * world T C) unit :=
  fun s =>
    let '(self, other, w) := s in
    match xt_drain dbg other Unbounded Unbounded with
    | Ok d =>
        let finish (unwinding : bool) (self : tensor T) (n : Z) (dropped : list T) :=
          let d := mkDrain (d_ty d) (d_dims d) (d_mem d) (d_cap d) (d_ptr d) (d_view d) (d_new_size d) (d_tail d) n in
          match xt_drain_drop dbg d (mkWorld (w_clo w) (w_made w) (w_used w) dropped) with
          | Done _ (other, w) => if unwinding then Unwound (self, other, w) else Done tt (self, other, w)
          | Unwound (other, w) => Unwound (self, other, w)
          | Aborted => Aborted
          | Fault => Fault
          end in
        match xt_expand dbg al (x_e_drain dbg d) (fun x n => Gives x (n + 1)) (self, mkWorld 0 [] [] (w_dropped w)) with
        | Done _ (self, w') => finish false self (w_clo w') (w_dropped w')
        | Unwound (self, w') => finish true self (w_clo w') (w_dropped w')
        | Aborted => Aborted
        | Fault => Fault
        end
    | Panic => Unwound s
    | _ => Fault
    end.

(** ** Clone *)

(** raw_tensor.rs:286-289 [clone]. *)
Definition xt_clone (dbg : bool) {T C} (clone : T -> C -> call T C) (t : tensor T) : M (world T C) (tensor T) :=
  items <- lift (xt_to_vec dbg t) ;;
  ys <- clone_items clone [] items ;; xt_from_parts dbg (tn_ty t) (tn_dims t) ys (zlen ys).

(** raw_tensor.rs:291-298 [clone_from] from the tensor [src]; tensor.rs:895-905. *)
Definition xt_clone_from (dbg : bool) {T C} (al : allocator) (clone : T -> C -> call T C) (src : tensor T)
  : M (tensor T * world T C) unit :=
  xt_with_mut_parts dbg (fun _ =>
    items <- lift (xt_to_vec dbg src) ;;
    vec_clone_from al clone items ;;; p_set_dims (tn_dims src)).

(** ** Conversions *)

(** tensor.rs:256-260 [into_vec]; a panic drops the vector. *)
Definition xt_into_vec (dbg : bool) {T S} (t : tensor T) : M S (list T * Z) :=
  items <- lift (xt_to_vec dbg t) ;; ret (items, tn_cap t).

(** tensor.rs:742-748 [From<Vec>]; 195-198 [into_flat]. *)
Definition xt_from_vec (dbg : bool) {T C} (items : list T) (cap : Z) : M (world T C) (tensor T) :=
  xt_from_parts dbg (STuple [DDyn]) [zlen items] items cap.
Definition xt_into_flat (dbg : bool) {T C} (t : tensor T) : M (world T C) (tensor T) :=
  x <- xt_into_vec dbg t ;; xt_from_vec dbg (fst x) (snd x).

(** tensor.rs:205-209 [into_mapping], 191-193 [into_dyn]; 249-253 [into_shape]. *)
Definition xt_into_mapping (dbg : bool) {T C} (ty : shty) (t : tensor T) : M (world T C) (tensor T) :=
  x <- xt_into_vec dbg t ;;
  m <- owning (fst x) (lift (x_remap dbg Dense ty (DenseM (tn_ty t) (tn_dims t)))) ;;
  xt_from_parts dbg ty (m_dims m) (fst x) (snd x).
Definition xt_into_shape (dbg : bool) {T C} (ty : shty) (dims : list Z) (t : tensor T) : M (world T C) (tensor T) :=
  x <- xt_into_vec dbg t ;;
  m <- owning (fst x) (lift (x_reshape dbg (DenseM (tn_ty t) (tn_dims t)) ty dims)) ;;
  xt_from_parts dbg ty (m_dims m) (fst x) (snd x).

(** tensor.rs:225-229 [into_scalar]. *)
Definition xt_into_scalar (dbg : bool) {T C} (t : tensor T) : M (world T C) T :=
  fun w =>
    match x_len dbg (tn_dims t), xt_to_vec dbg t with
    | Ok n, Ok items =>
        if n =? 1
        then match rev items with x :: _ => Done x w | [] => Unwound w end
        else Unwound (w_drop items w)
    | Panic, _ => Aborted
    | _, _ => Fault
    end.

(** tensor.rs:401-408 [from_expr]. *)
Definition xt_from_expr (dbg : bool) {T C} (al : allocator) (e : expression T) : M (world T C) (tensor T) :=
  fun w =>
    match x_len dbg (e_dims e) with
    | Ok len =>
        if (len =? 0) || al_ok al len
        then match xt_clone_into_vec dbg e moved
                     (mkParts [] (if len =? 0 then 0 else Z.max len (al_grow al 0 len)) [] w) with
             | Done _ p => xt_from_parts dbg (e_ty e) (e_dims e) (p_items p) (p_cap p) (p_w p)
             | Unwound p => Unwound (w_drop (p_items p) (p_w p))
             | Aborted => Aborted
             | Fault => Fault
             end
        else Unwound w
    | Panic => Unwound w
    | _ => Fault
    end.

(** tensor.rs:512-516, 523-527 [new], [with_capacity]. *)
Definition xt_with_capacity (dbg : bool) {T C} (al : allocator) (ty : shty) (cap : Z) : M (world T C) (tensor T) :=
  check (match sh_checked_len (sh_default ty) with Some n => n =? 0 | None => false end) ;;;
  (if (cap =? 0) || al_ok al cap
   then xt_from_parts dbg ty (sh_default ty) [] (if cap =? 0 then 0 else Z.max cap (al_grow al 0 cap))
   else fun w => Unwound w).

(** ** [zip_with], [map]: tensor.rs:427-469, 263-265 *)

(** tensor.rs:459-462; [guard.index += 1]. *)
Fixpoint x_zip_loop (dbg : bool) {T Y C} (f : T * Y -> C -> call T C) (ps : list (Z * Y)) : M (zipping T C) unit :=
  match ps with
  | [] => ret tt
  | (addr, y) :: pt => fun z =>
      match u_res dbg (z_index z + 1) with
      | Ok index =>
          match nth_error (z_mem z) (Z.to_nat addr) with
          | None => Fault
          | Some x =>
              let w := w_use x (z_w z) in
              match f (x, y) (w_clo w) with
              | Gives r c => x_zip_loop dbg f pt (mkZip (upd (z_mem z) (Z.to_nat addr) r) index (w_make c r w))
              | Throws c => Unwound (mkZip (z_mem z) index (w_set c w))
              end
          end
      | _ => Unwound z
      end
  end.

(** tensor.rs:436-454: the drop guard; [dims] are those of the tensor. *)
Definition x_zip_guard (dbg : bool) {T C} (dims : list Z) (z : zipping T C) : result (world T C) (tensor T) :=
  match (let* n := x_len dbg dims in u_res dbg (n - z_index z)) with
  | Ok tail =>
      if tail =? zlen (z_mem z) - z_index z
      then Unwound (w_drop (skipn (Z.to_nat (z_index z)) (z_mem z))
                      (if 1 <? z_index z then w_drop (firstn (Z.to_nat (z_index z - 1)) (z_mem z)) (z_w z) else z_w z))
      else Fault
  | Panic => Aborted
  | _ => Fault
  end.

Definition xt_zip_with (dbg : bool) {T Y C} (e : expression Y) (f : T * Y -> C -> call T C) (t : tensor T)
  : M (world T C) (tensor T) :=
  fun w =>
    match e_zip (x_e_view dbg (zlen (tn_mem t)) false (whole (tn_ty t) (tn_dims t))) e with
    | Ok z =>
        match (x_zip_loop dbg f (fst (x_trace dbg z)) ;;; lift (snd (x_trace dbg z))) (mkZip (tn_mem t) 0 w) with
        | Done _ z => Done (mkTensor (tn_ty t) (tn_dims t) (z_mem z) (tn_cap t)) (z_w z)
        | Unwound z => x_zip_guard dbg (tn_dims t) z
        | Aborted => Aborted
        | Fault => Fault
        end
    | Panic => x_zip_guard dbg (tn_dims t) (mkZip (tn_mem t) 0 w)
    | _ => Fault
    end.

Definition xt_map (dbg : bool) {T C} (f : T -> C -> call T C) (t : tensor T) : M (world T C) (tensor T) :=
  xt_zip_with dbg (e_fill (fun s : unit => Ok (tt, s)) tt) (fun p => f (fst p)) t.

(** ** Programs: [step] and [run_ops] of [History.v] *)
Section Step.
  Context (dbg : bool) {T C : Type} (al : allocator).

  Definition x_drained_by (lo hi : bound) (k : nat)
      (close : drain T -> world T C -> result (tensor T * world T C) unit) : M (tensor T * world T C) unit :=
    fun s =>
      match xt_drain dbg (fst s) lo hi with
      | Ok d =>
          match (let* it := x_it_new dbg (x_e_drain dbg d) in x_nexts dbg k it) with
          | Ok (xs, it) =>
              close (it_st it)
                (w_uses (flat_map (fun x => match x with Some x => [x] | None => [] end) xs) (snd s))
          | Panic => Unwound s
          | _ => Fault
          end
      | Panic => Unwound s
      | _ => Fault
      end.

  Definition x_op (o : op T C) : M (state T C) unit :=
    match o with
    | New ty cap => create (xt_with_capacity dbg al ty cap)
    | FromVec items cap =>
        create (fun w => xt_from_vec dbg items cap
                           (mkWorld (w_clo w) (w_made w ++ items) (w_used w) (w_dropped w)))
    | FromExpr e => create (xt_from_expr dbg al e)
    | Clone i cl => fun st => match var st i with Some t => create (xt_clone dbg cl t) st | None => Done tt st end
    | Clear i => on_var i (xt_clear dbg)
    | Truncate i n => on_var i (xt_truncate dbg n)
    | Reserve i n => on_var i (xt_reserve dbg al n)
    | TryReserve i n => on_var i (xt_try_reserve dbg al n)
    | ShrinkTo i n => on_var i (xt_shrink_to dbg n)
    | Expand i e cl => on_var i (xt_expand dbg al e cl)
    | Extend i ys => on_var i (xt_extend dbg al ys)
    | ResizeWith i dims f => on_var i (xt_resize_with dbg al dims f)
    | Resize i dims v cl => on_var i (xt_resize dbg al dims v cl)
    | DrainTake i lo hi k => on_var i (x_drained_by lo hi k (xt_drain_drop dbg))
    | DrainLeak i lo hi k =>
        on_var i (x_drained_by lo hi k
          (fun d w => match xt_drain_leak dbg d with Some t => Done tt (t, w) | None => Fault end))
    | CloneFrom i j cl => fun st =>
        match var st j with
        | Some src => on_var i (xt_clone_from dbg al cl src) st
        | None => Done tt st
        end
    | Append i j => fun st =>
        match var st i, var st j with
        | Some self, Some other =>
            match xt_append dbg al (self, other, st_w st) with
            | Done _ (self, other, w) | Unwound (self, other, w) =>
                Done tt (set_var j (Some other) w (set_var i (Some self) w st))
            | Aborted => Aborted
            | Fault => Fault
            end
        | _, _ => Done tt st
        end
    | IntoShape i ty dims => consume i (fun t => kept (xt_into_shape dbg ty dims t))
    | IntoMapping i ty => consume i (fun t => kept (xt_into_mapping dbg ty t))
    | IntoFlat i => consume i (fun t => kept (xt_into_flat dbg t))
    | ZipWith i e f => consume i (fun t => kept (xt_zip_with dbg e f t))
    | Map i f => consume i (fun t => kept (xt_map dbg f t))
    | Iterate i k =>
        consume i (fun t w =>
          match (let* _ := xt_to_vec dbg t in
                 let* it := x_it_new dbg (x_into dbg (tn_ty t) (tn_dims t) (tn_mem t)) in x_nexts dbg k it) with
          | Ok (xs, it) =>
              match (let* n := x_len dbg (tn_dims t) in u_res dbg (n - it_st it)) with
              | Ok unread =>
                  if unread =? zlen (tn_mem t) - it_st it
                  then Done None (w_drop (into_dropped (tn_mem t) (it_st it))
                         (w_uses (flat_map (fun x => match x with Some x => [x] | None => [] end) xs) w))
                  else Fault
              | Panic => Aborted
              | _ => Fault
              end
          | Panic => Unwound w
          | _ => Fault
          end)
    | IntoScalar i =>
        consume i (fun t => x <- xt_into_scalar dbg t ;; fun w => Done None (w_use x w))
    | Drop i => consume i (fun t w =>
        match xt_to_vec dbg t with
        | Ok items => Done None (w_drop items w)
        | Panic => Unwound w
        | _ => Fault
        end)
    end.

  Fixpoint x_ops (ops : list (op T C)) : M (state T C) unit :=
    match ops with
    | [] => ret tt
    | o :: os => x_op o ;;; x_ops os
    end.
End Step.

(** ** What is asked *)

(** The length of an array with these dimensions is computed right: it fits, and with overflow checks no partial
    product overflows either. *)
Definition counted (dbg : bool) (dims : list Z) : Prop := prodZ dims <= usize_max /\ (dbg = true -> fits dims).
(** Dimensions are machine integers. *)
Definition machine_dims (dims : list Z) : Prop := Forall (fun d => d <= usize_max) dims.

(** A vector of more than [isize::MAX] elements cannot be allocated. *)
Definition al_machine (al : allocator) : Prop :=
  forall n, al_ok al n = true -> n <= isize_max /\ forall c, al_grow al c n <= isize_max.

(** The dimensions and the capacity of a tensor at run time. *)
Record small (dbg : bool) {T} (t : tensor T) : Prop := {
  sm_dims : machine_dims (tn_dims t);
  sm_count : counted dbg (tn_dims t);
  sm_cap : tn_cap t <= isize_max
}.

(** An operand: its length and the length of its inner loops are computed right. *)
Definition machine_operand (dbg : bool) {A} (e : expression A) : Prop :=
  machine_dims (e_dims e) /\ counted dbg (e_dims e) /\ counted dbg (skipn (outer_rank e) (e_dims e)).

(** Zipped with an empty tensor, the operand is contiguous or the strides of the tensor fit. *)
Definition zip_small {T Y} (t : tensor T) (e : expression Y) : Prop :=
  forall z, e_zip (e_view (zlen (tn_mem t)) false (whole (tn_ty t) (tn_dims t))) e = Ok z ->
    prodZ (tn_dims t) = 0 -> outer_rank z = 0%nat \/ prodZ (map (Z.max 1) (tn_dims t)) <= isize_max.

(** The stride behind the first empty dimension overflows: it is computed by [copy_dim] although it is not used. *)
Definition stride_overflow (dims : list Z) : Prop :=
  exists a b, dims = a ++ 0 :: b /\ positive a /\ ~ fits b.

(** The dimensions behind the first empty one. *)
Fixpoint behind_zero (dims : list Z) : option (list Z) :=
  match dims with
  | [] => None
  | d :: ds => if d =? 0 then Some ds else behind_zero ds
  end.

Section Asked.
  Context (dbg : bool) {T C : Type} (al : allocator).

  Definition small_op (o : op T C) (st : state T C) : Prop :=
    match o with
    | New ty cap => machine_dims (sh_default ty)
    | FromVec items cap => cap <= isize_max
    | FromExpr e => machine_operand dbg e
    | Expand i e cl => machine_operand dbg e
    | ResizeWith i dims _ | Resize i dims _ _ =>
        machine_dims dims /\
        (dbg = true -> 0 < prodZ dims -> forall t, var st i = Some t -> ~ stride_overflow (tn_dims t))
    | IntoShape i ty dims => machine_dims dims
    | ZipWith i e f => forall t, var st i = Some t -> zip_small t e
    | _ => True
    end.
  Fixpoint small_ops (ops : list (op T C)) (st : state T C) : Prop :=
    match ops with
    | [] => True
    | o :: os => small_op o st /\ (forall st', step al o st = Done tt st' -> small_ops os st')
    end.
  Definition small_state (st : state T C) : Prop :=
    Forall (fun v => match v with Some t => small dbg t | None => True end) (st_vars st).

  (** The same without the condition on the unused stride, along the executions with machine integers. *)
  Definition machine_op (o : op T C) (st : state T C) : Prop :=
    match o with
    | ResizeWith i dims _ | Resize i dims _ _ => machine_dims dims
    | o => small_op o st
    end.
  Fixpoint machine_ops (ops : list (op T C)) (st : state T C) : Prop :=
    match ops with
    | [] => True
    | o :: os => op_ok o st /\ machine_op o st /\ (forall st', x_op dbg al o st = Done tt st' -> machine_ops os st')
    end.
End Asked.
