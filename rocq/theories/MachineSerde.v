(** Deserialization, [src/serde.rs], with machine integers: [dbg] is a build with overflow checks,
    otherwise the arithmetic wraps.  The definitions are those of [Serde.v] with the arithmetic of
    [Machine.v] and the tensors of [MachineTensor.v]. *)
From Verif Require Import Base Spec Shape Mapping Index View Expr Tensor Ops Serde Machine MachineTensor.

(** serde.rs:44-47: the loop for rank 1, with [size += 1]. *)
Fixpoint x_de_elems (dbg : bool) {T C E} (al : allocator) (de : sdata E -> C -> call (option T) C) (l : list (sdata E))
    (size : Z) : M (parts T C) (option Z) :=
  match l with
  | [] => ret (Some size)
  | v :: l' =>
      r <- inside_parts (de_elem de v) ;;
      match r with
      | None => ret None
      | Some x =>
          holding [x] (vec_reserve al 1) ;;; vec_write x ;;;
          size' <- lift (u_res dbg (size + 1)) ;; x_de_elems dbg al de l' size'
      end
  end.

(** serde.rs:72 [vec.append(&mut value.into_vec())] *)
Definition x_de_append (dbg : bool) {T C} (al : allocator) (t : tensor T) : M (parts T C) unit :=
  x <- xt_into_vec dbg t ;;
  holding (fst x) (vec_reserve al (zlen (fst x))) ;;;
  fun p => Done tt (mkParts (p_items p ++ fst x) (p_cap p) (p_dims p) (p_w p)).

(** serde.rs:51 [value.len() * size_hint] *)
Definition x_request (dbg : bool) {T} (t : tensor T) (hint : Z) : outcome Z :=
  let* n := x_len dbg (tn_dims t) in u_res dbg (n * hint).

(** serde.rs:49-74: the loop for higher ranks. *)
Fixpoint x_de_rows (dbg : bool) {T C E} (al : allocator) (ty : shty) (sub : sdata E -> M (world T C) (option (tensor T)))
    (hint : Z) (l : list (sdata E)) (size : Z) : M (parts T C) (option Z) :=
  match l with
  | [] => ret (Some size)
  | v :: l' =>
      r <- inside_parts (sub v) ;;
      match r with
      | None => ret None
      | Some t =>
          if size =? 0
          then
            holding (tn_mem t) (n <- lift (x_request dbg t hint) ;; vec_reserve al n ;;;
                                fun p => p_store ty (hd 0 (p_dims p) :: tn_dims t) p) ;;;
            x_de_append dbg al t ;;;
            size' <- lift (u_res dbg (size + 1)) ;; x_de_rows dbg al ty sub hint l' size'
          else
            fun p =>
              if slice_eqb (tn_dims t) (tl (p_dims p))
              then (x_de_append dbg al t ;;;
                    size' <- lift (u_res dbg (size + 1)) ;; x_de_rows dbg al ty sub hint l' size') p
              else Done None (parts_w (w_drop (tn_mem t) (p_w p)) p)
      end
  end.

(** serde.rs:77-85, and dropping the local variables. *)
Definition x_de_finish (dbg : bool) {T C} (ds : list dimty) (m : M (parts T C) (option Z)) : M (world T C) (option (tensor T)) :=
  fun w =>
    match (r <- m ;;
           match r with
           | None => ret None
           | Some size =>
               fun p =>
                 match sh_head (STuple ds) with
                 | DDyn => (p_store (STuple ds) (size :: tl (p_dims p)) ;;; ret (Some tt)) p
                 | DConst _ => Done (if size =? hd 0 (p_dims p) then Some tt else None) p
                 end
           end) (mkParts [] 0 (map dim_default ds) w) with
    | Done (Some _) p =>
        (t <- xt_from_vec dbg (p_items p) (p_cap p) ;;
         t' <- xt_into_shape dbg (STuple ds) (p_dims p) t ;;
         ret (Some t')) (p_w p)
    | Done None p => Done None (w_drop (p_items p) (p_w p))
    | Unwound p => Unwound (w_drop (p_items p) (p_w p))
    | Aborted => Aborted
    | Fault => Fault
    end.

(** serde.rs:101-115; 32-86 [visit_seq]. *)
Fixpoint x_de_tensor (dbg : bool) {T C E} (al : allocator) (de : sdata E -> C -> call (option T) C) (ds : list dimty)
    (v : sdata E) : M (world T C) (option (tensor T)) :=
  match ds with
  | [] =>
      r <- de_elem de v ;;
      match r with
      | None => ret None
      | Some x =>
          t <- xt_into_shape dbg (STuple []) [] (mkTensor (STuple [DDyn]) [1] [x] 1) ;;
          ret (Some t)
      end
  | d :: ds' =>
      match v with
      | SItem _ => ret None
      | SSeq hint l =>
          let size_hint := match hint with Some n => n | None => 0 end in
          x_de_finish dbg ds
            match ds' with
            | [] => vec_reserve al size_hint ;;; x_de_elems dbg al de l 0
            | _ => x_de_rows dbg al (STuple ds) (x_de_tensor dbg al de ds') size_hint l 0
            end
      end
  end.
Definition xt_deserialize (dbg : bool) {T C E} (al : allocator) (de : sdata E -> C -> call (option T) C) (ty : shty)
    (v : sdata E) : M (world T C) (option (tensor T)) :=
  match ty with
  | SDynRank => check false ;;; ret None
  | STuple ds => x_de_tensor dbg al de ds v
  end.

(** The lengths and the size hints of the sequences read with rank [n] are machine integers. *)
Fixpoint sized {E : Type} (n : nat) (v : sdata E) : Prop :=
  match n, v with
  | S n', SSeq hint l =>
      zlen l <= usize_max /\ 0 <= match hint with Some k => k | None => 0 end <= usize_max /\ Forall (sized n') l
  | _, _ => True
  end.
