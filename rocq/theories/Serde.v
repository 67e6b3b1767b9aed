(** Model of [src/serde.rs]: serialization as nested sequences and back. *)
From Verif Require Import Base Spec Shape Mapping Index View Expr Tensor Ops.

(** What a serializer is given and a deserializer offers: values of other types, and sequences with
    the length hint that goes with them.  Serializers do not fail here; in [Sink.v] they may. *)
Inductive sdata (E : Type) : Type := SItem (x : E) | SSeq (hint : option Z) (l : list (sdata E)).
Arguments SItem {E} x.
Arguments SSeq {E} hint l.

(** ** Serialization: serde.rs:117-139.  [ser] serializes an element. *)

Fixpoint ser_loop {T E : Type} (ser : T -> outcome (sdata E)) (mem : list T) (rank : nat) (v : view)
  : outcome (sdata E) :=
  if (length (v_dims v) =? 0)%nat then let* x := v_get mem v [] in ser x
  else
    match rank with
    | O => NoFuel
    | S rank' =>
        let* e := e_axis true v (AxConst 0) in
        let* l := iter_entries (ser_loop ser mem rank') (next_fuel e) (it_new e) in
        Ok (SSeq (Some (nth 0 (v_dims v) 0)) l)
    end.

(** [S::RANK.expect("dynamic rank not supported")] *)
Definition v_serialize {T E : Type} (ser : T -> outcome (sdata E)) (mem : list T) (v : view) : outcome (sdata E) :=
  match sh_rank (v_ty v) with
  | None => Panic
  | Some rank => ser_loop ser mem rank v
  end.

(** ** Deserialization: serde.rs:21-115

    [de] is [T::deserialize]: it gives [Some x], gives [None] (an error), or panics.  An error of the
    sequence itself (input that ends too early, say) is an element that cannot be deserialized.
    The result of an operation that may return [Err] is an [option]. *)

Definition parts_w {T C} (w : world T C) (p : parts T C) : parts T C := mkParts (p_items p) (p_cap p) (p_dims p) w.

(** A panic while [items] belong to a local variable. *)
Definition holding {T C A} (items : list T) (m : M (parts T C) A) : M (parts T C) A :=
  fun p => match m p with Unwound p' => Unwound (parts_w (w_drop items (p_w p')) p') | r => r end.

(** [seq.next_element::<T>()] *)
Definition de_elem {T C E} (de : sdata E -> C -> call (option T) C) (v : sdata E) : M (world T C) (option T) :=
  fun w => match de v (w_clo w) with
           | Gives (Some x) c => Done (Some x) (w_make c x w)
           | Gives None c => Done None (w_set c w)
           | Throws c => Unwound (w_set c w)
           end.

(** The same while [vec] and [shape] are local variables. *)
Definition inside_parts {T C A} (m : M (world T C) A) : M (parts T C) A :=
  fun p => match m (p_w p) with
           | Done a w => Done a (parts_w w p)
           | Unwound w => Unwound (parts_w w p)
           | Aborted => Aborted
           | Fault => Fault
           end.

(** serde.rs:44-47: the loop for rank 1; the number of elements, or an error. *)
Fixpoint de_elems {T C E} (al : allocator) (de : sdata E -> C -> call (option T) C) (l : list (sdata E))
    (size : Z) : M (parts T C) (option Z) :=
  match l with
  | [] => ret (Some size)
  | v :: l' =>
      r <- inside_parts (de_elem de v) ;;
      match r with
      | None => ret None
      | Some x => holding [x] (vec_reserve al 1) ;;; vec_write x ;;; de_elems al de l' (size + 1)
      end
  end.

(** serde.rs:72 [vec.append(&mut value.into_vec())] *)
Definition de_append {T C} (al : allocator) (t : tensor T) : M (parts T C) unit :=
  x <- tn_into_vec t ;;
  holding (fst x) (vec_reserve al (zlen (fst x))) ;;;
  fun p => Done tt (mkParts (p_items p ++ fst x) (p_cap p) (p_dims p) (p_w p)).

(** serde.rs:49-74: the loop for higher ranks; [sub] deserializes a tensor with the tail shape. *)
Fixpoint de_rows {T C E} (al : allocator) (ty : shty) (sub : sdata E -> M (world T C) (option (tensor T)))
    (hint : Z) (l : list (sdata E)) (size : Z) : M (parts T C) (option Z) :=
  match l with
  | [] => ret (Some size)
  | v :: l' =>
      r <- inside_parts (sub v) ;;
      match r with
      | None => ret None
      | Some t =>
          if size =? 0
          then
            let n := tn_len t * hint in
            holding (tn_mem t) (check (n <=? usize_max) ;;; vec_reserve al n ;;;
                                fun p => p_store ty (hd 0 (p_dims p) :: tn_dims t) p) ;;;
            de_append al t ;;;
            de_rows al ty sub hint l' (size + 1)
          else
            fun p =>
              if slice_eqb (tn_dims t) (tl (p_dims p))
              then (de_append al t ;;; de_rows al ty sub hint l' (size + 1)) p
              else Done None (parts_w (w_drop (tn_mem t) (p_w p)) p)
      end
  end.

(** serde.rs:77-85, and dropping the local variables. *)
Definition de_finish {T C} (ds : list dimty) (m : M (parts T C) (option Z)) : M (world T C) (option (tensor T)) :=
  fun w =>
    match (r <- m ;;
           match r with
           | None => ret None
           | Some size =>
               fun p =>
                 match sh_head (STuple ds) with
                 | DDyn => (p_store (STuple ds) (size :: tl (p_dims p)) ;;; ret (Some tt)) p
                 | DConst _ => Done (if size =? hd 0 (p_dims p) then Some tt else None) p
                 end
           end) (mkParts [] 0 (map dim_default ds) w) with
    | Done (Some _) p =>
        (t <- tn_from_vec (p_items p) (p_cap p) ;;
         t' <- tn_into_shape (STuple ds) (p_dims p) t ;;
         ret (Some t')) (p_w p)
    | Done None p => Done None (w_drop (p_items p) (p_w p))
    | Unwound p => Unwound (w_drop (p_items p) (p_w p))
    | Aborted => Aborted
    | Fault => Fault
    end.

(** serde.rs:101-115 for the shape with dimensions [ds]; 32-86 [visit_seq]. *)
Fixpoint de_tensor {T C E} (al : allocator) (de : sdata E -> C -> call (option T) C) (ds : list dimty)
    (v : sdata E) : M (world T C) (option (tensor T)) :=
  match ds with
  | [] =>
      r <- de_elem de v ;;
      match r with
      | None => ret None
      | Some x =>
          (* [tensor![value].into_shape(S::default())] *)
          t <- tn_into_shape (STuple []) [] (mkTensor (STuple [DDyn]) [1] [x] 1) ;;
          ret (Some t)
      end
  | d :: ds' =>
      match v with
      | SItem _ => ret None
      | SSeq hint l =>
          let size_hint := match hint with Some n => n | None => 0 end in
          de_finish ds
            match ds' with
            | [] => vec_reserve al size_hint ;;; de_elems al de l 0
            | _ => de_rows al (STuple ds) (de_tensor al de ds') size_hint l 0
            end
      end
  end.
Definition tn_deserialize {T C E} (al : allocator) (de : sdata E -> C -> call (option T) C) (ty : shty)
    (v : sdata E) : M (world T C) (option (tensor T)) :=
  match ty with
  | SDynRank => check false ;;; ret None
  | STuple ds => de_tensor al de ds v
  end.

(** array.rs:229-233 [From<Tensor<T, S>> for Array<T, S>]. *)
Definition ar_from_tensor {T C} (ds : list dimty) (t : tensor T) : M (world T C) (list T) :=
  owning (tn_mem t) (array_fill ds (tn_dims t) (fun x w => Done x w)
                       (e_trace (e_into (tn_ty t) (tn_dims t) (tn_mem t))) (fun _ => [])).

(** serde.rs:89-99. *)
Definition ar_deserialize {T C E} (al : allocator) (de : sdata E -> C -> call (option T) C) (ds : list dimty)
    (v : sdata E) : M (world T C) (option (list T)) :=
  match ds with
  | [] => r <- de_elem de v ;; match r with Some x => ret (Some [x]) | None => ret None end
  | _ =>
      r <- de_tensor al de ds v ;;
      match r with
      | Some t => l <- ar_from_tensor ds t ;; ret (Some l)
      | None => ret None
      end
  end.
