(** Arrays, conversions and deserialization once more, with destructors that may panic: see [Dtor.v].

    As there, items of the second operand of [zip_with] and the values given to a deserializer have no
    destructors. *)
From Verif Require Import Base Spec Shape Mapping Index View Wf Expr Tensor History Ops Serde Nested Dtor.

Section DtorMore.
  Context {T C : Type} (dtor : T -> C -> call unit C) (al : allocator).

  (** ** Arrays *)

  (** array.rs:67-99 [from_expr]: [for_each] owns the expression and drops the elements [rest w] still in
      it; if it panics, or that does, the guard drops the elements written. *)
  Definition array_fill_d {Y} (ds : list dimty) (dims : list Z) (take : Y -> M (world T C) T)
      (trace : list Y * outcome unit) (rest : world T C -> list T) : M (world T C) (list T) :=
    fun w =>
      match sh_from_dims (STuple ds) dims with
      | Ok _ =>
          let n := sh_len (map dim_default ds) in
          match (fill_array n take (fst trace) ;;; lift (snd trace)) ([], w) with
          | Done _ (xs, w) =>
              if zlen xs =? n
              then match dropping dtor (rest w) w xs (fun w => w) with
                   | Unwound w => unwinding dtor xs w (fun w => w)
                   | r => r
                   end
              else Fault
          | Unwound (xs, w) => unwinding dtor (rest w ++ xs) w (fun w => w)
          | Aborted => Aborted
          | Fault => Fault
          end
      | Panic => unwinding dtor (rest w) w (fun w => w)
      | _ => Fault
      end.
  Definition ar_from_expr_d (ds : list dimty) (e : expression T) : M (world T C) (list T) :=
    array_fill_d ds (e_dims e) (fun x => fun w => Done x (w_make (w_clo w) x w)) (e_trace e) (fun _ => []).

  (** array.rs:140-149 [apply], [zip_with]. *)
  Definition ar_zip_with_d {Y} (ds : list dimty) (l : list T) (e : expression Y) (f : T * Y -> C -> call T C)
    : M (world T C) (list T) :=
    fun w =>
      let dims := map dim_default ds in
      match (let* _ := ar_length ds in e_zip (e_into (STuple ds) dims l) e) with
      | Ok z =>
          let take (p : T * Y) : M (world T C) T := fun w =>
            match f p (w_clo w) with
            | Gives r c => Done r (w_make c r (w_use (fst p) w))
            | Throws c => Unwound (w_set c (w_use (fst p) w))
            end in
          let given (w' : world T C) := (length (w_used w') - length (w_used w))%nat in
          array_fill_d ds (e_dims z) take (e_trace z) (fun w' => skipn (given w') l) w
      | Panic => unwinding dtor l w (fun w => w)
      | _ => Fault
      end.
  Definition ar_map_d (ds : list dimty) (l : list T) (f : T -> C -> call T C) : M (world T C) (list T) :=
    fun w =>
      let e := e_into (STuple ds) (map dim_default ds) l in
      let take (x : T) : M (world T C) T := fun w =>
        match f x (w_clo w) with
        | Gives r c => Done r (w_make c r (w_use x w))
        | Throws c => Unwound (w_set c (w_use x w))
        end in
      let given (w' : world T C) := (length (w_used w') - length (w_used w))%nat in
      match ar_length ds with
      | Ok _ => array_fill_d ds (e_dims e) take (e_trace e) (fun w' => skipn (given w') l) w
      | _ => unwinding dtor l w (fun w => w)
      end.

  (** array.rs:54-60 [into_shape], 43-47 [into_scalar], 229-233 [From<Tensor>]. *)
  Definition ar_into_shape_d (ds ds' : list dimty) (l : list T) : M (world T C) (list T) :=
    owning_d dtor l (n <- lift (ar_length ds) ;; check (sh_len (map dim_default ds') =? n) ;;; ret l).
  Definition ar_into_scalar_d (ds : list dimty) (l : list T) : M (world T C) T :=
    owning_d dtor l (n <- lift (ar_length ds) ;; check (n =? 1)) ;;;
    (l' <- ar_into_shape_d ds [] l ;;
     match l' with [x] => ret x | _ => fun _ => Fault end).
  Definition ar_from_tensor_d (ds : list dimty) (t : tensor T) : M (world T C) (list T) :=
    owning_d dtor (tn_mem t) (array_fill_d ds (tn_dims t) (fun x w => Done x w)
                                (e_trace (e_into (tn_ty t) (tn_dims t) (tn_mem t))) (fun _ => [])).

  (** tensor.rs:721-725 [From<Array>]. *)
  Definition tn_from_array_d (ds : list dimty) (l : list T) : M (world T C) (tensor T) :=
    fun w =>
      let dims := map dim_default ds in
      match ar_length ds with
      | Ok len =>
          if (len =? 0) || al_ok al len
          then
            let cap := if len =? 0 then 0 else Z.max len (al_grow al 0 len) in
            match e_trace (e_into (STuple ds) dims l) with
            | (xs, Ok _) => if zlen xs <=? cap then from_parts (STuple ds) dims xs cap w else Fault
            | _ => Fault
            end
          else unwinding dtor l w (fun w => w)
      | _ => unwinding dtor l w (fun w => w)
      end.

  (** ** Nested arrays: tensor.rs:760-771; array.rs:170-191 *)
  Definition tn_from_nested_d (ds : list dimty) (cs : list Z) (n : nested T) : M (world T C) (tensor T) :=
    fun w =>
      match sh_checked_len cs with
      | Some capacity => from_parts (STuple ds) cs (flatten n) capacity w
      | None => unwinding dtor (flatten n) w (fun w => w)
      end.
  Fixpoint clone_nested_d (clone : T -> C -> call T C) (n : nested T) : M (world T C) (nested T) :=
    match n with
    | NItem x => fun w =>
        match clone x (w_clo w) with
        | Gives y c => Done (NItem y) (w_make c y w)
        | Throws c => Unwound (w_set c w)
        end
    | NArr l =>
        (fix go (done l : list (nested T)) : M (world T C) (nested T) :=
           match l with
           | [] => ret (NArr done)
           | x :: l' => y <- owning_d dtor (flat_map flatten done) (clone_nested_d clone x) ;; go (done ++ [y]) l'
           end) [] l
    end.
  Definition ar_from_nested_ref_d (clone : T -> C -> call T C) (n : nested T) : M (world T C) (list T) :=
    n' <- clone_nested_d clone n ;; ret (flatten n').

  (** ** Deserialization: serde.rs:21-115 *)

  Definition holding_d {A} (items : list T) (m : M (parts T C) A) : M (parts T C) A :=
    fun p => match m p with Unwound p' => unwinding dtor items (p_w p') (fun w => parts_w w p') | r => r end.

  Fixpoint de_elems_d {E} (de : sdata E -> C -> call (option T) C) (l : list (sdata E)) (size : Z)
    : M (parts T C) (option Z) :=
    match l with
    | [] => ret (Some size)
    | v :: l' =>
        r <- inside_parts (de_elem de v) ;;
        match r with
        | None => ret None
        | Some x => holding_d [x] (vec_reserve al 1) ;;; vec_write x ;;; de_elems_d de l' (size + 1)
        end
    end.

  Definition de_append_d (t : tensor T) : M (parts T C) unit :=
    x <- tn_into_vec t ;;
    holding_d (fst x) (vec_reserve al (zlen (fst x))) ;;;
    fun p => Done tt (mkParts (p_items p ++ fst x) (p_cap p) (p_dims p) (p_w p)).

  (** A row of other dimensions is dropped when the error is returned. *)
  Fixpoint de_rows_d {E} (ty : shty) (sub : sdata E -> M (world T C) (option (tensor T)))
      (hint : Z) (l : list (sdata E)) (size : Z) : M (parts T C) (option Z) :=
    match l with
    | [] => ret (Some size)
    | v :: l' =>
        r <- inside_parts (sub v) ;;
        match r with
        | None => ret None
        | Some t =>
            if size =? 0
            then
              let n := tn_len t * hint in
              holding_d (tn_mem t) (check (n <=? usize_max) ;;; vec_reserve al n ;;;
                                    fun p => p_store ty (hd 0 (p_dims p) :: tn_dims t) p) ;;;
              de_append_d t ;;;
              de_rows_d ty sub hint l' (size + 1)
            else
              fun p =>
                if slice_eqb (tn_dims t) (tl (p_dims p))
                then (de_append_d t ;;; de_rows_d ty sub hint l' (size + 1)) p
                else dropping dtor (tn_mem t) (p_w p) None (fun w => parts_w w p)
        end
    end.

  Definition de_finish_d (ds : list dimty) (m : M (parts T C) (option Z)) : M (world T C) (option (tensor T)) :=
    fun w =>
      match (r <- m ;;
             match r with
             | None => ret None
             | Some size =>
                 fun p =>
                   match sh_head (STuple ds) with
                   | DDyn => (p_store (STuple ds) (size :: tl (p_dims p)) ;;; ret (Some tt)) p
                   | DConst _ => Done (if size =? hd 0 (p_dims p) then Some tt else None) p
                   end
             end) (mkParts [] 0 (map dim_default ds) w) with
      | Done (Some _) p =>
          (t <- tn_from_vec (p_items p) (p_cap p) ;;
           t' <- tn_into_shape_d dtor (STuple ds) (p_dims p) t ;;
           ret (Some t')) (p_w p)
      | Done None p => dropping dtor (p_items p) (p_w p) None (fun w => w)
      | Unwound p => unwinding dtor (p_items p) (p_w p) (fun w => w)
      | Aborted => Aborted
      | Fault => Fault
      end.

  Fixpoint de_tensor_d {E} (de : sdata E -> C -> call (option T) C) (ds : list dimty) (v : sdata E)
    : M (world T C) (option (tensor T)) :=
    match ds with
    | [] =>
        r <- de_elem de v ;;
        match r with
        | None => ret None
        | Some x =>
            t <- tn_into_shape_d dtor (STuple []) [] (mkTensor (STuple [DDyn]) [1] [x] 1) ;;
            ret (Some t)
        end
    | d :: ds' =>
        match v with
        | SItem _ => ret None
        | SSeq hint l =>
            let size_hint := match hint with Some n => n | None => 0 end in
            de_finish_d ds
              match ds' with
              | [] => vec_reserve al size_hint ;;; de_elems_d de l 0
              | _ => de_rows_d (STuple ds) (de_tensor_d de ds') size_hint l 0
              end
        end
    end.
  Definition tn_deserialize_d {E} (de : sdata E -> C -> call (option T) C) (ty : shty) (v : sdata E)
    : M (world T C) (option (tensor T)) :=
    match ty with
    | SDynRank => check false ;;; ret None
    | STuple ds => de_tensor_d de ds v
    end.
  Definition ar_deserialize_d {E} (de : sdata E -> C -> call (option T) C) (ds : list dimty) (v : sdata E)
    : M (world T C) (option (list T)) :=
    match ds with
    | [] => r <- de_elem de v ;; match r with Some x => ret (Some [x]) | None => ret None end
    | _ =>
        r <- de_tensor_d de ds v ;;
        match r with
        | Some t => l <- ar_from_tensor_d ds t ;; ret (Some l)
        | None => ret None
        end
    end.
End DtorMore.
