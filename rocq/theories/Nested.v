(** Model of the conversions between nested Rust arrays [[[T; B]; A]] and arrays, tensors and views;
    and of the remaining conversions of [src/array.rs]. *)
From Verif Require Import Base Spec Shape Mapping Index View Wf Expr Tensor Ops.

(** ** Nested arrays

    The lengths are part of the Rust type; here they are given by lists of constants. *)
Inductive nested (T : Type) : Type := NItem (x : T) | NArr (l : list (nested T)).
Arguments NItem {T} x.
Arguments NArr {T} l.

(** The elements in the order of their addresses: the elements of an array follow each other without
    gaps. *)
Fixpoint flatten {T : Type} (n : nested T) : list T :=
  match n with NItem x => [x] | NArr l => flat_map flatten l end.

(** Evaluating [f] on a list in order. *)
Fixpoint eachM {A B : Type} (f : A -> outcome B) (l : list A) : outcome (list B) :=
  match l with
  | [] => Ok []
  | x :: l' => let* y := f x in let* ys := eachM f l' in Ok (y :: ys)
  end.

(** The value of the nested array type with lengths [cs] at the address [p], by the same layout. *)
Fixpoint read_nested {T : Type} (mem : list T) (p : Z) (cs : list Z) : outcome (nested T) :=
  match cs with
  | [] => let* x := read mem p in Ok (NItem x)
  | c :: cs' => let* l := eachM (fun k => read_nested mem (p + k * prodZ cs') cs') (zrange c) in Ok (NArr l)
  end.

(** [Clone] of a nested array: the elements in order; when a clone panics, the arrays around it drop
    what they have so far, the innermost first. *)
Fixpoint clone_nested {T C : Type} (clone : T -> C -> call T C) (n : nested T) : M (world T C) (nested T) :=
  match n with
  | NItem x => fun w =>
      match clone x (w_clo w) with
      | Gives y c => Done (NItem y) (w_make c y w)
      | Throws c => Unwound (w_set c w)
      end
  | NArr l =>
      (fix go (done l : list (nested T)) : M (world T C) (nested T) :=
         match l with
         | [] => ret (NArr done)
         | x :: l' => y <- owning (flat_map flatten done) (clone_nested clone x) ;; go (done ++ [y]) l'
         end) [] l
  end.

(** ** Tensors *)

(** tensor.rs:760-771: the shape has the dimensions [ds], the array the lengths [cs]. *)
Definition tn_from_nested {T C : Type} (ds : list dimty) (cs : list Z) (n : nested T) : M (world T C) (tensor T) :=
  fun w =>
    match sh_checked_len cs with
    | Some capacity => from_parts (STuple ds) cs (flatten n) capacity w
    | None => Unwound (w_drop (flatten n) w)
    end.

(** tensor.rs:908-928 *)
Definition tn_try_into_nested {T C : Type} (cs : list Z) (t : tensor T) : M (world T C) (nested T + tensor T) :=
  if slice_eqb (tn_dims t) cs
  then x <- tn_into_vec t ;; n <- lift (read_nested (fst x) 0 cs) ;; ret (inl n)
  else ret (inr t).

(** ** Views *)

(** view.rs:568-593: the view of the elements of a nested array, for both kinds of views. *)
Definition v_from_nested (ds : list dimty) (cs : list Z) : outcome view :=
  match sh_checked_len cs with
  | Some _ => Ok (mkView 0 (DenseM (STuple ds) cs))
  | None => Panic
  end.

(** view.rs:633-663 *)
Definition v_try_into_nested {T : Type} (cs : list Z) (mem : list T) (v : view) : outcome (nested T + view) :=
  if slice_eqb (v_dims v) cs
  then let* n := read_nested mem (v_ptr v) cs in Ok (inl n)
  else Ok (inr v).

(** slice.rs:788-811 [AsRef], [AsMut]: all dimensions are constant, so the slice is its elements. *)
Definition v_as_nested {T : Type} (mem : list T) (v : view) : outcome (nested T) :=
  read_nested mem (v_ptr v) (v_dims v).

(** tensor.rs:751-758: [from_expr(View::from(value).cloned())]; [cl] is [T::clone]. *)
Definition tn_from_nested_ref {T C F : Type} (al : allocator) (cl : T -> F -> outcome (T * F)) (f0 : F) (ds : list dimty)
    (cs : list Z) (n : nested T) : M (world T C) (tensor T) :=
  v <- lift (v_from_nested ds cs) ;;
  tn_from_expr al (e_cloned (fun addr s => let* x := read (flatten n) addr in cl x s) f0 (e_view (zlen (flatten n)) true v)).

(** ** Arrays

    An array is its elements in row-major order, as in [Tensor.v]; this is what its field, a nested
    array, is in memory. *)

(** array.rs:246-250, 252-262, and the reference conversions of 170-191. *)
Definition ar_from_nested {T : Type} (n : nested T) : list T := flatten n.
Definition ar_into_nested {T : Type} (ds : list dimty) (l : list T) : outcome (nested T) := read_nested l 0 (map dim_default ds).
Definition ar_from_nested_ref {T C : Type} (clone : T -> C -> call T C) (n : nested T) : M (world T C) (list T) :=
  n' <- clone_nested clone n ;; ret (flatten n').

(** array.rs:54-60 [into_shape]: [self.len()] goes through [Deref]. *)
Definition ar_into_shape {T C : Type} (ds ds' : list dimty) (l : list T) : M (world T C) (list T) :=
  owning l (n <- lift (ar_length ds) ;; check (sh_len (map dim_default ds') =? n) ;;; ret l).

(** array.rs:43-47 [into_scalar] *)
Definition ar_into_scalar {T C : Type} (ds : list dimty) (l : list T) : M (world T C) T :=
  owning l (n <- lift (ar_length ds) ;; check (n =? 1)) ;;;
  (l' <- ar_into_shape ds [] l ;;
   match l' with [x] => ret x | _ => fun _ => Fault end).

(** tensor.rs:721-725 [From<Array>]: [from_expr(value.into_expr())].  The elements are moved. *)
Definition tn_from_array {T C : Type} (al : allocator) (ds : list dimty) (l : list T) : M (world T C) (tensor T) :=
  fun w =>
    let dims := map dim_default ds in
    match ar_length ds with
    | Ok len =>
        if (len =? 0) || al_ok al len
        then
          let cap := if len =? 0 then 0 else Z.max len (al_grow al 0 len) in
          match e_trace (e_into (STuple ds) dims l) with
          | (xs, Ok _) => if zlen xs <=? cap then from_parts (STuple ds) dims xs cap w else Fault
          | _ => Fault
          end
        else Unwound (w_drop l w)
    | _ => Unwound (w_drop l w)
    end.

(** view.rs:399-411: slices and rank-1 views. *)
Definition v_from_slice {T : Type} (s : list T) : view := mkView 0 (DenseM (STuple [DDyn]) [zlen s]).
Definition v_to_slice {T : Type} (mem : list T) (v : view) : outcome (list T) := cells mem (v_ptr v) (m_len (v_map v)).
