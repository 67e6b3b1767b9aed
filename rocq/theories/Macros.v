(** Model of [src/macros.rs] ([array!], [tensor!], [view!]), of the conversions to shapes of
    [src/shape.rs] and of the guards of [src/expr/iter.rs] and [src/expr/into_expr.rs] against showing
    or cloning an iterator in use. *)
From Verif Require Import Base Spec Shape Mapping Index View Wf Expr Tensor Ops Nested Consume.

(** ** Conversions to shapes *)

(** The types that implement [IntoShape] (shape.rs:478-586): a shape; a reference to an array or a
    slice; a box or a vector; one dimension; an array. *)
Inductive shape_arg :=
| AShape (ty : shty) (dims : list Z)
| ASlice (dims : list Z)
| ABox (dims : list Z)
| AConst (n : Z)
| ADyn (n : Z)
| AArr (dims : list Z).

(** shape.rs:478-586 [into_shape]: the type and the dimensions. *)
Definition into_shape (a : shape_arg) : outcome (shty * list Z) :=
  match a with
  | AShape ty dims => Ok (ty, dims)
  | ASlice dims => let* ds := sh_from_dims SDynRank dims in Ok (SDynRank, ds)
  | ABox dims => Ok (SDynRank, dims)
  | AConst n => Ok (STuple [DConst n], [n])
  | ADyn n => Ok (STuple [DDyn], [n])
  | AArr dims => let* ds := sh_from_dims (STuple (repeat DDyn (length dims))) dims in
                 Ok (STuple (repeat DDyn (length dims)), ds)
  end.

(** shape.rs:478-586 [into_dims]: the slice given to the closure. *)
Definition into_dims (a : shape_arg) : list Z :=
  match a with
  | AShape _ dims | ASlice dims | ABox dims | AArr dims => dims
  | AConst n | ADyn n => [n]
  end.

(** ** The argument of a macro

    An expression that is neither a bracketed list nor a bracketed repetition, with its value (itself
    an array perhaps); [[t, t, ..]]; [[t; n]].  Trailing commas are dropped. *)
Inductive tok (T : Type) : Type := Ex (v : nested T) | Lst (l : list (tok T)) | Rep (t : tok T) (n : Z).
Arguments Ex {T} v.
Arguments Lst {T} l.
Arguments Rep {T} t n.

(** The value of a Rust expression: array expressions are lists or repetitions. *)
Fixpoint value {T : Type} (t : tok T) : nested T :=
  match t with
  | Ex v => v
  | Lst l => NArr (map value l)
  | Rep t n => NArr (repeat (value t) (Z.to_nat n))
  end.

(** What stands between the brackets of the macro: [t, t, ..] or [t; n]. *)
Inductive body (T : Type) : Type := Items (l : list (tok T)) | Repeat (t : tok T) (n : Z).
Arguments Items {T} l.
Arguments Repeat {T} t n.

(** macros.rs:29-46, 95-112, 161-178: the arm for [k + 1] levels of brackets ([,+] at all levels but the
    innermost, where it is [,*]); the array that it makes. *)
Fixpoint arm_list {T : Type} (k : nat) (l : list (tok T)) : option (nested (nested T)) :=
  match k with
  | O => Some (NArr (map (fun t => NItem (value t)) l))
  | S k' =>
      match l with
      | [] => None
      | _ :: _ =>
          match
            (fix go (l : list (tok T)) : option (list (nested (nested T))) :=
               match l with
               | [] => Some []
               | Lst m :: l' =>
                   match arm_list k' m, go l' with
                   | Some a, Some r => Some (a :: r)
                   | _, _ => None
                   end
               | _ :: _ => None
               end) l
          with
          | Some r => Some (NArr r)
          | None => None
          end
      end
  end.

(** macros.rs:47-64, 113-130, 179-196: the arm for [k + 1] repetitions: the element and the counts, the
    outermost first. *)
Fixpoint arm_rep {T : Type} (k : nat) (t : tok T) (n : Z) : option (tok T * list Z) :=
  match k with
  | O => Some (t, [n])
  | S k' =>
      match t with
      | Rep t' n' => match arm_rep k' t' n' with Some (x, ds) => Some (x, n :: ds) | None => None end
      | _ => None
      end
  end.

(** The arms are tried in the order in which they are written: from six levels down to one. *)
Fixpoint first_arm {A : Type} (arm : nat -> option A) (k : nat) : option (nat * A) :=
  match arm k with
  | Some a => Some (S k, a)
  | None => match k with O => None | S k' => first_arm arm k' end
  end.
Definition list_arms {T : Type} (l : list (tok T)) : option (nat * nested (nested T)) :=
  first_arm (fun k => arm_list k l) 5.
Definition rep_arms {T : Type} (t : tok T) (n : Z) : option (nat * (tok T * list Z)) :=
  first_arm (fun k => arm_rep k t n) 5.

(** The lengths in the type of an array with [d] levels, by type inference: those of its first element. *)
Fixpoint lens {T : Type} (d : nat) (n : nested T) : list Z :=
  match d with
  | O => []
  | S d' =>
      match n with
      | NArr l => zlen l :: match l with x :: _ => lens d' x | [] => repeat 0 d' end
      | NItem _ => []
      end
  end.

(** The array expression [[[x; c]; b]; a]. *)
Fixpoint rep_nested {T : Type} (dims : list Z) (x : T) : nested T :=
  match dims with
  | [] => NItem x
  | n :: ds => NArr (repeat (rep_nested ds x) (Z.to_nat n))
  end.

(** macros.rs:28-65 [array!]: the dimensions, all constant, and the elements; [None]: not accepted. *)
Definition array_mac {T : Type} (b : body T) : option (list Z * list (nested T)) :=
  match b with
  | Items l =>
      match list_arms l with
      | Some (d, n) => Some (lens d n, ar_from_nested n)
      | None => None
      end
  | Repeat t n =>
      match rep_arms t n with
      | Some (_, (x, ds)) => Some (ds, ar_from_nested (rep_nested ds (value x)))
      | None => None
      end
  end.

(** macros.rs:94-131 [tensor!]; [cl] is the [Clone] of the element with captured state [f0]. *)
Definition tensor_mac {T C F : Type} (al : allocator) (cl : nested T -> F -> outcome (nested T * F)) (f0 : F)
    (b : body T) : option (M (world (nested T) C) (tensor (nested T))) :=
  match b with
  | Items l =>
      match list_arms l with
      | Some (d, n) => Some (tn_from_nested (repeat DDyn d) (lens d n) n)
      | None => None
      end
  | Repeat t n =>
      match rep_arms t n with
      | Some (_, (x, ds)) =>
          Some (s <- lift (into_shape (AArr ds)) ;;
                e <- lift (e_from_elem (fst s) (snd s) (cl (value x)) f0) ;;
                tn_from_expr al e)
      | None => None
      end
  end.

(** macros.rs:160-197 [view!]: the memory of the array it borrows and the view. *)
Definition view_mac {T : Type} (b : body T) : option (list (nested T) * outcome view) :=
  match b with
  | Items l =>
      match list_arms l with
      | Some (d, n) => Some (flatten n, v_from_nested (repeat DDyn d) (lens d n))
      | None => None
      end
  | Repeat t n =>
      match rep_arms t n with
      | Some (d, (x, ds)) => Some (flatten (rep_nested ds (value x)), v_from_nested (repeat DDyn d) ds)
      | None => None
      end
  end.

(** ** Showing and cloning iterators *)

(** iter.rs:66-72 [Debug]: the expression is shown by [show]. *)
Definition it_fmt {A R : Type} {e : expression A} (show : e_st e -> outcome R) (it : iter e) : outcome R :=
  let* _ := assert (it_index it =? 0) in show (it_st it).

(** into_expr.rs:33-42, 59-63: [as_ref] has only a debug assertion; showing an element that is moved out
    reads what is no longer an element. *)
Definition into_show {A : Type} (l : list A) (index : Z) : outcome (list A) :=
  if index =? 0 then Ok l else UB.
(** adapters.rs:336-340: both expressions. *)
Definition zip_show {S1 S2 R1 R2 : Type} (f : S1 -> outcome R1) (g : S2 -> outcome R2) (st : S1 * S2) : outcome (R1 * R2) :=
  let* a := f (fst st) in let* b := g (snd st) in Ok (a, b).

(** iter.rs:9 (derived) [Clone] of an iterator over a consumed tensor: the expression, then the indices. *)
Definition it_clone {T C : Type} (clone : T -> C -> call T C) (t : tensor T)
    (it : iter (e_into (tn_ty t) (tn_dims t) (tn_mem t))) : M (world T C) (into T * (Z * Z * list Z * list Z)) :=
  c <- in_clone clone (mkInto t (it_st it)) ;;
  ret (c, (it_index it, it_limit it, it_outer it, it_olimit it)).
