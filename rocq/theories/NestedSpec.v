(** Specification vocabulary for nested Rust arrays. *)
From Verif Require Import Base Spec Tensor Nested.

(** [n] is a value of the array type with lengths [cs], the outermost first. *)
Fixpoint shaped {T : Type} (cs : list Z) (n : nested T) : Prop :=
  match cs with
  | [] => exists x, n = NItem x
  | c :: cs' => exists l, n = NArr l /\ zlen l = c /\ Forall (shaped cs') l
  end.

(** [n[i][j]..] *)
Fixpoint n_at {T : Type} (n : nested T) (idx : list Z) : option T :=
  match idx with
  | [] => match n with NItem x => Some x | NArr _ => None end
  | i :: idx' =>
      match n with
      | NArr l => match nth_error l (Z.to_nat i) with Some m => n_at m idx' | None => None end
      | NItem _ => None
      end
  end.

(** Cloning the elements of a list in order with captured state, until a clone panics: the clones and
    how it ends. *)
Fixpoint clones {T F : Type} (cl : T -> F -> outcome (T * F)) (l : list T) (s : F) : list T * outcome F :=
  match l with
  | [] => ([], Ok s)
  | x :: l' =>
      match cl x s with
      | Ok (y, s') => let (ys, o) := clones cl l' s' in (y :: ys, o)
      | Panic => ([], Panic)
      | UB => ([], UB)
      | NoFuel => ([], NoFuel)
      end
  end.
