(** Specification vocabulary for consuming iteration. *)
From Verif Require Import Base.

(** The items among the results of calls of [next]. *)
Fixpoint somes {A : Type} (l : list (option A)) : list A :=
  match l with
  | [] => []
  | Some a :: l' => a :: somes l'
  | None :: l' => somes l'
  end.

(** Cloning the elements of [l] in order until a clone panics: the clones, and how it ended. *)
Fixpoint clones {T C : Type} (clone : T -> C -> outcome (T * C)) (l : list T) (c : C) : list T * outcome unit :=
  match l with
  | [] => ([], Ok tt)
  | x :: l' =>
      match clone x c with
      | Ok (y, c') => let (ys, o) := clones clone l' c' in (y :: ys, o)
      | Panic => ([], Panic)
      | UB => ([], UB)
      | NoFuel => ([], NoFuel)
      end
  end.
