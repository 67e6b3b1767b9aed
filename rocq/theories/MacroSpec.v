(** Specification vocabulary for the macros. *)
From Verif Require Import Base Spec Tensor Nested Macros.

(** [t] is written as a list of [c] lists of [c'] lists .. of elements that are not lists, for
    [cs = [c; c'; ..]]. *)
Fixpoint written {T : Type} (cs : list Z) (t : tok T) : Prop :=
  match cs with
  | [] => forall l, t <> Lst l
  | c :: cs' => exists l, t = Lst l /\ zlen l = c /\ Forall (written cs') l
  end.

(** What is written at a position. *)
Fixpoint t_at {T : Type} (t : tok T) (idx : list Z) : option (tok T) :=
  match idx with
  | [] => Some t
  | i :: idx' =>
      match t with
      | Lst l => match nth_error l (Z.to_nat i) with Some m => t_at m idx' | None => None end
      | _ => None
      end
  end.

(** [[[x; c]; b]; a] for [dims = [a; b; c]]. *)
Fixpoint reps {T : Type} (dims : list Z) (x : tok T) : tok T :=
  match dims with [] => x | n :: ds => Rep (reps ds x) n end.

(** The same written as lists. *)
Fixpoint lists {T : Type} (dims : list Z) (x : tok T) : tok T :=
  match dims with [] => x | n :: ds => Lst (repeat (lists ds x) (Z.to_nat n)) end.
