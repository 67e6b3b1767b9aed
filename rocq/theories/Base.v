(** Common vocabulary of the model: outcomes of a Rust call and list helpers.

    [outcome A] is the result of running a piece of Rust code:
    - [Ok a]    it returned [a];
    - [Panic]   it panicked (failed [assert!], bounds check, [expect], ...);
    - [UB]      it did something a safe program must never do
                (read or write outside the storage);
    - [NoFuel]  a loop of the model ran out of fuel.  Not an outcome of the Rust
                code; theorems show it does not occur. *)
From Coq Require Export List ZArith Lia Bool Arith Permutation.
From Coq Require Export ZifyBool ZifyNat.
Export ListNotations.
Global Open Scope Z_scope.
Global Set Implicit Arguments.

Inductive outcome (A : Type) : Type :=
| Ok (a : A)
| Panic
| UB
| NoFuel.
Arguments Ok {A} a.
Arguments Panic {A}.
Arguments UB {A}.
Arguments NoFuel {A}.

Definition bind {A B : Type} (m : outcome A) (k : A -> outcome B) : outcome B :=
  match m with
  | Ok a => k a
  | Panic => Panic
  | UB => UB
  | NoFuel => NoFuel
  end.

Notation "'let*' x ':=' m 'in' k" := (bind m (fun x => k))
  (at level 200, x pattern, m at level 100, k at level 200, right associativity).

(** [assert!(b)] *)
Definition assert (b : bool) : outcome unit := if b then Ok tt else Panic.

(** Rust's [v[i] = x] on a fixed-length array; the position is in range wherever
    the model uses it (an out-of-range write leaves the list unchanged). *)
Fixpoint upd {A : Type} (l : list A) (i : nat) (x : A) : list A :=
  match l, i with
  | [], _ => []
  | _ :: t, O => x :: t
  | a :: t, S j => a :: upd t j x
  end.

(** [v[i]] with the bounds check of Rust. *)
Definition get_nth {A : Type} (l : list A) (i : nat) : outcome A :=
  match nth_error l i with
  | Some a => Ok a
  | None => Panic
  end.

(** The list [0; 1; ..; n-1] as integers. *)
Definition zrange (n : Z) : list Z := map Z.of_nat (seq 0 (Z.to_nat n)).

(** [usize::MAX] and [isize::MAX] on a 64-bit target. *)
Definition usize_max : Z := 2 ^ 64 - 1.
Definition isize_max : Z := 2 ^ 63 - 1.
