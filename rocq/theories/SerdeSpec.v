(** Specification vocabulary for serialization. *)
From Verif Require Import Base Spec Shape Wf Tensor TensorSpec Serde.

(** [v] is a rectangular nest of sequences with dimensions [dims] whose leaves decode to [xs]. *)
Fixpoint rect {T E : Type} (dec : sdata E -> option T) (dims : list Z) (v : sdata E) (xs : list T) : Prop :=
  match dims with
  | [] => exists x, dec v = Some x /\ xs = [x]
  | d :: ds => exists hint l xss, v = SSeq hint l /\ zlen l = d /\ Forall2 (rect dec ds) l xss /\ xs = concat xss
  end.

(** The dimensions that can be read off a nest: below an empty sequence they are the defaults of the
    shape (the constant sizes, and 0). *)
Fixpoint settle (ds : list dimty) (dims : list Z) : list Z :=
  match ds, dims with
  | _ :: ds', n :: dims' => n :: if n =? 0 then map dim_default ds' else settle ds' dims'
  | _, _ => []
  end.

(** A bound on the number of elements and on the allocations asked for, size hints included, when
    [v] is read with rank [n]. *)
Fixpoint box {E : Type} (n : nat) (v : sdata E) : Z :=
  match n, v with
  | S n', SSeq hint l =>
      Z.max 1 (Z.max (zlen l) (match hint with Some k => k | None => 0 end) *
               fold_right (fun v m => Z.max (box n' v) m) 1 l)
  | _, _ => 1
  end.

(** There is memory enough. *)
Definition adequate {E : Type} (al : allocator) (n : nat) (v : sdata E) : Prop :=
  box n v < usize_max /\ forall k, 0 <= k <= box n v -> al_ok al k = true.

(** The element deserializer decides by [dec], whatever its state; it may also panic. *)
Definition decides {T C E : Type} (de : sdata E -> C -> call (option T) C) (dec : sdata E -> option T) : Prop :=
  forall v c r c', de v c = Gives r c' -> r = dec v.

(** The nest of sequences with dimensions [dims] and the values [get idx]. *)
Fixpoint encoded {E : Type} (get : list Z -> sdata E) (dims : list Z) : sdata E :=
  match dims with
  | [] => get []
  | d :: ds => SSeq (Some d) (map (fun k => encoded (fun idx => get (k :: idx)) ds) (zrange d))
  end.

(** The value reached by following the sequences. *)
Fixpoint sub_at {E : Type} (v : sdata E) (idx : list Z) : option (sdata E) :=
  match idx with
  | [] => Some v
  | i :: idx' =>
      match v with
      | SSeq _ l => match nth_error l (Z.to_nat i) with Some v' => sub_at v' idx' | None => None end
      | SItem _ => None
      end
  end.
