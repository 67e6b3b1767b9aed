(** Serialization to a serializer that may fail: [src/serde.rs] once more.  Here a serializer is anything that
    takes the calls it is given one after the other, with a state, and may return an error or panic. *)
From Verif Require Import Base Shape Mapping Index View Expr Ops.

(** The calls: [serialize_seq(Some(len))]; [serialize_element], which begins an element, serializes it and is
    finished with it; [end]; and [serialize] of an element of type [T]. *)
Inductive sevent (T : Type) : Type := EvSeq (len : Z) | EvItem | EvNext | EvEnd | EvValue (x : T).
Arguments EvSeq {T} len.
Arguments EvItem {T}.
Arguments EvNext {T}.
Arguments EvEnd {T}.
Arguments EvValue {T} x.

(** What comes of a call. *)
Inductive sres (S : Type) : Type := SGoes (s : S) | SFails (s : S) | SPanics (s : S).
Arguments SGoes {S} s.
Arguments SFails {S} s.
Arguments SPanics {S} s.

(** The [?] operator, and unwinding. *)
Definition s_then {S : Type} (r : outcome (sres S)) (f : S -> outcome (sres S)) : outcome (sres S) :=
  let* x := r in match x with SGoes s => f s | SFails s => Ok (SFails s) | SPanics s => Ok (SPanics s) end.

(** serde.rs:131-133: the [for] loop. *)
Fixpoint emit_items {A S : Type} {e : expression A} (f : A -> S -> outcome (sres S)) (fuel : nat) (it : iter e) (s : S)
  : outcome (sres S) :=
  match fuel with
  | O => NoFuel
  | Datatypes.S fuel' =>
      let* (x, it') := it_next it in
      match x with
      | None => Ok (SGoes s)
      | Some x => s_then (f x s) (fun s => emit_items f fuel' it' s)
      end
  end.

(** serde.rs:123-139. *)
Fixpoint emit_loop {T S : Type} (k : sevent T -> S -> sres S) (mem : list T) (rank : nat) (v : view) (s : S)
  : outcome (sres S) :=
  if (length (v_dims v) =? 0)%nat then let* x := v_get mem v [] in Ok (k (EvValue x) s)
  else
    match rank with
    | O => NoFuel
    | Datatypes.S rank' =>
        s_then (Ok (k (EvSeq (nth 0 (v_dims v) 0)) s)) (fun s =>
        let* e := e_axis true v (AxConst 0) in
        s_then (emit_items (fun w s => s_then (Ok (k EvItem s)) (fun s =>
                                       s_then (emit_loop k mem rank' w s) (fun s => Ok (k EvNext s))))
                           (next_fuel e) (it_new e) s) (fun s =>
        Ok (k EvEnd s)))
    end.

Definition v_emit {T S : Type} (k : sevent T -> S -> sres S) (mem : list T) (v : view) (s : S) : outcome (sres S) :=
  match sh_rank (v_ty v) with
  | None => Panic
  | Some rank => emit_loop k mem rank v s
  end.
