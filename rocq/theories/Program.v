(** Writing through mutable views of an owned array, with element code that may panic, and programs
    that mix such writes with the operations of History.v.

    The user's code is given a mutable reference to one element at a time: [x.clone_from(&value)],
    [*x = f()], [y.clone_to(x)], [x += y] or the body of a loop over [iter_mut].  What it can do there
    is to leave the element or put another one in its place, to change what it has captured, and to
    return or panic ([edit]).  An element that was replaced is dropped: with [*x = new] after [new] has
    been computed, and the new value is in place even if the destructor of the old one panics.

    A panic is caught by the program, which goes on with the same tensor. *)
From Verif Require Import Base Spec Shape Mapping Index View Wf Expr Tensor TensorSpec History.

(** The element afterwards ([None]: the one that was there), the captured state, and whether the code
    returned. *)
Inductive edit (T C : Type) : Type := Edit (new : option T) (c : C) (returns : bool).
Arguments Edit {T C} _ _ _.

Section Write.
  Context {T C : Type}.

  (** The code [h] given the cell at address [p].  A reference to a cell outside the storage is
      undefined behaviour. *)
  Definition put_at (p : Z) (h : T -> C -> edit T C) : M (list T * world T C) unit :=
    fun s =>
      match read (fst s) p with
      | Ok x =>
          let '(Edit new c b) := h x (w_clo (snd s)) in
          let s' := match new with
                    | Some y => (upd (fst s) (Z.to_nat p) y, w_drop [x] (w_make c y (snd s)))
                    | None => (fst s, w_set c (snd s))
                    end in
          if b then Done tt s' else Unwound s'
      | _ => Fault
      end.

  (** expression.rs [for_each]: the items are the address of an element and what comes with it. *)
  Fixpoint put_all {Y : Type} (h : T -> Y -> C -> edit T C) (l : list (Z * Y)) : M (list T * world T C) unit :=
    match l with
    | [] => ret tt
    | (p, y) :: l' => put_at p (fun x => h x y) ;;; put_all h l'
    end.

  (** The elements of a tensor are being worked on in place. *)
  Definition on_items {A} (m : M (list T * world T C) A) : M (tensor T * world T C) A :=
    fun s =>
      let t := fst s in
      let back r := (mkTensor (tn_ty t) (tn_dims t) (fst r) (tn_cap t), snd r) in
      match m (tn_mem t, snd s) with
      | Done a r => Done a (back r)
      | Unwound r => Unwound (back r)
      | Aborted => Aborted
      | Fault => Fault
      end.

  (** Making a view of the tensor, then an expression from it, then visiting its items.  Nothing has
      been written if the operations or the zip panic. *)
  Definition tn_visit {Y} (ops : list vop) (mk : Z -> view -> outcome (expression (Z * Y)))
    (h : T -> Y -> C -> edit T C) : M (tensor T * world T C) unit :=
    fun s =>
      let t := fst s in
      match (let* v := v_run (whole (tn_ty t) (tn_dims t)) ops in mk (zlen (tn_mem t)) v) with
      | Ok e => let (l, o) := e_trace e in on_items (put_all h l ;;; lift o) s
      | Panic => Unwound s
      | _ => Fault
      end.

  (** slice.rs:55-57 [assign], ops.rs:361-399 [+=] and the other operators, and
      [expr_mut().zip(e).for_each(..)] in general. *)
  Definition tn_edit_zip {Y} (ops : list vop) (e : expression Y) (h : T -> Y -> C -> edit T C)
    : M (tensor T * world T C) unit :=
    tn_visit ops (fun n v => e_zip (e_view n false v) e) h.

  (** [iter_mut], [expr_mut().for_each(..)]: only the elements themselves. *)
  Definition tn_edit (ops : list vop) (h : T -> C -> edit T C) : M (tensor T * world T C) unit :=
    fun s =>
      let t := fst s in
      match v_run (whole (tn_ty t) (tn_dims t)) ops with
      | Ok v =>
          let (l, o) := e_trace (e_view (zlen (tn_mem t)) false v) in
          on_items (put_all (fun x _ => h x) (map (fun p => (p, tt)) l) ;;; lift o) s
      | Panic => Unwound s
      | _ => Fault
      end.

  (** slice.rs:235-237 [fill_with]: [*x = f()]. *)
  Definition edit_set (f : C -> call T C) (_ : T) (c : C) : edit T C :=
    match f c with Gives y c' => Edit (Some y) c' true | Throws c' => Edit None c' false end.
  Definition tn_fill_with (ops : list vop) (f : C -> call T C) : M (tensor T * world T C) unit :=
    tn_edit ops (edit_set f).

  (** slice.rs:227-232 [fill]: the value is owned by the function and dropped at the end, also when
      [clone_from] panics.  [cl value old] is [old.clone_from(&value)]. *)
  Definition tn_fill (ops : list vop) (value : T) (cl : T -> T -> C -> edit T C) : M (tensor T * world T C) unit :=
    fun s =>
      let w := snd s in
      match tn_edit ops (cl value) (fst s, mkWorld (w_clo w) (w_made w ++ [value]) (w_used w) (w_dropped w)) with
      | Done a (t, w) => Done a (t, w_drop [value] w)
      | Unwound (t, w) => Unwound (t, w_drop [value] w)
      | Aborted => Aborted
      | Fault => Fault
      end.

  (** index/slice.rs:50-61 and 105-111, array.rs and tensor.rs [IndexMut]: [v[idx]] and [v[k]] as the
      place that is written to. *)
  Definition tn_edit_at (ops : list vop) (idx : list Z) (h : T -> C -> edit T C) : M (tensor T * world T C) unit :=
    fun s =>
      let t := fst s in
      match (let* v := v_run (whole (tn_ty t) (tn_dims t)) ops in
             let* off := slice_index_multi (v_map v) idx in Ok (v_ptr v + off)) with
      | Ok p => on_items (put_at p h) s
      | Panic => Unwound s
      | _ => Fault
      end.
  Definition tn_edit_linear (ops : list vop) (k : Z) (h : T -> C -> edit T C) : M (tensor T * world T C) unit :=
    fun s =>
      let t := fst s in
      match (let* v := v_run (whole (tn_ty t) (tn_dims t)) ops in
             let* off := slice_index_linear (v_map v) k in Ok (v_ptr v + off)) with
      | Ok p => on_items (put_at p h) s
      | Panic => Unwound s
      | _ => Fault
      end.

  (** Both halves of a split in use at once, [let (a, b) = t.split_axis_at_mut(axis, mid)] (view.rs:
      269-298, slice.rs:563-587), each after further operations: [a] is written while [b] is read,
      as in [a.assign(&b)], [a += &b].  The item that comes with an element is now a reference into the
      same storage; it is read when the code is given it, after the writes before. *)
  Fixpoint put_from (h : T -> T -> C -> edit T C) (l : list (Z * Z)) : M (list T * world T C) unit :=
    match l with
    | [] => ret tt
    | (p, q) :: l' =>
        (fun s => match read (fst s) q with Ok y => put_at p (fun x => h x y) s | _ => Fault end) ;;; put_from h l'
    end.
  Definition tn_edit_halves (ops : list vop) (a : axis) (mid : Z) (ops1 ops2 : list vop) (h : T -> T -> C -> edit T C)
    : M (tensor T * world T C) unit :=
    fun s =>
      let t := fst s in let n := zlen (tn_mem t) in
      match (let* v := v_run (whole (tn_ty t) (tn_dims t)) ops in
             let* (a, b) := v_split_axis_at v a mid in
             let* a := v_run a ops1 in
             let* b := v_run b ops2 in
             e_zip (e_view n false a) (e_view n true b)) with
      | Ok e => let (l, o) := e_trace e in on_items (put_from h l ;;; lift o) s
      | Panic => Unwound s
      | _ => Fault
      end.
End Write.

(** ** Programs *)

Inductive cmd (T C : Type) : Type :=
| Own (o : op T C)                                                 (* an operation of History.v *)
| EachMut (i : nat) (ops : list vop) (h : T -> C -> edit T C)
| ZipMut {Y : Type} (i : nat) (ops : list vop) (e : expression Y) (h : T -> Y -> C -> edit T C)
| FillWith (i : nat) (ops : list vop) (f : C -> call T C)
| Fill (i : nat) (ops : list vop) (value : T) (cl : T -> T -> C -> edit T C)
| SetAt (i : nat) (ops : list vop) (idx : list Z) (h : T -> C -> edit T C)
| SetLinear (i : nat) (ops : list vop) (k : Z) (h : T -> C -> edit T C)
| Halves (i : nat) (ops : list vop) (a : axis) (mid : Z) (ops1 ops2 : list vop) (h : T -> T -> C -> edit T C).
Arguments Own {T C}.
Arguments EachMut {T C}.
Arguments ZipMut {T C Y}.
Arguments FillWith {T C}.
Arguments Fill {T C}.
Arguments SetAt {T C}.
Arguments SetLinear {T C}.
Arguments Halves {T C}.

Section Run.
  Context {T C : Type} (al : allocator).

  Definition exec (k : cmd T C) : M (state T C) unit :=
    match k with
    | Own o => step al o
    | EachMut i ops h => on_var i (tn_edit ops h)
    | ZipMut i ops e h => on_var i (tn_edit_zip ops e h)
    | FillWith i ops f => on_var i (tn_fill_with ops f)
    | Fill i ops v cl => on_var i (tn_fill ops v cl)
    | SetAt i ops idx h => on_var i (tn_edit_at ops idx h)
    | SetLinear i ops n h => on_var i (tn_edit_linear ops n h)
    | Halves i ops a mid ops1 ops2 h => on_var i (tn_edit_halves ops a mid ops1 ops2 h)
    end.

  (** A program looks at its state before each command. *)
  Fixpoint run_prog (p : list (state T C -> cmd T C)) : M (state T C) unit :=
    match p with
    | [] => ret tt
    | k :: p' => fun st => (exec (k st) ;;; run_prog p') st
    end.
End Run.

(** ** What is asked of a program *)
Section Asked.
  Context {T C : Type} (al : allocator).

  (** A mutable view of a tensor with items: machine sizes and arguments of the types that the
      operations take.  (Wf.v: [run_args].) *)
  Definition view_arg (t : tensor T) (ops : list vop) : Prop :=
    Forall (fun d => d <= usize_max) (tn_dims t) /\ zlen (tn_mem t) <= usize_max /\
    run_args (whole (tn_ty t) (tn_dims t)) ops.
End Asked.

(** The operand [e] can be zipped with the view [v] of a storage of [n] cells: it is refused, or gives
    the items [ys] for the successive elements, all of them unless it panics. *)
Inductive vzips {Y} (n : Z) (v : view) (e : expression Y) : Prop :=
| vzips_refused : e_zip (e_view n false v) e = Panic -> vzips n v e
| vzips_items z ys o :
    e_zip (e_view n false v) e = Ok z ->
    e_trace z = (combine (map (v_addr v) (indices (v_dims v))) ys, o) ->
    (length ys <= length (indices (v_dims v)))%nat ->
    (o = Ok tt /\ length ys = length (indices (v_dims v))) \/ o = Panic ->
    vzips n v e.

(** Views whose internal iteration is right (finding 2 in DESIGN.md): dense ones, and strided ones of
    which all dimensions but the last are non-zero or whose last dimension is 0. *)
Definition visits_right (v : view) : Prop :=
  v_layout v = Dense \/ positive (removelast (v_dims v)) \/ last (v_dims v) 1 = 0.

Definition cmd_ok {T C : Type} (k : cmd T C) (st : state T C) : Prop :=
  let on i ops (P : tensor T -> view -> Prop) :=
    forall t, var st i = Some t -> view_arg t ops /\
      forall v, v_run (whole (tn_ty t) (tn_dims t)) ops = Ok v -> P t v in
  match k with
  | Own o => op_ok o st
  | EachMut i ops _ | FillWith i ops _ | Fill i ops _ _ => on i ops (fun _ v => visits_right v)
  | ZipMut i ops e h => on i ops (fun t v => vzips (zlen (tn_mem t)) v e)
  | SetAt i ops idx h => on i ops (fun _ _ => nonneg idx)
  | SetLinear i ops n h => on i ops (fun _ _ => 0 <= n)
  | Halves i ops a mid ops1 ops2 h =>
      on i (ops ++ OpSplitFst a mid :: ops1) (fun _ v => positive (v_dims v)) /\
      on i (ops ++ OpSplitSnd a mid :: ops2) (fun _ _ => True)
  end.

Fixpoint prog_ok {T C : Type} (al : allocator) (p : list (state T C -> cmd T C)) (st : state T C) : Prop :=
  match p with
  | [] => True
  | k :: p' => cmd_ok (k st) st /\ (forall st', exec al (k st) st = Done tt st' -> prog_ok al p' st')
  end.

(** How many elements a command and a program may leak ([None]: no bound). *)
Definition cmd_leak {T C : Type} (k : cmd T C) : option nat :=
  match k with Own o => leak_limit o | _ => Some 0%nat end.
Fixpoint prog_leak {T C : Type} (al : allocator) (p : list (state T C -> cmd T C)) (st : state T C) : option nat :=
  match p with
  | [] => Some 0%nat
  | k :: p' =>
      match cmd_leak (k st), match exec al (k st) st with Done _ st' => prog_leak al p' st' | _ => Some 0%nat end with
      | Some a, Some b => Some (a + b)%nat
      | _, _ => None
      end
  end.

(** What one code after the other does to the elements [l]: the elements they put there, up to and
    including the first that panics, the captured state, and whether all returned. *)
Fixpoint edited {T C : Type} (l : list (T * (T -> C -> edit T C))) (c : C) : list (option T) * C * bool :=
  match l with
  | [] => ([], c, true)
  | (x, h) :: l' =>
      let '(Edit new c' b) := h x c in
      if b then let '(news, c'', b') := edited l' c' in (new :: news, c'', b') else ([new], c', false)
  end.

Definition somes {T : Type} (l : list (option T)) : list T :=
  flat_map (fun x => match x with Some x => [x] | None => [] end) l.
(** The elements of [xs] in whose place another was put. *)
Definition replaced {T : Type} (xs : list T) (news : list (option T)) : list T :=
  flat_map (fun p => match snd p with Some _ => [fst p] | None => [] end) (combine xs news).

(** The new elements [news], in row-major order of the indices of [dims], are in the cells [addr idx]
    of [mem'].  The elements at indices past the end of [news], those where [news] has none and all
    other cells are those of [mem]. *)
Definition rewritten {T : Type} (dims : list Z) (addr : list Z -> Z) (news : list (option T)) (mem mem' : list T) : Prop :=
  length mem' = length mem /\
  (forall idx, in_bounds dims idx ->
     nth_error mem' (Z.to_nat (addr idx)) =
     match nth_error news (Z.to_nat (flat dims idx)) with
     | Some (Some x) => Some x
     | _ => nth_error mem (Z.to_nat (addr idx))
     end) /\
  (forall a, (forall idx, in_bounds dims idx -> Z.to_nat (addr idx) <> a) ->
     nth_error mem' a = nth_error mem a).
