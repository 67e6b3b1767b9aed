(** Writing through mutable views of an owned array, and programs that mix such writes with operations on owned arrays,
    with 64-bit machine integers in both build modes.

    The commands are those of [Program.v].  The views are made by [x_run] (Machine.v), their elements visited by
    [x_trace] (MachineTensor.v, MachineIter.v) or found by [x_index_multi] and [x_index_linear], and the operations on
    owned arrays are those of [x_op] (MachineTensor.v).  With overflow checks ([dbg = true]) arithmetic that does not fit
    panics, which can happen before the first or between two writes; without them it wraps around. *)
From Verif Require Import Base Spec Shape Mapping Index View Wf Expr Tensor TensorSpec History Program.
From Verif Require Import Machine MachineSpec MachineIter MachineTensor.

Section Write.
  Context (dbg : bool) {T C : Type}.

  (** slice.rs:55-57 [assign], ops.rs:361-399 [+=] and the other operators, [expr_mut().zip(e).for_each(..)]. *)
  Definition x_edit_zip {Y} (ops : list vop) (e : expression Y) (h : T -> Y -> C -> edit T C)
    : M (tensor T * world T C) unit :=
    fun s =>
      let t := fst s in
      match (let* v := x_run dbg (whole (tn_ty t) (tn_dims t)) ops in
             e_zip (x_e_view dbg (zlen (tn_mem t)) false v) e) with
      | Ok z => let (l, o) := x_trace dbg z in on_items (put_all h l ;;; lift o) s
      | Panic => Unwound s
      | _ => Fault
      end.

  (** [iter_mut], [expr_mut().for_each(..)]. *)
  Definition x_edit (ops : list vop) (h : T -> C -> edit T C) : M (tensor T * world T C) unit :=
    fun s =>
      let t := fst s in
      match x_run dbg (whole (tn_ty t) (tn_dims t)) ops with
      | Ok v =>
          let (l, o) := x_trace dbg (x_e_view dbg (zlen (tn_mem t)) false v) in
          on_items (put_all (fun x _ => h x) (map (fun p => (p, tt)) l) ;;; lift o) s
      | Panic => Unwound s
      | _ => Fault
      end.

  (** slice.rs:235-237 [fill_with]; 227-232 [fill]. *)
  Definition x_fill_with (ops : list vop) (f : C -> call T C) : M (tensor T * world T C) unit :=
    x_edit ops (edit_set f).
  Definition x_fill (ops : list vop) (value : T) (cl : T -> T -> C -> edit T C) : M (tensor T * world T C) unit :=
    fun s =>
      let w := snd s in
      match x_edit ops (cl value) (fst s, mkWorld (w_clo w) (w_made w ++ [value]) (w_used w) (w_dropped w)) with
      | Done a (t, w) => Done a (t, w_drop [value] w)
      | Unwound (t, w) => Unwound (t, w_drop [value] w)
      | Aborted => Aborted
      | Fault => Fault
      end.

  (** index/slice.rs:50-61 and 105-111: [v[idx]] and [v[k]] as the place that is written to. *)
  Definition x_edit_at (ops : list vop) (idx : list Z) (h : T -> C -> edit T C) : M (tensor T * world T C) unit :=
    fun s =>
      let t := fst s in
      match (let* v := x_run dbg (whole (tn_ty t) (tn_dims t)) ops in
             let* off := x_index_multi dbg (v_map v) idx in Ok (v_ptr v + off)) with
      | Ok p => on_items (put_at p h) s
      | Panic => Unwound s
      | _ => Fault
      end.
  Definition x_edit_linear (ops : list vop) (k : Z) (h : T -> C -> edit T C) : M (tensor T * world T C) unit :=
    fun s =>
      let t := fst s in
      match (let* v := x_run dbg (whole (tn_ty t) (tn_dims t)) ops in
             let* off := x_index_linear dbg (v_map v) k in Ok (v_ptr v + off)) with
      | Ok p => on_items (put_at p h) s
      | Panic => Unwound s
      | _ => Fault
      end.

  (** [let (a, b) = t.split_axis_at_mut(axis, mid)] (view.rs:269-298, slice.rs:563-587), with [a] written and [b] read. *)
  Definition x_edit_halves (ops : list vop) (a : axis) (mid : Z) (ops1 ops2 : list vop) (h : T -> T -> C -> edit T C)
    : M (tensor T * world T C) unit :=
    fun s =>
      let t := fst s in let n := zlen (tn_mem t) in
      match (let* v := x_run dbg (whole (tn_ty t) (tn_dims t)) ops in
             let* (a, b) := x_split_axis_at dbg v a mid in
             let* a := x_run dbg a ops1 in
             let* b := x_run dbg b ops2 in
             e_zip (x_e_view dbg n false a) (x_e_view dbg n true b)) with
      | Ok e => let (l, o) := x_trace dbg e in on_items (put_from h l ;;; lift o) s
      | Panic => Unwound s
      | _ => Fault
      end.
End Write.

(** ** Programs *)
Section Run.
  Context (dbg : bool) {T C : Type} (al : allocator).

  Definition x_exec (k : cmd T C) : M (state T C) unit :=
    match k with
    | Own o => x_op dbg al o
    | EachMut i ops h => on_var i (x_edit dbg ops h)
    | ZipMut i ops e h => on_var i (x_edit_zip dbg ops e h)
    | FillWith i ops f => on_var i (x_fill_with dbg ops f)
    | Fill i ops v cl => on_var i (x_fill dbg ops v cl)
    | SetAt i ops idx h => on_var i (x_edit_at dbg ops idx h)
    | SetLinear i ops n h => on_var i (x_edit_linear dbg ops n h)
    | Halves i ops a mid ops1 ops2 h => on_var i (x_edit_halves dbg ops a mid ops1 ops2 h)
    end.

  Fixpoint x_prog (p : list (state T C -> cmd T C)) : M (state T C) unit :=
    match p with
    | [] => ret tt
    | k :: p' => fun st => (x_exec (k st) ;;; x_prog p') st
    end.
End Run.

(** ** What is asked of a program *)

(** The operand [e] can be zipped with the view [v] of a storage of [n] cells (compare [vzips]). *)
Inductive xzips (dbg : bool) {Y} (n : Z) (v : view) (e : expression Y) : Prop :=
| xzips_refused : e_zip (x_e_view dbg n false v) e = Panic -> xzips dbg n v e
| xzips_items z ys o :
    e_zip (x_e_view dbg n false v) e = Ok z ->
    x_trace dbg z = (combine (map (v_addr v) (indices (v_dims v))) ys, o) ->
    (length ys <= length (indices (v_dims v)))%nat ->
    (o = Ok tt /\ length ys = length (indices (v_dims v))) \/ o = Panic ->
    xzips dbg n v e.

(** Views with elements, and contiguous ones. *)
Definition visited (v : view) : Prop := v_layout v = Dense \/ positive (v_dims v).

Section Asked.
  Context (dbg : bool) {T C : Type} (al : allocator).

  Definition x_cmd_ok (k : cmd T C) (st : state T C) : Prop :=
    let on i ops (P : tensor T -> view -> Prop) :=
      forall t, var st i = Some t -> run_machine dbg (whole (tn_ty t) (tn_dims t)) ops /\
        forall v, x_run dbg (whole (tn_ty t) (tn_dims t)) ops = Ok v -> P t v in
    match k with
    | Own o => op_ok o st /\ machine_op dbg o st
    | EachMut i ops _ | FillWith i ops _ | Fill i ops _ _ => on i ops (fun _ v => visited v)
    | ZipMut i ops e h => on i ops (fun t v => xzips dbg (zlen (tn_mem t)) v e)
    | SetAt i ops idx h => on i ops (fun _ _ => nonneg idx)
    | SetLinear i ops n h => on i ops (fun _ _ => 0 <= n)
    | Halves i ops a mid ops1 ops2 h =>
        on i (ops ++ OpSplitFst a mid :: ops1) (fun _ v => positive (v_dims v)) /\
        on i (ops ++ OpSplitSnd a mid :: ops2) (fun _ _ => True)
    end.

  Fixpoint x_prog_ok (p : list (state T C -> cmd T C)) (st : state T C) : Prop :=
    match p with
    | [] => True
    | k :: p' => x_cmd_ok (k st) st /\ (forall st', x_exec dbg al (k st) st = Done tt st' -> x_prog_ok p' st')
    end.

  Fixpoint x_prog_leak (p : list (state T C -> cmd T C)) (st : state T C) : option nat :=
    match p with
    | [] => Some 0%nat
    | k :: p' =>
        match cmd_leak (k st), match x_exec dbg al (k st) st with Done _ st' => x_prog_leak p' st' | _ => Some 0%nat end with
        | Some a, Some b => Some (a + b)%nat
        | _, _ => None
        end
    end.
End Asked.
