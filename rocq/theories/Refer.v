(** A reference interpreter: programs over arrays that are nothing but sizes and a list of elements.

    An array is a shape type, its sizes and its elements in row-major order; there are no strides, layouts, storage,
    capacities or iterators.  [r_do] says what an action does to such arrays; views are given by the indices that they
    select (Select.v).  [code] says which calls of the library an action stands for.  Used in the statement of C78. *)
From Verif Require Import Base Spec Shape Mapping Index View Wf Expr ExprSpec Tensor TensorSpec History Program Select.

(** ** Arrays and states *)

Record arr (T : Type) : Type := mkArr { a_ty : shty; a_dims : list Z; a_els : list T }.
Arguments mkArr {T} _ _ _.
Arguments a_ty {T} _.
Arguments a_dims {T} _.
Arguments a_els {T} _.

(** Variables, the state that the user's code has captured, and the elements that were handed out. *)
Record rstate (T C : Type) : Type := mkRef { r_vars : list (option (arr T)); r_clo : C; r_out : list T }.
Arguments mkRef {T C} _ _ _.
Arguments r_vars {T C} _.
Arguments r_clo {T C} _.
Arguments r_out {T C} _.

(** What can be seen of a state of the library. *)
Definition as_arr {T} (t : tensor T) : arr T := mkArr (tn_ty t) (tn_dims t) (tn_mem t).
Definition seen {T C} (st : state T C) : rstate T C :=
  mkRef (map (option_map as_arr) (st_vars st)) (w_clo (st_w st)) (w_used (st_w st)).

(** ** Actions *)

Inductive act (T C : Type) : Type :=
| ANew (ty : shty) (cap : Z)
| AFromVec (items : list T)
| AClone (i : nat) (cl : T -> C -> call T C)
| AClear (i : nat)
| ATruncate (i : nat) (size : Z)
| AReserve (i : nat) (n : Z)
| AShrink (i : nat) (n : Z)
| AExpand (i j : nat) (ops : list vop) (cl : T -> C -> call T C)           (* i.expand(&j.view(..)) *)
| AExtend (i : nat) (ys : list (C -> call T C))
| AResizeWith (i : nat) (dims : list Z) (f : C -> call T C)
| AResize (i : nat) (dims : list Z) (value : T) (cl : T -> C -> call T C)
| ADrain (i : nat) (lo hi : bound) (k : nat)                               (* take [k] elements, drop the drain *)
| ACloneFrom (i j : nat) (cl : T -> C -> call T C)
| AAppend (i j : nat)
| AIntoShape (i : nat) (ty : shty) (dims : list Z)
| AIntoMapping (i : nat) (ty : shty)
| AIntoFlat (i : nat)
| AZipWith (i j : nat) (ops : list vop) (f : T * T -> C -> call T C)       (* i.zip_with(&j.view(..), f), i + &j.view(..) *)
| AMap (i : nat) (f : T -> C -> call T C)
| AIterate (i : nat) (k : nat)
| AIntoScalar (i : nat)
| ADrop (i : nat)
| AEach (i : nat) (ops : list vop) (h : T -> C -> edit T C)                (* for x in i.view_mut(..) *)
| AZipEach (i : nat) (ops : list vop) (j : nat) (ops' : list vop) (h : T -> T -> C -> edit T C)   (* assign, += *)
| AFillWith (i : nat) (ops : list vop) (f : C -> call T C)
| AFill (i : nat) (ops : list vop) (value : T) (cl : T -> T -> C -> edit T C)
| ASetAt (i : nat) (ops : list vop) (idx : list Z) (h : T -> C -> edit T C)
| ASetLinear (i : nat) (ops : list vop) (k : Z) (h : T -> C -> edit T C)
| AHalves (i : nat) (ops : list vop) (a : axis) (mid : Z) (ops1 ops2 : list vop) (h : T -> T -> C -> edit T C).
Arguments ANew {T C}.
Arguments AFromVec {T C}.
Arguments AClone {T C}.
Arguments AClear {T C}.
Arguments ATruncate {T C}.
Arguments AReserve {T C}.
Arguments AShrink {T C}.
Arguments AExpand {T C}.
Arguments AExtend {T C}.
Arguments AResizeWith {T C}.
Arguments AResize {T C}.
Arguments ADrain {T C}.
Arguments ACloneFrom {T C}.
Arguments AAppend {T C}.
Arguments AIntoShape {T C}.
Arguments AIntoMapping {T C}.
Arguments AIntoFlat {T C}.
Arguments AZipWith {T C}.
Arguments AMap {T C}.
Arguments AIterate {T C}.
Arguments AIntoScalar {T C}.
Arguments ADrop {T C}.
Arguments AEach {T C}.
Arguments AZipEach {T C}.
Arguments AFillWith {T C}.
Arguments AFill {T C}.
Arguments ASetAt {T C}.
Arguments ASetLinear {T C}.
Arguments AHalves {T C}.

(** ** The code that an action stands for *)

(** [&j.view(..)] as an operand: the elements are read through the view. *)
Definition operand {T C} (st : state T C) (j : nat) (ops : list vop) : expression T :=
  match var st j with
  | Some t =>
      match v_run (whole (tn_ty t) (tn_dims t)) ops with
      | Ok v => e_copied (read (tn_mem t)) (e_view (zlen (tn_mem t)) true v)
      | _ => e_into (STuple [DDyn]) [0] []
      end
  | None => e_into (STuple [DDyn]) [0] []
  end.

Definition code {T C} (a : act T C) (st : state T C) : cmd T C :=
  match a with
  | ANew ty cap => Own (New ty cap)
  | AFromVec items => Own (FromVec items (zlen items))
  | AClone i cl => Own (Clone i cl)
  | AClear i => Own (Clear i)
  | ATruncate i n => Own (Truncate i n)
  | AReserve i n => Own (Reserve i n)
  | AShrink i n => Own (ShrinkTo i n)
  | AExpand i j ops cl => Own (Expand i (operand st j ops) cl)
  | AExtend i ys => Own (Extend i ys)
  | AResizeWith i dims f => Own (ResizeWith i dims f)
  | AResize i dims x cl => Own (Resize i dims x cl)
  | ADrain i lo hi k => Own (DrainTake i lo hi k)
  | ACloneFrom i j cl => Own (CloneFrom i j cl)
  | AAppend i j => Own (Append i j)
  | AIntoShape i ty dims => Own (IntoShape i ty dims)
  | AIntoMapping i ty => Own (IntoMapping i ty)
  | AIntoFlat i => Own (IntoFlat i)
  | AZipWith i j ops f => Own (ZipWith i (operand st j ops) f)
  | AMap i f => Own (Map i f)
  | AIterate i k => Own (Iterate i k)
  | AIntoScalar i => Own (IntoScalar i)
  | ADrop i => Own (Drop i)
  | AEach i ops h => EachMut i ops h
  | AZipEach i ops j ops' h => ZipMut i ops (operand st j ops') h
  | AFillWith i ops f => FillWith i ops f
  | AFill i ops value cl => Fill i ops value cl
  | ASetAt i ops idx h => SetAt i ops idx h
  | ASetLinear i ops k h => SetLinear i ops k h
  | AHalves i ops a mid ops1 ops2 h => Halves i ops a mid ops1 ops2 h
  end.

(** ** Tests *)

Definition fitsb (dims : list Z) : bool :=
  forallb (fun k => prodZ (firstn k dims) <=? usize_max) (seq 0 (S (length dims))).
Fixpoint typedb (ds : list dimty) (dims : list Z) : bool :=
  match ds, dims with
  | [], [] => true
  | DConst n :: ds', d :: dims' => (n =? d) && typedb ds' dims'
  | DDyn :: ds', _ :: dims' => typedb ds' dims'
  | _, _ => false
  end.
Definition has_ty (ty : shty) (dims : list Z) : bool := match ty with SDynRank => true | STuple ds => typedb ds dims end.
(** The request can be met with [len] elements. *)
Definition meets (len : Z) (req : list Z) : bool :=
  fitsb (known req) &&
  match inferred req with
  | 0%nat => prodZ req =? len
  | 1%nat => negb (prodZ (known req) =? 0) && (len mod prodZ (known req) =? 0)
  | _ => false
  end.
Definition axis_in (a : axis) (rank : nat) : bool :=
  match a with AxConst n | AxDyn n => n <? rank | AxRows => 1 <=? rank | AxCols => 2 <=? rank end%nat.
Definition in_range (lo hi : bound) (d : Z) : bool := (range_lo lo <=? range_hi d hi) && (range_hi d hi <=? d).
Definition ix_fits (d : Z) (x : dim_index) : bool :=
  match x with
  | IxUsize i => i <? d
  | IxFull => true
  | IxRange lo hi => in_range lo hi d
  | IxStep lo hi s => in_range lo hi d && negb (s =? 0)
  end.
Fixpoint all_fit (dims : list Z) (xs : list dim_index) : bool :=
  match dims, xs with
  | [], [] => true
  | d :: ds, x :: xt => ix_fits d x && all_fit ds xt
  | _, _ => false
  end.
Definition permutes (rank : nat) (perm : list Z) : bool :=
  (length perm =? rank)%nat && forallb (fun k => existsb (Z.eqb (Z.of_nat k)) perm) (seq 0 rank).
Definition op_works (dims : list Z) (o : vop) : bool :=
  let rank := length dims in
  match o with
  | OpAxisAt a k => axis_in a rank && (k <? nth (axis_dim a rank) dims 0)
  | OpSplitFst a mid | OpSplitSnd a mid => axis_in a rank && (mid <=? nth (axis_dim a rank) dims 0)
  | OpView xs => all_fit dims xs
  | OpPermute _ perm => permutes rank perm
  | OpReorder | OpFlatten => true
  | OpReshape ty req => meets (prodZ dims) req && has_ty ty (resolved (prodZ dims) req)
  | OpRemap _ ty => has_ty ty dims
  | OpCol k => match dims with [_; d1] => k <? d1 | _ => false end
  | OpRow k => match dims with [d0; _] => k <? d0 | _ => false end
  | OpDiag k => match dims with [d0; d1] => (- d0 <=? k) && (k <=? d1) | _ => false end
  end.
Fixpoint chain_works (dims : list Z) (os : list vop) : bool :=
  match os with [] => true | o :: ot => op_works dims o && chain_works (op_dims dims o) ot end.

(** An operand of sizes [b] goes with an array of sizes [a]: it has its last dimensions. *)
Fixpoint sizes_eq (a b : list Z) : bool :=
  match a, b with [], [] => true | x :: a', y :: b' => (x =? y) && sizes_eq a' b' | _, _ => false end.
Definition goes_with (a b : list Z) : bool :=
  (length b <=? length a)%nat && sizes_eq (lastn (length b) a) b.

(** ** Elements *)

Section Elements.
  Context {T : Type}.

  (** Those at the given indices. *)
  Definition at_indices (dims : list Z) (els : list T) (l : list (list Z)) : list T :=
    flat_map (fun idx => match nth_error els (Z.to_nat (flat dims idx)) with Some x => [x] | None => [] end) l.
  (** Those that a chain of view operations selects. *)
  Definition view_els (a : arr T) (ops : list vop) : list T :=
    at_indices (a_dims a) (a_els a) (map (chain_index (a_dims a) ops) (indices (chain_dims (a_dims a) ops))).
  (** The same, repeated along the leading dimensions of an array of sizes [dims]. *)
  Definition operand_els (a : arr T) (ops : list vop) (dims : list Z) : list T :=
    at_indices (a_dims a) (a_els a)
      (map (fun idx => chain_index (a_dims a) ops (lastn (length (chain_dims (a_dims a) ops)) idx)) (indices dims)).
  (** The elements after [news] was written through a view. *)
  Definition written (a : arr T) (ops : list vop) (news : list (option T)) : list T :=
    let dims := a_dims a in let vdims := chain_dims dims ops in
    map (fun p =>
           match find (fun idx => flat dims (chain_index dims ops idx) =? fst p) (indices vdims) with
           | Some idx => match nth_error news (Z.to_nat (flat vdims idx)) with Some (Some y) => y | _ => snd p end
           | None => snd p
           end) (combine (zrange (zlen (a_els a))) (a_els a)).
  (** Rows [lo .. hi-1] of an array with rows of [n] elements. *)
  Definition some_rows (els : list T) (n lo hi : Z) : list T :=
    firstn (Z.to_nat ((hi - lo) * n)) (skipn (Z.to_nat (lo * n)) els).
End Elements.

(** ** What the actions do *)

Section Do.
  Context {T C : Type}.

  Definition rvar (s : rstate T C) (i : nat) : option (arr T) :=
    match nth_error (r_vars s) i with Some (Some a) => Some a | _ => None end.
  (** Changing a variable, adding one; the captured state; handing out elements. *)
  Definition r_set (i : nat) (v : option (arr T)) (s : rstate T C) : rstate T C :=
    mkRef (upd (r_vars s) i v) (r_clo s) (r_out s).
  Definition r_new (a : arr T) (s : rstate T C) : rstate T C := mkRef (r_vars s ++ [Some a]) (r_clo s) (r_out s).
  Definition r_code (c : C) (s : rstate T C) : rstate T C := mkRef (r_vars s) c (r_out s).
  Definition r_hand (xs : list T) (s : rstate T C) : rstate T C := mkRef (r_vars s) (r_clo s) (r_out s ++ xs).

  (** The array has rows: a first dimension whose size is not part of its type. *)
  Definition rows (a : arr T) : option (Z * list Z) :=
    match a_dims a, sh_head (a_ty a) with n :: ds, DDyn => Some (n, ds) | _, _ => None end.

  Definition with_els (a : arr T) (els : list T) : arr T := mkArr (a_ty a) (a_dims a) els.

  (** The element code is run on the elements that [ops] selects, with [ys] as second argument. *)
  Definition r_edit (i : nat) (a : arr T) (ops : list vop) (l : list (T * (T -> C -> edit T C))) (s : rstate T C)
    : rstate T C :=
    let '(news, c, _) := edited l (r_clo s) in r_set i (Some (with_els a (written a ops news))) (r_code c s).

  Definition r_set_at (i : nat) (a : arr T) (ops : list vop) (idx : list Z) (h : T -> C -> edit T C) (s : rstate T C)
    : rstate T C :=
    let p := Z.to_nat (flat (a_dims a) (chain_index (a_dims a) ops idx)) in
    match nth_error (a_els a) p with
    | Some x =>
        let '(Edit new c _) := h x (r_clo s) in
        r_set i (Some (with_els a (match new with Some y => upd (a_els a) p y | None => a_els a end))) (r_code c s)
    | None => s
    end.

  (** An array emptied after a panic of the user's code: it has the default sizes of its type. *)
  Definition emptied (a : arr T) : arr T := mkArr (a_ty a) (sh_default (a_ty a)) [].
  Definition nothing (ys : list T) : bool := match ys with [] => true | _ => false end.

  (** The elements inside both sizes stay, the others are made by [f] in row-major order.  If [f] panics the array is
      emptied, unless nothing had happened to its elements: with the same inner sizes and no element made so far, or
      without elements. *)
  Definition r_resize (i : nat) (a : arr T) (new : list Z) (f : C -> call T C) (s : rstate T C) : rstate T C :=
    let dims := a_dims a in
    if (length new =? length dims)%nat && fitsb new
    then let '(ys, c, ok) := gives (repeat f (fresh dims new)) (r_clo s) in
         r_set i (Some (if ok then mkArr (a_ty a) new (fill_missing (elem_at dims (a_els a)) (indices new) ys)
                        else if (if sizes_eq (tl new) (tl dims) then nothing ys else prodZ dims =? 0) then a else emptied a))
           (r_code c s)
    else s.

  (** What happens to the array [a] in variable [i]. *)
  Definition r_one (k : act T C) (a : arr T) (s : rstate T C) : rstate T C :=
    let dims := a_dims a in let els := a_els a in let ty := a_ty a in
    match k with
    | AClone i cl =>
        let '(ys, c, b) := gives (map cl els) (r_clo s) in
        if b then r_new (with_els a ys) (r_code c s) else r_code c s
    | AClear i => if prodZ (sh_default ty) =? 0 then r_set i (Some (mkArr ty (sh_default ty) [])) s else s
    | ATruncate i size =>
        match rows a with
        | Some (n, ds) =>
            let m := Z.min size n in r_set i (Some (mkArr ty (m :: ds) (some_rows els (prodZ ds) 0 m))) s
        | None => s
        end
    | AExpand i j ops cl =>
        match rvar s j, rows a with
        | Some b, Some (n, ds) =>
            let bdims := chain_dims (a_dims b) ops in
            let '(ys, c, ok) := gives (map cl (view_els b ops)) (r_clo s) in
            if prodZ bdims =? 0 then s
            else if prodZ dims =? 0
            then if has_ty ty bdims then r_set i (Some (if ok then mkArr ty bdims ys else emptied a)) (r_code c s) else s
            else match bdims with
                 | m :: bt =>
                     if sizes_eq bt ds
                     then r_set i (Some (if ok then mkArr ty (n + m :: ds) (els ++ ys) else emptied a)) (r_code c s)
                     else s
                 | [] => s
                 end
        | _, _ => s
        end
    | AExtend i fs =>
        let '(ys, c, ok) := gives fs (r_clo s) in
        r_set i (Some (if ok then mkArr ty [zlen (els ++ ys)] (els ++ ys) else if nothing ys then a else emptied a)) (r_code c s)
    | AResizeWith i new f => r_resize i a new f s
    | AResize i new x cl => r_resize i a new (cl x) s
    | ADrain i lo hi k =>
        match rows a with
        | Some (n, ds) =>
            if in_range lo hi n
            then let p := range_lo lo in let q := range_hi n hi in let m := prodZ ds in
                 r_hand (firstn k (some_rows els m p q))
                   (r_set i (Some (mkArr ty (n - (q - p) :: ds) (some_rows els m 0 p ++ some_rows els m q n))) s)
            else s
        | None => s
        end
    | ACloneFrom i j cl =>
        match rvar s j with
        | Some b =>
            let '(ys, c, ok) := gives (map cl (a_els b)) (r_clo s) in
            r_set i (Some (if ok then mkArr ty (a_dims b) ys
                           else if (length ys <=? length els)%nat && (length els <=? length (a_els b))%nat
                           then with_els a (ys ++ skipn (length ys) els) else emptied a)) (r_code c s)
        | None => s
        end
    | AAppend i j =>
        match rvar s j with
        | Some b =>
            match rows a, rows b with
            | Some (n, ds), Some (m, dt) =>
                let left := r_set j (Some (mkArr (a_ty b) (0 :: dt) [])) in
                if prodZ (a_dims b) =? 0 then left s
                else if prodZ dims =? 0
                then left (if has_ty ty (a_dims b) then r_set i (Some (mkArr ty (a_dims b) (a_els b))) s else s)
                else left (if sizes_eq dt ds then r_set i (Some (mkArr ty (n + m :: ds) (els ++ a_els b))) s else s)
            | _, _ => s
            end
        | None => s
        end
    | AIntoShape i ty' req =>
        r_set i (if meets (prodZ dims) req then Some (mkArr ty' (resolved (prodZ dims) req) els) else None) s
    | AIntoMapping i ty' => r_set i (if has_ty ty' dims then Some (mkArr ty' dims els) else None) s
    | AIntoFlat i => r_set i (Some (mkArr (STuple [DDyn]) [zlen els] els)) s
    | AZipWith i j ops f =>
        match rvar s j with
        | Some b =>
            if goes_with dims (chain_dims (a_dims b) ops)
            then let '(ys, c, ok) := gives (map f (combine els (operand_els b ops dims))) (r_clo s) in
                 if ok then r_hand els (r_set i (Some (with_els a ys)) (r_code c s))
                 else r_hand (firstn (S (length ys)) els) (r_set i None (r_code c s))
            else r_set i None s
        | None => s
        end
    | AMap i f =>
        let '(ys, c, ok) := gives (map f els) (r_clo s) in
        if ok then r_hand els (r_set i (Some (with_els a ys)) (r_code c s))
        else r_hand (firstn (S (length ys)) els) (r_set i None (r_code c s))
    | AIterate i k => r_hand (firstn k els) (r_set i None s)
    | AIntoScalar i => r_hand (if prodZ dims =? 1 then els else []) (r_set i None s)
    | ADrop i => r_set i None s
    | AEach i ops h =>
        if chain_works dims ops then r_edit i a ops (map (fun x => (x, h)) (view_els a ops)) s else s
    | AFillWith i ops f =>
        if chain_works dims ops then r_edit i a ops (map (fun x => (x, edit_set f)) (view_els a ops)) s else s
    | AFill i ops value cl =>
        if chain_works dims ops then r_edit i a ops (map (fun x => (x, cl value)) (view_els a ops)) s else s
    | AZipEach i ops j ops' h =>
        match rvar s j with
        | Some b =>
            let vdims := chain_dims dims ops in
            if chain_works dims ops && goes_with vdims (chain_dims (a_dims b) ops')
            then r_edit i a ops (combine (view_els a ops) (map (fun y x => h x y) (operand_els b ops' vdims))) s
            else s
        | None => s
        end
    | ASetAt i ops idx h =>
        if chain_works dims ops && inside (chain_dims dims ops) idx then r_set_at i a ops idx h s else s
    | ASetLinear i ops n h =>
        if chain_works dims ops && (n <? prodZ (chain_dims dims ops))
        then r_set_at i a ops (unflat (chain_dims dims ops) n) h s else s
    | AHalves i ops x mid ops1 ops2 h =>
        let p := ops ++ OpSplitFst x mid :: ops1 in let q := ops ++ OpSplitSnd x mid :: ops2 in
        let vdims := chain_dims dims p in
        if chain_works dims p && chain_works dims q && goes_with vdims (chain_dims dims q)
        then r_edit i a p (combine (view_els a p) (map (fun y x => h x y) (operand_els a q vdims))) s
        else s
    | ANew _ _ | AFromVec _ | AReserve _ _ | AShrink _ _ => s
    end.

  (** The variable that an action works on. *)
  Definition on (k : act T C) : option nat :=
    match k with
    | ANew _ _ | AFromVec _ => None
    | AClone i _ | AClear i | ATruncate i _ | AReserve i _ | AShrink i _ | AExpand i _ _ _ | AExtend i _
    | AResizeWith i _ _ | AResize i _ _ _ | ADrain i _ _ _ | ACloneFrom i _ _ | AAppend i _ | AIntoShape i _ _ | AIntoMapping i _
    | AIntoFlat i | AZipWith i _ _ _ | AMap i _ | AIterate i _ | AIntoScalar i | ADrop i | AEach i _ _
    | AZipEach i _ _ _ _ | AFillWith i _ _ | AFill i _ _ _ | ASetAt i _ _ _ | ASetLinear i _ _ _
    | AHalves i _ _ _ _ _ _ => Some i
    end.

  Definition r_do (k : act T C) (s : rstate T C) : rstate T C :=
    match k with
    | ANew ty cap =>
        if (prodZ (sh_default ty) =? 0) && fitsb (sh_default ty) then r_new (mkArr ty (sh_default ty) []) s else s
    | AFromVec items => r_new (mkArr (STuple [DDyn]) [zlen items] items) s
    | _ => match on k with
           | Some i => match rvar s i with Some a => r_one k a s | None => s end
           | None => s
           end
    end.
  Fixpoint r_run (p : list (act T C)) (s : rstate T C) : rstate T C :=
    match p with [] => s | k :: p' => r_run p' (r_do k s) end.

  (** ** What is asked *)

  (** A view of the array: machine sizes, arguments of the right types, operations for every layout. *)
  Definition views (a : arr T) (ops : list vop) : Prop :=
    Forall (fun d => d < usize_max) (a_dims a) /\ zlen (a_els a) <= usize_max /\ (length (a_dims a) < 64)%nat /\
    chain_given (a_dims a) ops /\ forallb any_layout ops = true.
  (** It can be walked through (finding 2 in DESIGN.md). *)
  Definition walked (a : arr T) (ops : list vop) : Prop :=
    let d := chain_dims (a_dims a) ops in ops = [] \/ positive (removelast d) \/ last d 1 = 0.
  (** An operand: another variable, and a view of it that exists. *)
  Definition lends (i j : nat) (ops : list vop) (s : rstate T C) : Prop :=
    i <> j /\ exists b, rvar s j = Some b /\ views b ops /\ chain_fits (a_dims b) ops.

  Definition one_ok (k : act T C) (a : arr T) (s : rstate T C) : Prop :=
    match k with
    | ATruncate i size => 0 <= size
    | AExpand i j ops cl =>
        lends i j ops s /\
        forall b, rvar s j = Some b -> walked b ops
    | AExtend i fs => a_ty a = STuple [DDyn]
    | AResizeWith i new _ | AResize i new _ _ => nonneg new /\ has_ty (a_ty a) new = true
    | ADrain i lo hi k => bound_arg lo /\ bound_arg hi /\ nth 0 (a_dims a) 0 <= usize_max
    | ACloneFrom i j cl =>
        i <> j /\ forall b, rvar s j = Some b -> a_ty b = a_ty a
    | AAppend i j => i <> j /\ rows a <> None /\ forall b, rvar s j = Some b -> rows b <> None
    | AIntoShape i ty req =>
        nonneg req /\ has_ty ty req = true /\ ty_wf ty /\ (forall ds, ty = STuple ds -> ~ In (DConst usize_max) ds)
    | AIntoMapping i ty => ty_wf ty
    | AZipWith i j ops f =>
        lends i j ops s /\ positive (a_dims a)
    | AEach i ops _ | AFillWith i ops _ | AFill i ops _ _ => views a ops /\ (chain_fits (a_dims a) ops -> walked a ops)
    | AZipEach i ops j ops' h =>
        views a ops /\ lends i j ops' s /\ (chain_fits (a_dims a) ops -> positive (chain_dims (a_dims a) ops))
    | ASetAt i ops idx h => views a ops /\ nonneg idx
    | ASetLinear i ops n h => views a ops /\ 0 <= n
    | AHalves i ops x mid ops1 ops2 h =>
        let p := ops ++ OpSplitFst x mid :: ops1 in let q := ops ++ OpSplitSnd x mid :: ops2 in
        views a p /\ views a q /\ (chain_fits (a_dims a) p -> positive (chain_dims (a_dims a) p))
    | _ => True
    end.
  Definition act_ok (k : act T C) (s : rstate T C) : Prop :=
    match k with
    | ANew ty cap => nonneg (sh_default ty) /\ ty_wf ty /\ 0 <= cap
    | _ => match on k with
           | Some i => match rvar s i with Some a => one_ok k a s | None => True end
           | None => True
           end
    end.
  Fixpoint acts_ok (p : list (act T C)) (s : rstate T C) : Prop :=
    match p with [] => True | k :: p' => act_ok k s /\ acts_ok p' (r_do k s) end.
End Do.
