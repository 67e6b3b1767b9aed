(** Pointer arithmetic.  [View.v] and [Expr.v] only say that reading outside the storage is undefined
    behaviour.  In Rust it is undefined already to compute, with [ptr.offset(..)], a pointer that is not
    inside the allocation or one past its end.  Here is the model of the places where the library does so
    while iterating; the pointers of views are those of [View.v]. *)
From Verif Require Import Base Spec Shape Mapping Index View Wf Expr ExprSpec ExprTree.

(** [ptr.offset(..)] with result [p] in an allocation of [n] cells. *)
Definition p_move (n p : Z) : outcome Z := if (0 <=? p) && (p <=? n) then Ok p else UB.

(** view.rs:346-395, like [e_view]: [reset_dim] (374-380) and [step_dim] (382-388) move the pointer of the
    view. *)
Definition e_view_in (n : Z) (rep : bool) (v : view) : expression Z :=
  let m := v_map v in
  mkExpr Z (v_ptr v) (v_ty v) (v_dims v) (map_inner_rank m) rep
    (fun i p => let* r := e_ref n (p + inner_stride m * i) in Ok (r, p))
    (fun d c p => let* s := m_stride m d in p_move n (p + - s * c))
    (fun d p => let* s := m_stride m d in p_move n (p + s)).

(** sources.rs:165-174 and 441-449: [get_unchecked] of [AxisExpr] and [Lanes] computes the pointer of the
    view that it hands out; the rest of these expressions only computes with integers. *)
Definition e_inside (n : Z) (e : expression view) : expression view :=
  mkExpr (e_st e) (e_init e) (e_ty e) (e_dims e) (e_inner e) (e_rep e)
    (fun i s => let* (w, s) := e_get e i s in let* _ := p_move n (v_ptr w) in Ok (w, s))
    (e_reset e) (e_step e).

(** The expression that the code builds for a tree, with these pointers.  [size v] is the number of cells
    that the array of the view [v] has. *)
Fixpoint p_build (size : view -> Z) {A} (t : tree A) : outcome (expression A) :=
  match t in tree A return outcome (expression A) with
  | TView n rep v => Ok (e_view_in n rep v)
  | TAxis rep v a => let* e := e_axis rep v a in Ok (e_inside (size v) e)
  | TLanes rep v a => let* e := e_lanes rep v a in Ok (e_inside (size v) e)
  | TInto ty dims l => Ok (e_into ty dims l)
  | TFill cl f0 => Ok (e_fill cl f0)
  | TFillWith f f0 => Ok (e_fill_with f f0)
  | TFromElem ty dims cl f0 => e_from_elem ty dims cl f0
  | TFromFn ty dims f f0 => e_from_fn ty dims f f0
  | TMap f f0 t => let* e := p_build size t in Ok (e_map f f0 e)
  | TCloned cl f0 t => let* e := p_build size t in Ok (e_cloned cl f0 e)
  | TCopied rd t => let* e := p_build size t in Ok (e_copied rd e)
  | TEnumerate t => let* e := p_build size t in Ok (e_enumerate e)
  | TZip a b => let* x := p_build size a in let* y := p_build size b in e_zip x y
  end.

(** ** What is asked of the leaves *)

(** Walking over the view [v] along its dimensions stays inside the allocation, where a dimension of size
    zero is not walked along. *)
Definition walks (n : Z) (v : view) : Prop :=
  forall idx, in_bounds (map (Z.max 1) (v_dims v)) idx -> 0 <= v_ptr v + dot (m_strides (v_map v)) idx <= n.

(** The same for a view that is iterated alone: dense views and vectors are not walked along at all, their
    iterator only keeps the pointer. *)
Definition stays (n : Z) (v : view) : Prop :=
  match v_layout v with
  | Dense => 0 <= v_ptr v <= n
  | Strided => if (length (v_dims v) <=? 1)%nat then 0 <= v_ptr v <= n else walks n v
  end.

Fixpoint t_inside (size : view -> Z) {A} (t : tree A) : Prop :=
  match t with
  | TView n _ v => walks n v
  | TAxis _ v _ | TLanes _ v _ => valid_view (size v) v /\ 0 <= v_ptr v <= size v
  | TMap _ _ t | TCloned _ _ t => t_inside size t
  | TCopied _ t => t_inside size t
  | TEnumerate t => t_inside size t
  | TZip a b => t_inside size a /\ t_inside size b
  | _ => True
  end.
