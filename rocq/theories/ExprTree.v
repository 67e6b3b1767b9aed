(** Expression trees: any combination of the sources and adapters of [src/expr], what the code
    builds for them and what they mean. *)
From Verif Require Import Base Spec SpecFacts Shape Mapping Index View Wf MappingFacts MapOps ReshapeFacts.
From Verif Require Import IndexFacts ViewFacts Expr ExprSpec ExprFacts IterFacts SourceFacts.
Unset Strict Implicit.

(** The method calls and functions by which user code builds an expression of item type [A]. *)
Inductive tree : Type -> Type :=
| TView (n : Z) (rep : bool) (v : view) : tree Z                                 (* expr, expr_mut *)
| TAxis (rep : bool) (v : view) (a : axis) : tree view                           (* axis_expr, outer_expr *)
| TLanes (rep : bool) (v : view) (a : axis) : tree view                          (* lanes, rows, cols *)
| TInto {A : Type} (ty : shty) (dims : list Z) (l : list A) : tree A             (* into_expr *)
| TFill {A F : Type} (cl : F -> outcome (A * F)) (f0 : F) : tree A               (* fill *)
| TFillWith {A F : Type} (f : F -> outcome (A * F)) (f0 : F) : tree A            (* fill_with *)
| TFromElem {A F : Type} (ty : shty) (dims : list Z) (cl : F -> outcome (A * F)) (f0 : F) : tree A
| TFromFn {A F : Type} (ty : shty) (dims : list Z) (f : list Z -> F -> outcome (A * F)) (f0 : F) : tree A
| TMap {A B F : Type} (f : A -> F -> outcome (B * F)) (f0 : F) (t : tree A) : tree B
| TCloned {A B F : Type} (cl : A -> F -> outcome (B * F)) (f0 : F) (t : tree A) : tree B
| TCopied {A B : Type} (rd : A -> outcome B) (t : tree A) : tree B
| TEnumerate {A : Type} (t : tree A) : tree (Z * A)
| TZip {A B : Type} (a : tree A) (b : tree B) : tree (A * B).

(** The expression built by the code. *)
Fixpoint t_build {A} (t : tree A) : outcome (expression A) :=
  match t in tree A return outcome (expression A) with
  | TView n rep v => Ok (e_view n rep v)
  | TAxis rep v a => e_axis rep v a
  | TLanes rep v a => e_lanes rep v a
  | TInto ty dims l => Ok (e_into ty dims l)
  | TFill cl f0 => Ok (e_fill cl f0)
  | TFillWith f f0 => Ok (e_fill_with f f0)
  | TFromElem ty dims cl f0 => e_from_elem ty dims cl f0
  | TFromFn ty dims f f0 => e_from_fn ty dims f f0
  | TMap f f0 t => let* e := t_build t in Ok (e_map f f0 e)
  | TCloned cl f0 t => let* e := t_build t in Ok (e_cloned cl f0 e)
  | TCopied rd t => let* e := t_build t in Ok (e_copied rd e)
  | TEnumerate t => let* e := t_build t in Ok (e_enumerate e)
  | TZip a b => let* x := t_build a in let* y := t_build b in e_zip x y
  end.

(** ** Meaning *)

(** The dimension of a view that an axis denotes. *)
Definition axis_dim (a : axis) (rank : nat) : nat :=
  match a with AxConst n | AxDyn n => n | AxRows => (rank - 1)%nat | AxCols => (rank - 2)%nat end.

(** The shape. *)
Fixpoint t_dims {A} (t : tree A) : list Z :=
  match t with
  | TView _ _ v => v_dims v
  | TAxis _ v a => [nth (axis_dim a (length (v_dims v))) (v_dims v) 0]
  | TLanes _ v a => remove_at (axis_dim a (length (v_dims v))) (v_dims v)
  | TInto _ dims _ | TFromElem _ dims _ _ | TFromFn _ dims _ _ => dims
  | TFill _ _ | TFillWith _ _ => []
  | TMap _ _ t | TCloned _ _ t => t_dims t
  | TCopied _ t => t_dims t
  | TEnumerate t => t_dims t
  | TZip a b => longer (t_dims a) (t_dims b)
  end.

(** Whether the expression may be repeated: it contains no exclusive borrow and no owned array. *)
Fixpoint t_rep {A} (t : tree A) : bool :=
  match t with
  | TView _ rep _ | TAxis rep _ _ | TLanes rep _ _ => rep
  | TInto _ _ _ => false
  | TFill _ _ | TFillWith _ _ | TFromElem _ _ _ _ | TFromFn _ _ _ _ => true
  | TMap _ _ t | TCloned _ _ t => t_rep t
  | TCopied _ t => t_rep t
  | TEnumerate t => t_rep t
  | TZip a b => t_rep a && t_rep b
  end.

(** The captured state. *)
Fixpoint t_state {A} (t : tree A) : Type :=
  match t with
  | TView _ _ _ | TAxis _ _ _ | TLanes _ _ _ | TInto _ _ _ => unit
  | @TFill _ F _ _ | @TFillWith _ F _ _ => F
  | @TFromElem _ F _ _ _ _ | @TFromFn _ F _ _ _ _ => F
  | @TMap _ _ F _ _ t | @TCloned _ _ F _ _ t => t_state t * F
  | TCopied _ t => t_state t
  | TEnumerate t => t_state t * Z
  | TZip a b => t_state a * t_state b
  end.

Fixpoint t_init {A} (t : tree A) : t_state t :=
  match t as t0 in tree A0 return t_state t0 with
  | TView _ _ _ | TAxis _ _ _ | TLanes _ _ _ | TInto _ _ _ => tt
  | TFill _ f0 | TFillWith _ f0 | TFromElem _ _ _ f0 | TFromFn _ _ _ f0 => f0
  | TMap _ f0 t | TCloned _ f0 t => (t_init t, f0)
  | TCopied _ t => t_init t
  | TEnumerate t => (t_init t, 0)
  | TZip a b => (t_init a, t_init b)
  end.

(** The item at an index. *)
Fixpoint t_act {A} (t : tree A) : action A (t_state t) :=
  match t as t0 in tree A0 return action A0 (t_state t0) with
  | TView _ _ v => pure_action (v_addr v)
  | TAxis _ v a => pure_action (fun idx => axis_item v a (nth 0 idx 0))
  | TLanes _ v a => pure_action (lane_item v a (axis_dim a (length (v_dims v))))
  | TInto _ dims l => list_action dims l
  | TFill f _ | TFillWith f _ => call_action f
  | TFromElem _ _ f _ => call_action f
  | TFromFn _ _ f _ => index_action f
  | TMap f _ t | TCloned f _ t => map_action f (@t_act _ t)
  | TCopied rd t => fun_action rd (@t_act _ t)
  | TEnumerate t => enum_action (@t_act _ t)
  | TZip a b => zip_action (length (t_dims a)) (length (t_dims b)) (@t_act _ a) (@t_act _ b)
  end.
Arguments t_act {A} t.

(** ** Well-formedness *)

(** What the Rust types guarantee about the leaves, together with their length checks.  [TFromFn]
    excludes dynamic rank above 0, for which the code panics. *)
Fixpoint t_leaves {A} (t : tree A) : Prop :=
  match t with
  | TView n _ v => valid_view n v
  | TAxis _ v a =>
      wf_map (v_map v) /\ is_axis a (length (v_dims v)) (axis_dim a (length (v_dims v))) /\ fits (v_dims v)
  | TLanes _ v a =>
      wf_map (v_map v) /\ is_axis a (length (v_dims v)) (axis_dim a (length (v_dims v))) /\
      fits (remove_at (axis_dim a (length (v_dims v))) (v_dims v))
  | TInto ty dims l => nonneg dims /\ typed ty dims /\ Z.of_nat (length l) = prodZ dims
  | TFill _ _ | TFillWith _ _ => True
  | TFromElem ty dims _ _ => nonneg dims /\ typed ty dims /\ fits dims
  | TFromFn ty dims _ _ => nonneg dims /\ typed ty dims /\ fits dims /\ (ty = SDynRank -> dims = [])
  | TMap _ _ t | TCloned _ _ t => t_leaves t
  | TCopied _ t => t_leaves t
  | TEnumerate t => t_leaves t
  | TZip a b => t_leaves a /\ t_leaves b
  end.

(** Every zip is of compatible operands. *)
Fixpoint t_zips {A} (t : tree A) : Prop :=
  match t with
  | TMap _ _ t | TCloned _ _ t => t_zips t
  | TCopied _ t => t_zips t
  | TEnumerate t => t_zips t
  | TZip a b =>
      t_zips a /\ t_zips b /\ trailing_eq (t_dims a) (t_dims b) /\
      (t_rep a = true \/ (length (t_dims b) <= length (t_dims a))%nat) /\
      (t_rep b = true \/ (length (t_dims a) <= length (t_dims b))%nat)
  | _ => True
  end.

(** Inner dimensions that a surrounding iteration must keep together: those of lanes. *)
Fixpoint t_need {A} (t : tree A) : nat :=
  match t with
  | TLanes _ v a => length (remove_at (axis_dim a (length (v_dims v))) (v_dims v))
  | TMap _ _ t | TCloned _ _ t => t_need t
  | TCopied _ t => t_need t
  | TEnumerate t => t_need t
  | TZip a b => Nat.max (t_need a) (t_need b)
  | _ => 0%nat
  end.

(** The number of trailing dimensions that are iterated with a single index ([None]: all). *)
Fixpoint t_inner {A} (t : tree A) : option nat :=
  match t with
  | TView _ _ v => map_inner_rank (v_map v)
  | TAxis _ _ _ => Some 1%nat
  | TLanes _ v a => match ax_remove_map a (v_map v) with Ok m => map_inner_rank m | _ => None end
  | TInto _ _ _ | TFill _ _ | TFillWith _ _ | TFromElem _ _ _ _ => None
  | TFromFn _ dims _ _ => if (0 <? length dims)%nat then Some 1%nat else None
  | TMap _ _ t | TCloned _ _ t => t_inner t
  | TCopied _ t => t_inner t
  | TEnumerate t => t_inner t
  | TZip a b => inner_min (t_inner a) (t_inner b)
  end.
Definition t_outer {A} (t : tree A) : nat :=
  match t_inner t with None => O | Some k => (length (t_dims t) - k)%nat end.

(** Internal iteration is right: the outer dimensions are non-zero or the inner part is empty. *)
Definition t_fine {A} (t : tree A) : Prop :=
  (t_need t <= length (t_dims t) - t_outer t)%nat /\ (positive (firstn (t_outer t) (t_dims t)) \/ prodZ (skipn (t_outer t) (t_dims t)) = 0).
(** Computing an item ends normally or with a panic; nothing undefined happens. *)
Definition proper {A} (o : outcome A) : Prop := match o with Ok _ | Panic => True | _ => False end.
Definition t_safe {A} (t : tree A) : Prop := forall idx s, in_bounds (t_dims t) idx -> proper (t_act t idx s).

(** External iteration is right: there are no outer dimensions or the array is not empty. *)
Definition t_next_fine {A} (t : tree A) : Prop :=
  (t_need t <= length (t_dims t) - t_outer t)%nat /\ (t_outer t = 0%nat \/ positive (t_dims t)).

(** The code builds an expression with the shape and meaning of the tree, exactly when every zip
    is compatible. *)
Record built {A} (t : tree A) (e : expression A) : Prop := {
  bu_dims : e_dims e = t_dims t;
  bu_rep : e_rep e = t_rep t;
  bu_inner : e_inner e = t_inner t;
  bu_ty : typed (e_ty e) (e_dims e);
  bu_computes : computes e (t_act t) (t_init t) (t_need t)
}.

Lemma build_cases {A} (t : tree A) :
  t_leaves t ->
  (t_zips t /\ exists e, t_build t = Ok e /\ built t e) \/ (~ t_zips t /\ t_build t = Panic).
Proof.
  induction t as [n rep v|rep v a|rep v a|A ty dims l|A F cl f0|A F f f0|A F ty dims cl f0|A F ty dims f f0
                 |A B F f f0 t IH|A B F f f0 t IH|A B rd t IH|A t IH|A B a IHa b IHb]; cbn [t_leaves]; intros HL.
  - left. split; [exact I|]. exists (e_view n rep v). split; [reflexivity|]. constructor; try reflexivity.
    + apply (wf_typed (vv_wf HL)).
    + now apply computes_view.
  - left. split; [exact I|]. destruct HL as (Hw & HA & Hf).
    destruct (axis_ok rep Hw HA) as (e & E & Ety & Ed & Ei & Er & HC).
    { intros Hp. apply remove_fits; auto. apply (wf_nonneg Hw). }
    exists e. split; [exact E|]. constructor; auto.
    rewrite Ety, Ed. constructor; [|constructor].
    apply ax_dim_ok; auto. apply (wf_typed Hw).
  - left. split; [exact I|]. destruct HL as (Hw & HA & Hf).
    destruct (lanes_ok rep Hw HA Hf) as (m & e & Em & E & Ety & Ed & Ei & _ & _ & _ & Er & HC).
    exists e. split; [exact E|]. constructor; auto; [cbn; now rewrite Em|].
    rewrite Ety, Ed. apply ax_remove_typed; auto. apply (wf_typed Hw).
  - left. split; [exact I|]. destruct HL as (Hn & HT & HLn). eexists. split; [reflexivity|].
    constructor; auto. now apply computes_into.
  - left. split; [exact I|]. eexists. split; [reflexivity|]. constructor; auto; [constructor|apply computes_fill].
  - left. split; [exact I|]. eexists. split; [reflexivity|]. constructor; auto; [constructor|apply computes_fill_with].
  - left. split; [exact I|]. destruct HL as (Hn & HT & Hf).
    destruct (from_elem_ok ty cl f0 Hn Hf) as (e & E & Ety & Ed & Ei & Er & HC).
    exists e. split; [exact E|]. constructor; auto. now rewrite Ety, Ed.
  - left. split; [exact I|]. destruct HL as (Hn & HT & Hf & Hr).
    assert (HD : dims_default ty = repeat 0 (length dims)).
    { destruct ty as [|ds]; cbn in *; [now rewrite Hr|]. now rewrite (Forall2_len HT). }
    destruct (from_fn_ok f f0 HD Hn Hf) as (e & E & Ety & Ed & Ei & Er & HC).
    exists e. split; [exact E|]. constructor; auto. now rewrite Ety, Ed.
  - cbn [t_zips t_build]. destruct (IH HL) as [(HZ & e & E & [B1 B2 Bi B3 B4])|(HZ & E)]; rewrite E; cbn [bind].
    + left. split; auto. eexists. split; [reflexivity|]. constructor; auto. now apply computes_map.
    + right. auto.
  - cbn [t_zips t_build]. destruct (IH HL) as [(HZ & e & E & [B1 B2 Bi B3 B4])|(HZ & E)]; rewrite E; cbn [bind].
    + left. split; auto. eexists. split; [reflexivity|]. constructor; auto. now apply computes_cloned.
    + right. auto.
  - cbn [t_zips t_build]. destruct (IH HL) as [(HZ & e & E & [B1 B2 Bi B3 B4])|(HZ & E)]; rewrite E; cbn [bind].
    + left. split; auto. eexists. split; [reflexivity|]. constructor; auto. now apply computes_copied.
    + right. auto.
  - cbn [t_zips t_build]. destruct (IH HL) as [(HZ & e & E & [B1 B2 Bi B3 B4])|(HZ & E)]; rewrite E; cbn [bind].
    + left. split; auto. eexists. split; [reflexivity|]. constructor; auto. now apply computes_enumerate.
    + right. auto.
  - cbn [t_zips t_build]. destruct HL as [La Lb].
    destruct (IHa La) as [(Za & ea & Ea & [A1 A2 Ai A3 A4])|(Za & Ea)]; rewrite Ea; cbn [bind].
    2:{ right. split; [tauto|reflexivity]. }
    destruct (IHb Lb) as [(Zb & eb & Eb & [B1 B2 Bi B3 B4])|(Zb & Eb)]; rewrite Eb; cbn [bind].
    2:{ right. split; [tauto|reflexivity]. }
    assert (HE : zippable ea eb <-> trailing_eq (t_dims a) (t_dims b) /\
      (t_rep a = true \/ (length (t_dims b) <= length (t_dims a))%nat) /\
      (t_rep b = true \/ (length (t_dims a) <= length (t_dims b))%nat)).
    { unfold zippable, e_rank. rewrite A1, A2, B1, B2. tauto. }
    destruct (zip_cases A3 B3) as [(Hz & E)|(Hz & E)]; rewrite E.
    + left. split; [tauto|]. eexists. split; [reflexivity|]. constructor.
      * cbn. now rewrite A1, B1.
      * cbn. now rewrite A2, B2.
      * cbn. now rewrite Ai, Bi.
      * cbn [zip_expr e_ty e_dims]. apply zip_typed; auto. apply Hz.
      * cbn [t_act t_init t_need]. rewrite <- A1, <- B1. now apply computes_zip.
    + right. split; [tauto|reflexivity].
Qed.

Lemma build_ok {A} (t : tree A) :
  t_leaves t -> t_zips t -> exists e, t_build t = Ok e /\ built t e.
Proof. intros HL HZ. destruct (build_cases HL) as [[_ H]|[H _]]; tauto. Qed.

Lemma build_panic {A} (t : tree A) : t_leaves t -> (t_build t = Panic <-> ~ t_zips t).
Proof.
  intros HL. destruct (build_cases HL) as [(H & e & E & _)|[H E]]; rewrite E; split; try tauto. discriminate.
Qed.

Lemma built_outer {A} (t : tree A) e : built t e -> outer_rank e = t_outer t.
Proof. intros B. unfold outer_rank, t_outer, e_rank. now rewrite (bu_inner B), (bu_dims B). Qed.

(** Internal iteration over any tree. *)
Lemma tree_fold {A T} (t : tree A) e (f : T -> A -> outcome T) acc :
  built t e -> t_fine t ->
  e_fold e f acc = run_value (t_act t) f (indices (t_dims t)) (t_init t) acc.
Proof.
  intros B [H1 H2]. rewrite <- (bu_dims B).
  eapply fold_computes; [exact (bu_computes B)| |].
  - unfold e_rank. now rewrite (built_outer B), (bu_dims B).
  - unfold outer_fine. now rewrite (built_outer B), (bu_dims B).
Qed.

Lemma run_items {A S T} (act : action A S) (f : T -> A -> outcome T) l s t :
  (forall t a, exists t', f t a = Ok t') ->
  run act f l s t = let* (xs, s') := items act l s in let* t' := foldM f xs t in Ok (s', t').
Proof.
  intros H. revert s t. induction l as [|idx l IH]; intros s t; cbn [run items]; [reflexivity|].
  destruct (act idx s) as [[a s']| | |]; cbn [bind]; auto.
  destruct (H t a) as (t' & E). rewrite E. cbn [bind]. rewrite IH.
  destruct (items act l s') as [[xs s'']| | |]; cbn [bind foldM]; auto. rewrite E. reflexivity.
Qed.

Lemma foldM_rev {A} (xs acc : list A) :
  foldM (fun l a => Ok (a :: l)) xs acc = Ok (rev xs ++ acc).
Proof.
  revert acc. induction xs as [|x xs IH]; intros acc; cbn; auto. rewrite IH, <- app_assoc. reflexivity.
Qed.

Lemma tree_collect {A} (t : tree A) e :
  built t e -> t_fine t ->
  e_collect e = let* (xs, _) := items (t_act t) (indices (t_dims t)) (t_init t) in Ok xs.
Proof.
  intros B HF. unfold e_collect. rewrite (tree_fold _ _ B HF). unfold run_value.
  rewrite run_items by eauto. destruct (items _ _ _) as [[xs s]| | |]; cbn [bind]; auto.
  rewrite foldM_rev. cbn [bind]. rewrite app_nil_r, rev_involutive. reflexivity.
Qed.

(** Items of a stateless computation. *)
Lemma items_pure {A} (g : list Z -> A) l : items (pure_action g) l tt = Ok (map g l, tt).
Proof. induction l as [|x l IH]; cbn; auto. rewrite IH. reflexivity. Qed.

Lemma tree_next {A} (t : tree A) e n :
  built t e -> t_next_fine t -> (n <= Z.to_nat (prodZ (t_dims t)))%nat ->
  agree (fun x y =>
      fst x = map Some (fst y) /\
      it_size (snd x) = prodZ (t_dims t) - Z.of_nat n /\
      (forall T (f : T -> A -> outcome T) acc,
         it_fold f (snd x) acc = run_value (t_act t) f (skipn n (indices (t_dims t))) (snd y) acc) /\
      (n = Z.to_nat (prodZ (t_dims t)) ->
         exists it', it_next (snd x) = Ok (None, it') /\
           (t_outer t = 0%nat -> forall k, exists it'', it_nexts k it' = Ok (repeat None k, it'') /\ it_size it'' = 0)))
    (it_nexts n (it_new e)) (items (t_act t) (firstn n (indices (t_dims t))) (t_init t)).
Proof.
  intros B [H1 H2] Hn. rewrite <- (bu_dims B), <- (built_outer B) in *.
  eapply next_computes; eauto. exact (bu_computes B).
Qed.
