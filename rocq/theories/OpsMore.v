(** The operators. *)
From Verif Require Import Base Spec SpecFacts Shape Mapping Index View Wf MappingFacts ViewFacts ViewMore.
From Verif Require Import Expr ExprSpec ExprFacts IterFacts SourceFacts ExprTree ExprMore.
From Verif Require Import Tensor TraceFacts TensorSpec TensorFacts ResizeFacts TensorOps DrainFacts OwnFacts ZipFacts OwnMore.
From Verif Require Import Ops OpsFacts.
Unset Strict Implicit.

(** ** Operands whose items depend on the index only *)

Definition denotes {A} (t : tree A) (g : list Z -> A) : Prop :=
  forall idx s, in_bounds (t_dims t) idx -> exists s', t_act t idx s = Ok (g idx, s').

(** The operand made of a reference to an array. *)
Definition ref_operand {T} (mem : list T) (v : view) : tree T := TCopied (read mem) (TView (Z.of_nat (length mem)) true v).

Lemma ref_denotes {T} (mem : list T) v g :
  (forall idx, in_bounds (v_dims v) idx -> v_get mem v idx = Ok (g idx)) -> denotes (ref_operand mem v) g.
Proof.
  intros H idx s Hi. cbn in *. exists s. unfold fun_action, pure_action. cbn [bind].
  rewrite <- v_get_in by exact Hi. rewrite H by exact Hi. reflexivity.
Qed.

(** ** Lazy binary operators *)

(** One item of [a op b]: the item of [b] is computed first, then that of [a], then [op]. *)
Definition op_action {A B R F S S' : Type} (op : A -> B -> F -> outcome (R * F)) (ra rb : nat)
    (a : action A S) (b : action B S') : action R ((S' * S) * F) :=
  fun idx s =>
    let* (y, sb) := b (lastn rb idx) (fst (fst s)) in
    let* (x, sa) := a (lastn ra idx) (snd (fst s)) in
    let* (r, f) := op x y (snd s) in
    Ok (r, ((sb, sa), f)).

Definition op_tree {A B R F} (op : A -> B -> F -> outcome (R * F)) (f0 : F) (a : tree A) (b : tree B) : tree R :=
  TMap (fun p : B * A => op (snd p) (fst p)) f0 (TZip b a).

Lemma op_tree_build {A B R F} (op : A -> B -> F -> outcome (R * F)) f0 (a : tree A) (b : tree B) ea eb :
  t_build a = Ok ea -> t_build b = Ok eb -> t_build (op_tree op f0 a b) = op_expr op f0 ea eb.
Proof.
  intros HA HB. unfold op_tree, op_expr, e_zip_with. cbn [t_build]. rewrite HB. cbn [bind]. rewrite HA. cbn [bind].
  destruct (e_zip eb ea); reflexivity.
Qed.

Definition compatible {A B} (a : tree A) (b : tree B) : Prop :=
  trailing_eq (t_dims b) (t_dims a) /\
  (t_rep b = true \/ (length (t_dims a) <= length (t_dims b))%nat) /\
  (t_rep a = true \/ (length (t_dims b) <= length (t_dims a))%nat).

Lemma op_expr_ok {A B R F} (op : A -> B -> F -> outcome (R * F)) f0 (a : tree A) (b : tree B) ea eb :
  t_leaves a -> t_leaves b -> t_build a = Ok ea -> t_build b = Ok eb ->
  (compatible a b /\ exists e, op_expr op f0 ea eb = Ok e /\ e_dims e = longer (t_dims b) (t_dims a) /\
     (t_fine (TZip b a) ->
      e_collect e =
        let* (rs, _) := items (op_action op (length (t_dims a)) (length (t_dims b)) (t_act a) (t_act b))
                          (indices (longer (t_dims b) (t_dims a))) ((t_init b, t_init a), f0) in Ok rs)) \/
  (~ compatible a b /\ op_expr op f0 ea eb = Panic).
Proof.
  intros LA LB EA EB. rewrite <- (op_tree_build op f0 EA EB).
  assert (HL : t_leaves (op_tree op f0 a b)) by (split; auto).
  assert (ZA : t_zips a) by (destruct (build_cases LA) as [[H _]|[_ H]]; auto; congruence).
  assert (ZB : t_zips b) by (destruct (build_cases LB) as [[H _]|[_ H]]; auto; congruence).
  destruct (build_cases HL) as [(HZ & e & E & B0)|[HZ E]]; [left|right].
  - split. { destruct HZ as (_ & _ & H1 & H2 & H3). split; [exact H1|]. split; auto. }
    exists e. split; [exact E|]. split; [apply (bu_dims B0)|]. intros HF.
    rewrite (tree_collect B0 HF). cbn [op_tree t_act t_init t_dims].
    assert (G : forall l s, items (map_action (fun p : B * A => op (snd p) (fst p))
                (zip_action (length (t_dims b)) (length (t_dims a)) (t_act b) (t_act a))) l s =
              items (op_action op (length (t_dims a)) (length (t_dims b)) (t_act a) (t_act b)) l s).
    { induction l as [|idx l IH]; intros [[sb sa] f]; cbn [items]; auto.
      unfold map_action at 1, zip_action at 1, op_action at 1. cbn [fst snd].
      destruct (t_act b _ sb) as [[y sb']| | |]; cbn [bind]; auto.
      destruct (t_act a _ sa) as [[x sa']| | |]; cbn [bind fst snd]; auto.
      destruct (op x y f) as [[r f']| | |]; cbn [bind]; auto. now rewrite IH. }
    now rewrite G.
  - split; [|exact E]. intros (H1 & H2 & H3). apply HZ. repeat split; auto.
Qed.

Lemma in_bounds_lastn r dims idx : in_bounds dims idx -> in_bounds (lastn r dims) (lastn r idx).
Proof.
  intros HB. unfold lastn. pose proof (in_bounds_length HB) as EL. rewrite EL.
  rewrite <- (firstn_skipn (length dims - r) dims) in HB. rewrite <- (firstn_skipn (length dims - r) idx) in HB.
  apply in_bounds_app in HB; [apply HB|]. rewrite !firstn_length. lia.
Qed.

Lemma items_denote {A S} (act : action A S) (g : list Z -> A) l : forall s,
  (forall idx s, In idx l -> exists s', act idx s = Ok (g idx, s')) -> exists s', items act l s = Ok (map g l, s').
Proof.
  induction l as [|idx l IH]; intros s H; cbn [items map]; eauto.
  destruct (H idx s (or_introl eq_refl)) as [s1 ->]. cbn [bind].
  destruct (IH s1) as [s2 ->]; [intros; apply H; now right|]. cbn [bind]. eauto.
Qed.

(** The operator on elements, as a closure without state. *)
Definition pure_op {A B R} (op : A -> B -> R) (x : A) (y : B) (s : unit) : outcome (R * unit) := Ok (op x y, s).

Lemma op_expr_values {A B R} (op : A -> B -> R) (a : tree A) (b : tree B) ga gb ea eb :
  t_leaves a -> t_leaves b -> t_build a = Ok ea -> t_build b = Ok eb -> compatible a b ->
  denotes a ga -> denotes b gb -> t_fine (TZip b a) ->
  exists e, op_expr (pure_op op) tt ea eb = Ok e /\ e_dims e = longer (t_dims b) (t_dims a) /\
    e_collect e = Ok (map (fun idx => op (ga (lastn (length (t_dims a)) idx)) (gb (lastn (length (t_dims b)) idx)))
                        (indices (e_dims e))).
Proof.
  intros LA LB EA EB HC DA DB HF. destruct (op_expr_ok (pure_op op) tt LA LB EA EB) as [[_ (e & E & D & C)]|[H _]]; [|contradiction].
  exists e. split; [exact E|]. split; [exact D|]. rewrite (C HF), D.
  match goal with |- context [items ?act ?l ?s] => destruct (@items_denote _ _ act
    (fun idx => op (ga (lastn (length (t_dims a)) idx)) (gb (lastn (length (t_dims b)) idx))) l s) as [s' ->]; [|reflexivity] end.
  intros idx [[sb sa] u] Hi. apply in_indices in Hi. destruct HC as [HT _].
  assert (HB : in_bounds (t_dims b) (lastn (length (t_dims b)) idx)).
  { apply (in_bounds_lastn (length (t_dims b))) in Hi. now rewrite trailing_l in Hi. }
  assert (HA : in_bounds (t_dims a) (lastn (length (t_dims a)) idx)).
  { apply (in_bounds_lastn (length (t_dims a))) in Hi. now rewrite trailing_r in Hi. }
  unfold op_action. cbn [fst snd]. destruct (DB _ sb HB) as [sb' ->]. cbn [bind]. destruct (DA _ sa HA) as [sa' ->].
  cbn [bind pure_op]. eauto.
Qed.

(** Unary operators on expressions. *)
Lemma neg_expr_values {A R} (op : A -> R) (a : tree A) ga ea :
  t_leaves a -> t_build a = Ok ea -> denotes a ga -> t_fine a ->
  let e := neg_expr (fun x (s : unit) => Ok (op x, s)) tt ea in
  e_dims e = t_dims a /\ e_collect e = Ok (map (fun idx => op (ga idx)) (indices (t_dims a))).
Proof.
  intros LA EA DA HF.
  set (t := TMap (fun x (s : unit) => Ok (op x, s)) tt a).
  assert (HL : t_leaves t) by exact LA.
  destruct (build_cases HL) as [(HZ & e & E & B0)|[_ E]]; cbn [t t_build] in E; rewrite EA in E; [|discriminate].
  injection E as E. unfold neg_expr. cbn zeta. rewrite E. split; [apply (bu_dims B0)|].
  rewrite (tree_collect B0 HF). cbn [t t_act t_init t_dims].
  destruct (@items_denote _ _ (map_action (fun x (s : unit) => Ok (op x, s)) (t_act a)) (fun idx => op (ga idx))
    (indices (t_dims a)) (t_init a, tt)) as [s' E']; [|exact (f_equal (fun o => let* (xs, _) := o in Ok xs) E')].
  intros idx [s u] Hi. apply in_indices in Hi. unfold map_action. cbn [fst snd]. destruct (DA idx s Hi) as [s' ->].
  cbn [bind]. eauto.
Qed.

(** ** Owned operands *)

Definition pure_call {A B T C} (op : A -> B -> T) (x : A) (y : B) (c : C) : call T C := Gives (op x y) c.

Lemma gives_pure {X T C} (f : X -> C -> call T C) (h : X -> T) l (c : C) :
  (forall x c, f x c = Gives (h x) c) -> gives (map f l) c = (map h l, c, true).
Proof.
  intros H. induction l as [|x l IH]; cbn [map gives]; auto. rewrite H. rewrite IH. reflexivity.
Qed.

Lemma produce_denote {A S} (act : action A S) (g : list Z -> A) l : forall s,
  (forall idx s, In idx l -> exists s', act idx s = Ok (g idx, s')) -> exists s', produce act l s = (map g l, Ok s').
Proof.
  induction l as [|idx l IH]; intros s H; cbn [produce map]; eauto.
  destruct (H idx s (or_introl eq_refl)) as [s1 ->].
  destruct (IH s1) as [s2 ->]; [intros; apply H; now right|]. eauto.
Qed.

Lemma combine_map_elem {A T R} (h : T -> A -> R) (g : list Z -> A) dims (l : list T) :
  nonneg dims -> zlen l = prodZ dims ->
  let rs := map (fun p => h (fst p) (snd p)) (combine l (map g (indices dims))) in
  zlen rs = prodZ dims /\
  forall idx, in_bounds dims idx -> exists x, elem_at dims l idx = Some x /\ elem_at dims rs idx = Some (h x (g idx)).
Proof.
  intros HN HL. cbn zeta. pose proof (prodZ_nonneg HN) as HP.
  assert (HE : length (indices dims) = length l) by (rewrite indices_length by auto; unfold zlen in HL; lia).
  split. { unfold zlen in *. rewrite map_length, combine_length, map_length, HE. lia. }
  intros idx Hi. pose proof (elem_at_in Hi HL) as HX. unfold elem_at in *. rewrite (proj2 (inside_spec _ _) Hi) in *.
  destruct (nth_error l _) as [x|] eqn:EX; [|congruence]. exists x. split; auto.
  pose proof (indices_at Hi) as EI. revert HE EX EI. generalize (Z.to_nat (flat dims idx)). generalize (indices dims).
  clear. intros is. revert l. induction is as [|i is IH]; intros [|y l] [|k] HE EX EI; try discriminate; cbn in *.
  - congruence.
  - apply IH; auto.
Qed.

Lemma operand_produce {Y} (a : tree Y) g dims :
  operand_fits dims a -> denotes a g -> exists s',
  produce (bcast (length (t_dims a)) (t_act a)) (indices dims) (t_init a) =
    (map (fun idx => g (lastn (length (t_dims a)) idx)) (indices dims), Ok s').
Proof.
  intros HO HD. apply produce_denote. intros idx s Hi. apply in_indices in Hi. unfold bcast. apply HD.
  eapply operand_bounds; eauto.
Qed.

(** An owned tensor combined with any operand, whichever side the tensor is on. *)
Lemma tensor_combine {T Y C} (h : T -> Y -> T) (f : T * Y -> C -> call T C) (t : tensor T) (a : tree Y) g e (w : world T C) :
  (forall p c, f p c = Gives (h (fst p) (snd p)) c) ->
  tensor_ok t -> t_leaves a -> t_build a = Ok e -> operand_fits (tn_dims t) a -> denotes a g ->
  t_fine (with_target (zlen (tn_mem t)) (whole (tn_ty t) (tn_dims t)) a) ->
  exists rs, zlen rs = prodZ (tn_dims t) /\
    tn_zip_with e f t w = Done (mkTensor (tn_ty t) (tn_dims t) rs (tn_cap t))
                            (mkWorld (w_clo w) (w_made w ++ rs) (w_used w ++ tn_mem t) (w_dropped w)) /\
    (forall idx, in_bounds (tn_dims t) idx ->
       exists x, elem_at (tn_dims t) (tn_mem t) idx = Some x /\
         elem_at (tn_dims t) rs idx = Some (h x (g (lastn (length (t_dims a)) idx)))).
Proof.
  intros Hf Ht LA EA HO HD HF. destruct (zip_with_tree Ht LA EA) as [[H _]|[_ (z & Z1 & Z2)]]; [contradiction|].
  specialize (Z2 HF). destruct (operand_produce HO HD) as [s' E]. rewrite E in Z2. cbn [done] in Z2.
  destruct (@combine_map_elem _ _ _ h (fun idx => g (lastn (length (t_dims a)) idx)) (tn_dims t) (tn_mem t)) as [HL HE];
    [apply Ht| rewrite <- (to_len Ht); reflexivity|].
  eexists. split; [exact HL|]. split; [|exact HE].
  assert (HI : length (indices (tn_dims t)) = length (tn_mem t)).
  { rewrite indices_length by apply Ht. rewrite <- (to_len Ht). lia. }
  rewrite (@zip_with_items _ _ _ e f t w z _ _ Ht Z1 Z2).
  - rewrite (@gives_pure _ _ _ f (fun p => h (fst p) (snd p)) _ _ Hf).
    rewrite map_length, combine_length, map_length, HI, Nat.min_id. cbv beta zeta iota. now rewrite firstn_all.
  - rewrite map_length. lia.
  - rewrite map_length. auto.
Qed.

Lemma array_combine {T Y C} (h : T -> Y -> T) (f : T * Y -> C -> call T C) ds (l : list T) (a : tree Y) g e (w : world T C) :
  let dims := map dim_default ds in
  (forall p c, f p c = Gives (h (fst p) (snd p)) c) ->
  fits dims -> typed (STuple ds) dims -> nonneg dims -> zlen l = prodZ dims ->
  t_leaves a -> t_build a = Ok e -> operand_fits dims a -> denotes a g ->
  t_fine (TZip (TInto (STuple ds) dims l) a) ->
  exists rs, zlen rs = prodZ dims /\
    ar_zip_with ds l e f w = Done rs (mkWorld (w_clo w) (w_made w ++ rs) (w_used w ++ l) (w_dropped w)) /\
    (forall idx, in_bounds dims idx ->
       exists x, elem_at dims l idx = Some x /\ elem_at dims rs idx = Some (h x (g (lastn (length (t_dims a)) idx)))).
Proof.
  intros dims Hf HFI HT HN HL LA EA HO HD HF. destruct (ar_zip_tree HT HN HL LA EA) as [[H _]|[_ (z & Z1 & Z0 & Z2)]]; [contradiction|].
  specialize (Z2 HF). destruct (operand_produce HO HD) as [s' E]. fold dims in Z2. rewrite E in Z2. cbn [done] in Z2.
  destruct (@combine_map_elem _ _ _ h (fun idx => g (lastn (length (t_dims a)) idx)) dims l HN HL) as [HR HE].
  eexists. split; [exact HR|]. split; [|exact HE].
  assert (HI : length (indices dims) = length l).
  { rewrite indices_length by auto. unfold zlen in HL. lia. }
  rewrite (@ar_zip_with_items _ _ _ ds l e f w z _ _ HFI HT HL Z1 Z0 Z2).
  - rewrite (@gives_pure _ _ _ f (fun p => h (fst p) (snd p)) _ _ Hf). reflexivity.
  - rewrite map_length. lia.
  - left. rewrite map_length. auto.
Qed.

(** The calls, for an operation that may panic. *)
Lemma tensor_calls {T Y C} (f : T * Y -> C -> call T C) (t : tensor T) (a : tree Y) g e (w : world T C) :
  tensor_ok t -> t_leaves a -> t_build a = Ok e -> operand_fits (tn_dims t) a -> denotes a g ->
  t_fine (with_target (zlen (tn_mem t)) (whole (tn_ty t) (tn_dims t)) a) ->
  tn_zip_with e f t w =
  let ys := map (fun idx => g (lastn (length (t_dims a)) idx)) (indices (tn_dims t)) in
  let '(rs, c, b) := gives (map f (combine (tn_mem t) ys)) (w_clo w) in
  if b then Done (mkTensor (tn_ty t) (tn_dims t) rs (tn_cap t))
                 (mkWorld c (w_made w ++ rs) (w_used w ++ tn_mem t) (w_dropped w))
  else Unwound (mkWorld c (w_made w ++ rs) (w_used w ++ firstn (S (length rs)) (tn_mem t))
                  (w_dropped w ++ rs ++ skipn (S (length rs)) (tn_mem t))).
Proof.
  intros Ht LA EA HO HD HF. destruct (zip_with_tree Ht LA EA) as [[H _]|[_ (z & Z1 & Z2)]]; [contradiction|].
  specialize (Z2 HF). destruct (operand_produce HO HD) as [s' E]. rewrite E in Z2. cbn [done] in Z2.
  assert (HI : length (indices (tn_dims t)) = length (tn_mem t)).
  { rewrite indices_length by apply Ht. rewrite <- (to_len Ht). lia. }
  rewrite (@zip_with_items _ _ _ e f t w z _ _ Ht Z1 Z2) by (rewrite map_length; lia || auto).
  cbv zeta. destruct (gives _ _) as [[rs c] b] eqn:EG. destruct b; [|reflexivity].
  destruct (gives_length EG) as [_ HG]. specialize (HG eq_refl).
  rewrite map_length, combine_length, map_length in HG.
  rewrite firstn_all2 by lia. reflexivity.
Qed.

Lemma array_calls {T Y C} (f : T * Y -> C -> call T C) ds (l : list T) (a : tree Y) g e (w : world T C) :
  let dims := map dim_default ds in
  fits dims -> typed (STuple ds) dims -> nonneg dims -> zlen l = prodZ dims ->
  t_leaves a -> t_build a = Ok e -> operand_fits dims a -> denotes a g ->
  t_fine (TZip (TInto (STuple ds) dims l) a) ->
  ar_zip_with ds l e f w =
  let ys := map (fun idx => g (lastn (length (t_dims a)) idx)) (indices dims) in
  let '(rs, c, b) := gives (map f (combine l ys)) (w_clo w) in
  if b then Done rs (mkWorld c (w_made w ++ rs) (w_used w ++ l) (w_dropped w))
  else Unwound (mkWorld c (w_made w ++ rs) (w_used w ++ firstn (S (length rs)) l)
                  (w_dropped w ++ skipn (S (length rs)) l ++ rs)).
Proof.
  intros dims HFI HT HN HL LA EA HO HD HF. destruct (ar_zip_tree HT HN HL LA EA) as [[H _]|[_ (z & Z1 & Z0 & Z2)]]; [contradiction|].
  specialize (Z2 HF). destruct (operand_produce HO HD) as [s' E]. fold dims in Z2. rewrite E in Z2. cbn [done] in Z2.
  assert (HI : length (indices dims) = length l).
  { rewrite indices_length by auto. unfold zlen in HL. lia. }
  rewrite (@ar_zip_with_items _ _ _ ds l e f w z _ _ HFI HT HL Z1 Z0 Z2).
  - reflexivity.
  - rewrite map_length. lia.
  - left. rewrite map_length. auto.
Qed.

Lemma owned_refused {T Y C} (f : T * Y -> C -> call T C) (t : tensor T) (a : tree Y) e (w : world T C) :
  tensor_ok t -> t_leaves a -> t_build a = Ok e -> ~ operand_fits (tn_dims t) a ->
  tn_zip_with e f t w = Unwound (w_drop (tn_mem t) w).
Proof.
  intros Ht LA EA HO. destruct (zip_with_tree Ht LA EA) as [[_ H]|[H _]]; [|contradiction].
  now apply zip_with_refused.
Qed.

Lemma array_refused {T Y C} (f : T * Y -> C -> call T C) ds (l : list T) (a : tree Y) e (w : world T C) :
  let dims := map dim_default ds in
  typed (STuple ds) dims -> nonneg dims -> zlen l = prodZ dims ->
  t_leaves a -> t_build a = Ok e -> ~ operand_fits dims a ->
  ar_zip_with ds l e f w = Unwound (w_drop l w).
Proof.
  intros dims HT HN HL LA EA HO. destruct (ar_zip_tree HT HN HL LA EA) as [[_ H]|[H _]]; [|contradiction].
  now apply ar_zip_with_refused.
Qed.

(** ** Compound assignment *)

(** One step of [v op= e]: the item of [e] is computed, then the element is replaced. *)
Definition assign_action {T Y C S : Type} (op : T -> Y -> C -> outcome (T * C)) (mem : list T) (v : view)
    (r : nat) (act : action Y S) : action T (S * C) :=
  fun idx s =>
    let* (y, s') := act (lastn r idx) (fst s) in
    let* x := v_get mem v idx in
    let* (x', c) := op x y (snd s) in
    Ok (x', (s', c)).

Section OpWrite.
  Context {T Y C S : Type} (op : T -> Y -> C -> outcome (T * C)) (v : view) (act : action Y S) (r : nat) (mem0 : list T).
  Let f := fun (s : list T * C) (p : Z * Y) =>
             let* x := read (fst s) (fst p) in
             let* (x', c) := op x (snd p) (snd s) in
             let* mem := write (fst s) (fst p) x' in Ok (mem, c).

  Lemma run_op l s mem c :
    NoDup (map (v_addr v) l) -> length mem = length mem0 ->
    (forall idx, In idx l -> in_bounds (v_dims v) idx /\ 0 <= v_addr v idx < Z.of_nat (length mem) /\
                             read mem (v_addr v idx) = read mem0 (v_addr v idx)) ->
    run (zip_action (length (v_dims v)) r (pure_action (v_addr v)) act) f l (tt, s) (mem, c) =
      let* (xs, s') := items (assign_action op mem0 v r act) l (s, c) in
      Ok ((tt, fst s'), (store (map (v_addr v) l) xs mem, snd s')).
  Proof.
    revert s mem c. induction l as [|idx l IH]; intros s mem c HND HM H; [reflexivity|].
    cbn [run items map]. unfold zip_action at 1, assign_action at 1. cbn [fst snd].
    destruct (H idx (or_introl eq_refl)) as (E1 & E2 & E3). unfold pure_action at 1. cbn [bind].
    rewrite (lastn_bounds E1). destruct (act (lastn r idx) s) as [[y s1]| | |]; cbn [bind]; auto.
    unfold f at 1. cbn [fst snd]. rewrite E3. rewrite (v_get_in mem0 E1).
    destruct (read mem0 (v_addr v idx)) as [x| | |]; cbn [bind]; auto.
    destruct (op x y c) as [[x' c1]| | |]; cbn [bind]; auto.
    unfold write. destruct (Z.leb_spec 0 (v_addr v idx)); [|lia].
    destruct (Z.ltb_spec (v_addr v idx) (Z.of_nat (length mem))); [|lia]. cbn [andb bind].
    inversion HND as [|? ? HNI HND']; subst.
    rewrite IH; auto.
    - destruct (items _ l (s1, c1)) as [[xs s2]| | |]; cbn [bind store]; auto.
    - now rewrite upd_length.
    - intros j Hj. destruct (H j (or_intror Hj)) as (J1 & J2 & J3). rewrite upd_length. split; auto. split; auto.
      rewrite <- J3. unfold read. destruct (Z.ltb_spec (v_addr v j) 0); [lia|].
      rewrite nth_error_upd_other; auto. intros EQ. apply HNI. replace (v_addr v idx) with (v_addr v j) by lia. now apply in_map.
  Qed.
End OpWrite.

Lemma op_assign_ok {T Y C} (op : T -> Y -> C -> outcome (T * C)) v (t : tree Y) e mem c :
  let n := Z.of_nat (length mem) in
  valid_view n v -> t_leaves t -> t_build t = Ok e ->
  operand_fits (v_dims v) t -> t_fine (with_target n v t) ->
  match items (assign_action op mem v (length (t_dims t)) (t_act t)) (indices (v_dims v)) (t_init t, c) with
  | Ok (xs, s) => exists mem', v_op_assign op v e mem c = Ok (mem', snd s) /\
                    stored (v_dims v) (v_addr v) xs mem mem'
  | Panic => v_op_assign op v e mem c = Panic
  | UB => v_op_assign op v e mem c = UB
  | NoFuel => v_op_assign op v e mem c = NoFuel
  end.
Proof.
  intros n Hv HL HB (HT & HR & HP) HF.
  assert (HZ : t_zips t).
  { destruct (build_cases HL) as [[H _]|[_ H]]; auto. congruence. }
  assert (HLZ : t_leaves (with_target n v t)) by (split; auto).
  assert (HZZ : t_zips (with_target n v t)).
  { split; [exact I|]. split; auto. split; [exact HT|]. split; [right; exact HR|].
    destruct HP as [H|H]; auto. right. cbn [t_dims]. lia. }
  destruct (build_ok HLZ HZZ) as (z & Ez & Bz). unfold with_target in Ez. cbn [t_build bind] in Ez.
  rewrite HB in Ez. cbn [bind] in Ez.
  assert (ED : longer (v_dims v) (t_dims t) = v_dims v).
  { unfold longer. destruct (Nat.ltb_spec (length (v_dims v)) (length (t_dims t))); [lia|reflexivity]. }
  assert (E : v_op_assign op v e mem c =
    let* (xs, s) := items (assign_action op mem v (length (t_dims t)) (t_act t)) (indices (v_dims v)) (t_init t, c) in
    Ok (store (map (v_addr v) (indices (v_dims v))) xs mem, snd s)).
  { unfold v_op_assign. fold n. rewrite Ez. cbn [bind].
    rewrite (tree_fold _ _ Bz HF). cbn [with_target t_act t_init t_dims].
    rewrite ED. unfold run_value.
    assert (W := @run_op T Y C _ op v (t_act t) (length (t_dims t)) mem
                   (indices (v_dims v)) (t_init t) mem c).
    etransitivity; [eapply (f_equal (fun o => let* (_, t') := o in Ok t')); apply W|]; auto.
    - apply NoDup_map_inj; [|apply indices_NoDup; apply (wf_nonneg (vv_wf Hv))].
      intros i j Hi Hj. apply in_indices in Hi, Hj. now apply (vv_inj Hv).
    - intros idx Hi. apply in_indices in Hi. split; auto. split; auto. now apply (vv_range Hv).
    - destruct (items _ _ _) as [[xs s]| | |]; reflexivity. }
  rewrite E. destruct (items _ _ _) as [[xs s]| | |] eqn:EI; cbn [bind]; auto.
  eexists. split; [reflexivity|]. apply (store_stored Hv eq_refl). apply (items_length EI).
Qed.

Lemma op_assign_panic {T Y C} (op : T -> Y -> C -> outcome (T * C)) v (t : tree Y) e mem c :
  valid_view (Z.of_nat (length mem)) v -> t_leaves t -> t_build t = Ok e ->
  ~ operand_fits (v_dims v) t -> v_op_assign op v e mem c = Panic.
Proof.
  intros Hv HL HB HN. destruct (build_cases HL) as [(HZ & e' & E' & B)|[_ H]]; [|congruence].
  assert (e' = e) by congruence. subst e'. clear E'.
  unfold v_op_assign. set (n := Z.of_nat (length mem)) in *.
  destruct (@zip_cases _ _ (e_view n false v) e (wf_typed (vv_wf Hv)) (bu_ty B)) as [((H1 & H2 & H3) & _)|[_ ->]]; [|reflexivity].
  exfalso. apply HN. unfold e_rank in *. cbn [e_view e_dims e_rep] in *. rewrite (bu_dims B), (bu_rep B) in *.
  destruct H2 as [H2|H2]; [discriminate|]. repeat split; auto. destruct H3; auto. right. unfold v_dims in *. lia.
Qed.

Lemma items_rel {A S} (act : action A S) (P : list Z -> A -> Prop) l : forall s,
  (forall idx s, In idx l -> exists a s', act idx s = Ok (a, s') /\ P idx a) ->
  exists xs s', items act l s = Ok (xs, s') /\ Forall2 P l xs.
Proof.
  induction l as [|idx l IH]; intros s H; cbn [items].
  - exists [], s. split; [reflexivity|constructor].
  - destruct (H idx s (or_introl eq_refl)) as (a & s1 & -> & HP). cbn [bind].
    destruct (IH s1) as (xs & s2 & -> & HX); [intros; apply H; now right|]. cbn [bind].
    exists (a :: xs), s2. split; [reflexivity|now constructor].
Qed.

Lemma Forall2_nth_error {A B} (P : A -> B -> Prop) l r k x :
  Forall2 P l r -> nth_error l k = Some x -> exists y, nth_error r k = Some y /\ P x y.
Proof.
  intros H. revert k. induction H; intros [|k] E; try discriminate; cbn in *; eauto.
  injection E as ->. eauto.
Qed.

(** With an operator that does not panic, element by element. *)
Lemma op_assign_values {T Y} (op : T -> Y -> T) v (t : tree Y) g e mem :
  valid_view (Z.of_nat (length mem)) v -> t_leaves t -> t_build t = Ok e ->
  operand_fits (v_dims v) t -> t_fine (with_target (Z.of_nat (length mem)) v t) -> denotes t g ->
  exists mem', v_op_assign (fun x y (s : unit) => Ok (op x y, s)) v e mem tt = Ok (mem', tt) /\
    length mem' = length mem /\
    (forall idx, in_bounds (v_dims v) idx ->
       exists x, v_get mem v idx = Ok x /\ v_get mem' v idx = Ok (op x (g (lastn (length (t_dims t)) idx)))) /\
    (forall k, (forall idx, in_bounds (v_dims v) idx -> v_addr v idx <> Z.of_nat k) -> nth_error mem' k = nth_error mem k).
Proof.
  intros Hv HL HB HO HF HD.
  pose proof (op_assign_ok (fun x y (s : unit) => Ok (op x y, s)) tt Hv HL HB HO HF) as H.
  destruct (@items_rel _ _ (assign_action (fun x y (s : unit) => Ok (op x y, s)) mem v (length (t_dims t)) (t_act t))
    (fun idx a => exists x, v_get mem v idx = Ok x /\ a = op x (g (lastn (length (t_dims t)) idx)))
    (indices (v_dims v)) (t_init t, tt)) as (xs & [s' []] & E & HX).
  { intros idx [s []] Hi. apply in_indices in Hi. unfold assign_action. cbn [fst snd].
    destruct (HD (lastn (length (t_dims t)) idx) s) as [s1 ->]; [eapply operand_bounds; eauto|]. cbn [bind].
    destruct (checked_get Hv) as [HG _]. destruct (HG idx Hi) as [x Ex]. rewrite Ex. cbn [bind]. eexists _, _. split; [reflexivity|]. eauto. }
  rewrite E in H. destruct H as (mem' & EM & HLM & HI & HO'). exists mem'. split; [exact EM|]. split; [exact HLM|]. split.
  - intros idx Hi. destruct (HI idx Hi) as [H1 H2].
    pose proof (indices_at Hi) as EI. destruct (Forall2_nth_error HX EI) as (a & EA & x & EX & ->).
    exists x. split; auto. rewrite v_get_in by auto. unfold read. pose proof (vv_range Hv Hi).
    destruct (Z.ltb_spec (v_addr v idx) 0); [lia|]. rewrite H1, EA. reflexivity.
  - intros k Hk. apply HO'. intros idx Hi EQ. apply (Hk idx Hi). pose proof (vv_range Hv Hi). lia.
Qed.

(** ** A nonempty array has at most as many elements as cells *)

Lemma nonempty_fits n v :
  valid_view n v -> n <= usize_max -> 0 < prodZ (v_dims v) -> fits (v_dims v).
Proof.
  intros HV Hn HP. pose proof (wf_nonneg (vv_wf HV)) as HN. fold (v_dims v) in HN.
  assert (HL : prodZ (v_dims v) <= n).
  { assert (H : (length (map (v_addr v) (indices (v_dims v))) <= length (zrange n))%nat).
    { apply NoDup_incl_length.
      - apply NoDup_map_inj; [|now apply indices_NoDup]. intros i j Hi Hj. apply in_indices in Hi, Hj. now apply (vv_inj HV).
      - intros a Ha. apply in_map_iff in Ha. destruct Ha as (idx & <- & Hi). apply in_zrange. apply (vv_range HV). now apply in_indices. }
    rewrite map_length, indices_length, zrange_length in H by exact HN. lia. }
  intros k. revert HN HP HL. generalize (v_dims v). intros dims HN HP HL.
  rewrite <- (firstn_skipn k dims) in HP, HL. rewrite prodZ_app in HP, HL.
  assert (0 <= prodZ (firstn k dims)) by (apply prodZ_nonneg; now apply Forall_firstn').
  assert (0 <= prodZ (skipn k dims)) by (apply prodZ_nonneg; now apply Forall_skipn').
  assert (0 < prodZ (firstn k dims)) by nia. assert (0 < prodZ (skipn k dims)) by nia. nia.
Qed.

(** ** Equality and membership with an element comparison that does not panic *)

Lemma list_eq_pure {T U} (eqb : T -> U -> bool) xs : forall ys, length xs = length ys ->
  exists r, list_eq (fun x y => Ok (eqb x y)) xs ys = Ok r /\
    (r = true <-> forall k x y, nth_error xs k = Some x -> nth_error ys k = Some y -> eqb x y = true).
Proof.
  induction xs as [|x xs IH]; intros [|y ys] HL; try discriminate; cbn [list_eq bind].
  - exists true. split; auto. split; auto. intros _ [|k] x y; discriminate.
  - destruct (IH ys) as (r & E & H); [now injection HL|]. destruct (eqb x y) eqn:EB.
    + exists r. split; auto. rewrite H. split; intros G.
      * intros [|k] x' y' Hx Hy; cbn in *; [congruence|eauto].
      * intros k x' y' Hx Hy. apply (G (S k)); auto.
    + exists false. split; auto. split; [discriminate|]. intros G. rewrite (G O x y) in EB; auto.
Qed.

Lemma v_eq_pure {T U} (eqb : T -> U -> bool) am bm a b :
  valid_view (Z.of_nat (length am)) a -> valid_view (Z.of_nat (length bm)) b -> fits (v_dims a) ->
  exists r, v_eq (fun x y => Ok (eqb x y)) am bm a b = Ok r /\
    (r = true <-> v_dims a = v_dims b /\
       forall idx x y, in_bounds (v_dims a) idx -> v_get am a idx = Ok x -> v_get bm b idx = Ok y -> eqb x y = true).
Proof.
  intros HA HB HF. destruct (contents_exist HA) as [xs HX]. destruct (contents_exist HB) as [ys HY].
  destruct (v_eq_ok (fun x y => Ok (eqb x y)) HA HB HF HX HY) as [H1 H2].
  destruct (list_eq_dec Z.eq_dec (v_dims a) (v_dims b)) as [HD|HD].
  - rewrite (H1 HD). assert (HL : length xs = length ys).
    { apply contents_length in HX; [|apply HA]. apply contents_length in HY; [|apply HB]. unfold zlen in *. rewrite HD in HX. lia. }
    destruct (list_eq_pure eqb HL) as (r & E & H). exists r. split; auto. rewrite H. split; intros G.
    + split; auto. intros idx x y Hi Gx Gy.
      destruct (contents_nth HX Hi) as (x' & Nx & Ex). rewrite HD in Hi. destruct (contents_nth HY Hi) as (y' & Ny & Ey).
      rewrite <- HD in Ny. apply (G (Z.to_nat (flat (v_dims a) idx))); congruence.
    + destruct G as [_ G]. intros k x y Nx Ny.
      assert (Hk : (k < length (indices (v_dims a)))%nat).
      { apply Forall2_len in HX. rewrite HX. apply nth_error_Some. congruence. }
      destruct (nth_error (indices (v_dims a)) k) as [idx|] eqn:EI; [|apply nth_error_None in EI; lia].
      assert (Hi : in_bounds (v_dims a) idx) by (apply in_indices; eapply nth_error_In; eauto).
      destruct (Forall2_nth_error HX EI) as (x' & Nx' & Ex). rewrite HD in EI. destruct (Forall2_nth_error HY EI) as (y' & Ny' & Ey).
      apply (G idx); congruence.
  - rewrite (H2 HD). exists false. split; auto. split; [discriminate|]. intros [H _]. contradiction.
Qed.

Lemma list_any_pure {A} (p : A -> bool) l :
  exists r, list_any (fun x => Ok (p x)) l = Ok r /\ (r = true <-> exists x, In x l /\ p x = true).
Proof.
  induction l as [|x l (r & E & H)]; cbn [list_any bind].
  - exists false. split; auto. split; [discriminate|]. intros (x & [] & _).
  - destruct (p x) eqn:EP.
    + exists true. split; auto. split; auto. intros _. exists x. split; [now left|auto].
    + exists r. split; auto. rewrite H. split; intros (y & Hy & Py); exists y; split; auto; [now right|].
      destruct Hy as [->|Hy]; auto. congruence.
Qed.

Lemma contains_pure {T} (eqb : T -> T -> bool) mem v value :
  valid_view (Z.of_nat (length mem)) v -> fits (v_dims v) ->
  exists r, v_contains (fun x y => Ok (eqb x y)) mem v value = Ok r /\
    (r = true <-> exists idx x, in_bounds (v_dims v) idx /\ v_get mem v idx = Ok x /\ eqb x value = true).
Proof.
  intros HV HF. destruct (contents_exist HV) as [xs HX]. unfold v_contains.
  rewrite (contains_loop_ok (fun x y => Ok (eqb x y)) value HV (le_n _) HF HX).
  destruct (list_any_pure (fun x => eqb x value) xs) as (r & E & H). exists r. split; auto. rewrite H. split.
  - intros (x & Hx & P). apply In_nth_error in Hx. destruct Hx as [k Hk].
    assert (Hlt : (k < length (indices (v_dims v)))%nat).
    { pose proof (Forall2_len HX) as HL. rewrite HL. apply nth_error_Some. congruence. }
    destruct (nth_error (indices (v_dims v)) k) as [idx|] eqn:EI; [|apply nth_error_None in EI; lia].
    destruct (Forall2_nth_error HX EI) as (x' & Nx & Ex). exists idx, x. split; [apply in_indices; eapply nth_error_In; eauto|].
    split; congruence.
  - intros (idx & x & Hi & G & P). destruct (contents_nth HX Hi) as (x' & Nx & Ex). exists x. split; auto.
    eapply nth_error_In. rewrite Nx. congruence.
Qed.

(** Equal arrays have equal hashes, if equal elements have. *)
Lemma hash_eq {T U H} (eqb : T -> U -> bool) (h1 : T -> list H) (h2 : U -> list H) am bm a b :
  (forall x y, eqb x y = true -> h1 x = h2 y) ->
  valid_view (Z.of_nat (length am)) a -> valid_view (Z.of_nat (length bm)) b -> fits (v_dims a) ->
  view_fine a -> view_fine b ->
  v_eq (fun x y => Ok (eqb x y)) am bm a b = Ok true ->
  exists out, v_hash h1 am a = Ok out /\ v_hash h2 bm b = Ok out.
Proof.
  intros HH HA HB HF FA FB E. destruct (contents_exist HA) as [xs HX]. destruct (contents_exist HB) as [ys HY].
  rewrite (hash_ok h1 HA FA HX), (hash_ok h2 HB FB HY).
  destruct (v_eq_ok (fun x y => Ok (eqb x y)) HA HB HF HX HY) as [H1 H2].
  destruct (list_eq_dec Z.eq_dec (v_dims a) (v_dims b)) as [HD|HD]; [|rewrite (H2 HD) in E; discriminate].
  rewrite (H1 HD) in E. rewrite HD.
  assert (HL : length xs = length ys).
  { apply contents_length in HX; [|apply HA]. apply contents_length in HY; [|apply HB]. unfold zlen in *. rewrite HD in HX. lia. }
  eexists. split; [reflexivity|]. do 3 f_equal. clear - HH E HL. revert ys E HL.
  induction xs as [|x xs IH]; intros [|y ys] E HL; try discriminate; auto. cbn [list_eq bind flat_map] in *.
  destruct (eqb x y) eqn:EB; [|discriminate]. rewrite (HH x y EB). f_equal. symmetry. symmetry. apply IH; auto.
Qed.

(** ** DynRank *)

Lemma slice_cmp_refl l : slice_cmp l l = Eq.
Proof. induction l as [|x l IH]; cbn; auto. now rewrite Z.compare_refl. Qed.
Lemma slice_cmp_eq a : forall b, slice_cmp a b = Eq <-> a = b.
Proof.
  induction a as [|x a IH]; intros [|y b]; cbn; split; intros H; try discriminate; auto.
  - destruct (Z.compare_spec x y); try discriminate. apply IH in H. congruence.
  - injection H as -> ->. rewrite Z.compare_refl. now apply IH.
Qed.
Lemma slice_cmp_lt a : forall b, slice_cmp a b = Lt <->
  exists p, (exists y t, a = p /\ b = p ++ y :: t) \/
            (exists x y s t, a = p ++ x :: s /\ b = p ++ y :: t /\ x < y).
Proof.
  induction a as [|x a IH]; intros [|y b]; cbn [slice_cmp]; split; intros H; try discriminate; auto.
  - destruct H as (p & [(y & t & <- & H)|(x & y & s & t & H & _)]); [discriminate|destruct p; discriminate].
  - exists []. left. eexists _, _. split; reflexivity.
  - destruct H as (p & [(z & t & <- & H)|(x' & z & s & t & _ & H & _)]); [discriminate|destruct p; discriminate].
  - destruct (Z.compare_spec x y) as [->|HL|HG]; try discriminate.
    + apply IH in H. destruct H as (p & [(z & t & -> & ->)|(x' & z & s & t & -> & -> & HL)]).
      * exists (y :: p). left. eexists _, _. split; reflexivity.
      * exists (y :: p). right. exists x', z, s, t. auto.
    + exists []. right. exists x, y, a, b. auto.
  - destruct H as (p & [(z & t & <- & H)|(x' & z & s & t & H1 & H2 & HL)]).
    + injection H as -> ->. rewrite Z.compare_refl. apply IH. exists a. left. eauto.
    + destruct p as [|q p]; cbn in H1, H2.
      * injection H1 as -> ->. injection H2 as -> ->. destruct (Z.compare_spec x' z); auto; lia.
      * injection H1 as -> ->. injection H2 as -> ->. rewrite Z.compare_refl. apply IH. exists p. right. eauto 10.
Qed.
Lemma slice_cmp_opp a : forall b, slice_cmp b a = CompOpp (slice_cmp a b).
Proof.
  induction a as [|x a IH]; intros [|y b]; cbn; auto.
  rewrite (Z.compare_antisym x y). destruct (x ?= y); cbn; auto.
Qed.

Lemma dr_clone_dims d : dr_dims (dr_clone d) = dr_dims d.
Proof. destruct d as [[|n [|m l]]|n]; reflexivity. Qed.
Lemma dr_clone_from_dims a b : dr_dims (dr_clone_from a b) = dr_dims b.
Proof.
  unfold dr_clone_from. destruct a as [l|n], b as [l'|m]; try apply dr_clone_dims.
  destruct (_ =? _)%nat; [reflexivity|apply dr_clone_dims].
Qed.
Lemma dr_from_dims_dims l : dr_dims (dr_from_dims l) = l.
Proof.
  unfold dr_from_dims, dr_new. destruct (Nat.eqb_spec (length l) 1) as [E|E]; [|reflexivity].
  destruct l as [|n [|m l]]; try discriminate. reflexivity.
Qed.

(** ** Operators on owned arrays and on references to them give the same elements *)

Lemma elem_at_ext {T} dims (l r : list T) :
  nonneg dims -> zlen l = prodZ dims -> zlen r = prodZ dims ->
  (forall idx, in_bounds dims idx -> elem_at dims l idx = elem_at dims r idx) -> l = r.
Proof.
  intros HN HL HR H. assert (HE : length l = length r) by (unfold zlen in *; lia).
  apply nth_error_same. intros k. unfold zlen in *. destruct (Nat.lt_ge_cases k (length l)) as [Hk|Hk].
  - assert (Hk' : 0 <= Z.of_nat k < prodZ dims) by lia.
    specialize (H (unflat dims (Z.of_nat k)) (unflat_in_bounds HN Hk')). unfold elem_at in H.
    rewrite (proj2 (inside_spec _ _) (unflat_in_bounds HN Hk')), flat_unflat, Nat2Z.id in H; auto.
  - rewrite !(proj2 (nth_error_None _ _)) by lia. reflexivity.
Qed.

Lemma elem_at_map {R} (g : list Z -> R) dims idx :
  nonneg dims -> in_bounds dims idx -> elem_at dims (map g (indices dims)) idx = Some (g idx).
Proof.
  intros HN Hi. unfold elem_at. rewrite (proj2 (inside_spec _ _) Hi). pose proof (flat_bounds Hi) as HB.
  rewrite nth_error_map, (nth_error_nth' (indices dims) []).
  - rewrite indices_nth by (auto; lia). rewrite Z2Nat.id by lia. rewrite unflat_flat by auto. reflexivity.
  - rewrite indices_length by auto. lia.
Qed.

Lemma lastn_all {A} (l : list A) : lastn (length l) l = l.
Proof. unfold lastn. now rewrite Nat.sub_diag. Qed.

Lemma longer_bcast {A} (a dims : list A) : trailing_eq dims a -> (length a <= length dims)%nat ->
  longer a dims = dims /\ longer dims a = dims.
Proof.
  unfold trailing_eq, longer. intros H HL. split.
  - destruct (Nat.ltb_spec (length a) (length dims)); auto. assert (E : length a = length dims) by lia.
    rewrite E, Nat.min_id, lastn_all in H. rewrite <- E, lastn_all in H. auto.
  - destruct (Nat.ltb_spec (length dims) (length a)); auto. lia.
Qed.

(** [t op e] and [&t op e]. *)
Lemma owned_ref_agree {T Y C} (op : T -> Y -> T) (t : tensor T) (a : tree Y) g e (w : world T C) :
  tensor_ok t -> t_leaves a -> t_build a = Ok e -> operand_fits (tn_dims t) a -> denotes a g ->
  let v := whole (tn_ty t) (tn_dims t) in
  t_fine (with_target (zlen (tn_mem t)) v a) -> t_fine (TZip a (ref_operand (tn_mem t) v)) ->
  exists rs e', 
    op_tensor (pure_call op) t e w =
      Done (mkTensor (tn_ty t) (tn_dims t) rs (tn_cap t)) (mkWorld (w_clo w) (w_made w ++ rs) (w_used w ++ tn_mem t) (w_dropped w)) /\
    op_expr (pure_op op) tt (e_copied (read (tn_mem t)) (e_view (zlen (tn_mem t)) true v)) e = Ok e' /\
    e_dims e' = tn_dims t /\ e_collect e' = Ok rs.
Proof.
  intros Ht Hl HB HO HD v HF1 HF2.
  destruct (@tensor_combine T Y C op (fun p => pure_call op (fst p) (snd p)) t a g e w) as (rs & L & E & V); auto.
  pose proof (to_nonneg Ht) as HN.
  assert (HV : valid_view (zlen (tn_mem t)) v).
  { apply whole_valid; try apply Ht. unfold zlen. rewrite (to_len Ht). lia. }
  pose proof HO as (HT & HL1 & HR).
  assert (HC : compatible (ref_operand (tn_mem t) v) a).
  { split; [|split].
    - unfold trailing_eq in *. change (t_dims (ref_operand (tn_mem t) v)) with (tn_dims t). rewrite Nat.min_comm. now symmetry.
    - destruct HR as [HR|HR]; auto. right. change (t_dims (ref_operand (tn_mem t) v)) with (tn_dims t). lia.
    - right. exact HL1. }
  destruct (@op_expr_ok _ _ _ _ (pure_op op) tt (ref_operand (tn_mem t) v) a _ e HV Hl eq_refl HB) as [[_ (e' & E' & D' & C')]|[H _]];
    [|contradiction].
  assert (HLG : longer (t_dims a) (t_dims (ref_operand (tn_mem t) v)) = tn_dims t).
  { change (t_dims (ref_operand (tn_mem t) v)) with (tn_dims t). now apply longer_bcast. }
  exists rs, e'. split; [exact E|]. split; [exact E'|]. rewrite D', HLG. split; [reflexivity|].
  rewrite (C' HF2). rewrite HLG.
  match goal with |- context [items ?act ?l ?s] =>
    destruct (@items_rel _ _ act (fun idx r => elem_at (tn_dims t) rs idx = Some r) l s) as (ys & s' & EI & FI) end.
  { intros idx [[sb sa] u] Hi. apply in_indices in Hi. destruct (V idx Hi) as (x & GX & GR).
    exists (op x (g (lastn (length (t_dims a)) idx))). unfold op_action. cbn [fst snd].
    assert (HA : in_bounds (t_dims a) (lastn (length (t_dims a)) idx)).
    { apply (in_bounds_lastn (length (t_dims a))) in Hi. rewrite <- (proj2 (longer_bcast HT HL1)), (trailing_r HT) in Hi. exact Hi. }
    destruct (HD _ sb HA) as [sb' ->]. cbn [bind].
    change (t_dims (ref_operand (tn_mem t) v)) with (tn_dims t).
    assert (EI : lastn (length (tn_dims t)) idx = idx) by (rewrite <- (in_bounds_length Hi); apply lastn_all). rewrite EI.
    assert (GV : v_get (tn_mem t) v idx = Ok x).
    { rewrite v_get_in by exact Hi. unfold v. rewrite whole_addr by exact Hi. unfold elem_at in GX.
      rewrite (proj2 (inside_spec _ _) Hi) in GX. unfold read. pose proof (flat_bounds Hi).
      destruct (Z.ltb_spec (flat (tn_dims t) idx) 0); [lia|]. rewrite GX. reflexivity. }
    rewrite v_get_in in GV by exact Hi.
    cbn [ref_operand t_act]. unfold fun_action, pure_action. cbn [bind]. rewrite GV. cbn [bind]. unfold pure_op. cbn [bind]. eauto. }
  rewrite EI. cbn [bind]. f_equal.
  apply (elem_at_ext HN).
  - unfold zlen. rewrite <- (Forall2_len FI), indices_length by exact HN. apply Z2Nat.id. now apply prodZ_nonneg.
  - exact L.
  - intros idx Hi. destruct (V idx Hi) as (x & _ & GR). rewrite GR.
    pose proof (flat_bounds Hi) as HBd.
    assert (NI : nth_error (indices (tn_dims t)) (Z.to_nat (flat (tn_dims t) idx)) = Some idx).
    { rewrite (nth_error_nth' (indices (tn_dims t)) []) by (rewrite indices_length by auto; lia).
      rewrite indices_nth by (auto; lia). rewrite Z2Nat.id by lia. now rewrite unflat_flat. }
    destruct (Forall2_nth_error FI NI) as (y & NY & PY). unfold elem_at at 1. rewrite (proj2 (inside_spec _ _) Hi), NY. congruence.
Qed.
