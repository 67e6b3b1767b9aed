(** Expression trees as operands of the operations on owned arrays; owned constant-shape arrays. *)
From Verif Require Import Base Spec SpecFacts Shape Mapping Index View Wf MappingFacts MapOps ReshapeFacts.
From Verif Require Import IndexFacts ViewFacts ViewMore Expr ExprSpec ExprFacts IterFacts SourceFacts ExprTree ExprMore.
From Verif Require Import Tensor TraceFacts TensorSpec TensorFacts ResizeFacts TensorOps DrainFacts OwnFacts.
Unset Strict Implicit.

(** ** Trees do what [honest] asks *)

Lemma produce_proper {A S} (act : action A S) l s :
  (forall idx s, In idx l -> proper (act idx s)) -> proper (snd (produce act l s)).
Proof.
  revert s. induction l as [|idx l IH]; intros s H; cbn [produce snd]; [exact I|].
  pose proof (H idx s (or_introl eq_refl)) as P. destruct (act idx s) as [[a s1]| | |]; try contradiction; [|exact I].
  specialize (IH s1 (fun i s Hi => H i s (or_intror Hi))). destruct (produce act l s1). exact IH.
Qed.

Lemma tree_honest {A} (t : tree A) e :
  t_leaves t -> t_build t = Ok e -> t_fine t -> t_safe t ->
  honest e /\ typed (e_ty e) (e_dims e) /\ e_dims e = t_dims t /\
  fst (e_trace e) = fst (produce (t_act t) (indices (t_dims t)) (t_init t)) /\
  (forall s, snd (produce (t_act t) (indices (t_dims t)) (t_init t)) = Ok s -> snd (e_trace e) = Ok tt).
Proof.
  intros HL HB HF HS. pose proof (build_built HL HB) as B. pose proof (proj1 (bu_computes B)) as Hn.
  rewrite (tree_trace B HF). pose proof (@produce_length _ _ (t_act t) (indices (t_dims t)) (t_init t)) as [P1 P2].
  assert (PP : proper (snd (produce (t_act t) (indices (t_dims t)) (t_init t)))).
  { apply produce_proper. intros idx s Hi. apply HS. now apply in_indices. }
  assert (EL : Z.of_nat (length (indices (t_dims t))) = prodZ (e_dims e)).
  { rewrite (bu_dims B) in *. rewrite indices_length by auto. pose proof (prodZ_nonneg Hn). lia. }
  unfold honest. rewrite (tree_trace B HF).
  destruct (produce _ _ _) as [xs [s| | |]]; cbn [fst snd] in *; try contradiction; repeat split; auto; try lia.
  - left. split; [reflexivity|]. rewrite (P2 s eq_refl). exact EL.
  - exact (bu_ty B).
  - exact (bu_dims B).
  - exact (bu_ty B).
  - exact (bu_dims B).
  - intros s H. discriminate H.
Qed.

Lemma produce_zip_pure {A B S} ra rb (g : list Z -> A) (b : action B S) l s :
  produce (zip_action ra rb (pure_action g) b) l (tt, s) =
  let (ys, o) := produce (bcast rb b) l s in
  (combine (map (fun i => g (lastn ra i)) l) ys, let* s' := o in Ok (tt, s')).
Proof.
  revert s. induction l as [|idx l IH]; intros s; cbn [produce map]; [reflexivity|].
  unfold zip_action at 1, pure_action at 1, bcast at 1. cbn [fst snd bind].
  destruct (b (lastn rb idx) s) as [[y s1]| | |]; cbn [bind]; auto.
  rewrite IH. destruct (produce (bcast rb b) l s1) as [ys o]. reflexivity.
Qed.

Lemma produce_zip_list {A B S} ra rb dims (l0 : list A) (b : action B S) s :
  nonneg dims -> Z.of_nat (length l0) = prodZ dims -> ra = length dims ->
  produce (zip_action ra rb (list_action dims l0) b) (indices dims) (tt, s) =
  let (ys, o) := produce (bcast rb b) (indices dims) s in
  (combine l0 ys, let* s' := o in Ok (tt, s')).
Proof.
  intros Hn HL ->.
  pose proof (list_action_items Hn HL) as HI.
  assert (G : forall l xs, (forall i, In i l -> in_bounds dims i) -> items (list_action dims l0) l tt = Ok (xs, tt) ->
    forall s, produce (zip_action (length dims) rb (list_action dims l0) b) l (tt, s) =
    let (ys, o) := produce (bcast rb b) l s in (combine xs ys, let* s' := o in Ok (tt, s'))).
  { induction l as [|idx l IH]; intros xs HB E s0; cbn [items produce] in *.
    - injection E as <-. reflexivity.
    - unfold zip_action at 1, bcast at 1. cbn [fst snd]. rewrite lastn_bounds by (apply HB; now left).
      destruct (list_action dims l0 idx tt) as [[x []]| | |]; try discriminate. cbn [bind] in *.
      destruct (items (list_action dims l0) l tt) as [[xt []]| | |]; try discriminate. cbn [bind] in E. injection E as <-.
      destruct (b (lastn rb idx) s0) as [[y s1]| | |]; cbn [bind]; auto.
      rewrite (IH _ (fun i Hi => HB i (or_intror Hi)) eq_refl).
      destruct (produce (bcast rb b) l s1) as [ys o]. reflexivity. }
  apply G; auto. intros i. apply in_indices.
Qed.

(** The operand may be zipped with an array of dimensions [dims] that cannot be repeated. *)
Definition operand_fits {A} (dims : list Z) (t : tree A) : Prop :=
  trailing_eq dims (t_dims t) /\ (length (t_dims t) <= length dims)%nat /\
  (t_rep t = true \/ length (t_dims t) = length dims).

Lemma operand_zippable {A B} (a : expression A) (t : tree B) e :
  built t e -> e_rep a = false -> (zippable a e <-> operand_fits (e_dims a) t).
Proof.
  intros B0 Ha. unfold zippable, operand_fits, e_rank. rewrite (bu_dims B0), (bu_rep B0), Ha. split.
  - intros (H1 & H2 & H3). destruct H2 as [H2|H2]; [discriminate|]. repeat split; auto. destruct H3; auto. right. lia.
  - intros (H1 & H2 & H3). repeat split; auto. destruct H3; auto. right. lia.
Qed.

Lemma operand_bounds {A} dims (t : tree A) idx :
  operand_fits dims t -> in_bounds dims idx -> in_bounds (t_dims t) (lastn (length (t_dims t)) idx).
Proof.
  intros (H1 & H2 & _) HB. unfold trailing_eq in H1. rewrite Nat.min_r in H1 by lia.
  rewrite (@lastn_all _ (length (t_dims t)) (t_dims t)) in H1 by lia.
  remember (length (t_dims t)) as r eqn:Er. clear Er. rewrite <- H1. unfold lastn in *.
  pose proof (in_bounds_length HB) as EL. rewrite EL. rewrite <- (firstn_skipn (length dims - r) dims) in HB.
  rewrite <- (firstn_skipn (length dims - r) idx) in HB. apply in_bounds_app in HB; [apply HB|].
  rewrite !firstn_length. lia.
Qed.

(** ** zip_with of a tensor and a tree *)

Lemma tensor_view {T} (t : tensor T) : tensor_ok t -> valid_view (zlen (tn_mem t)) (whole (tn_ty t) (tn_dims t)).
Proof. intros Ht. apply whole_valid; try apply Ht. unfold zlen. rewrite (to_len Ht). lia. Qed.

Lemma zip_with_tree {T Y} (t : tensor T) (tr : tree Y) e :
  tensor_ok t -> t_leaves tr -> t_build tr = Ok e ->
  (~ operand_fits (tn_dims t) tr /\
   e_zip (e_view (zlen (tn_mem t)) false (whole (tn_ty t) (tn_dims t))) e = Panic) \/
  (operand_fits (tn_dims t) tr /\
   exists z, e_zip (e_view (zlen (tn_mem t)) false (whole (tn_ty t) (tn_dims t))) e = Ok z /\
    (t_fine (with_target (zlen (tn_mem t)) (whole (tn_ty t) (tn_dims t)) tr) ->
     let (ys, o) := produce (bcast (length (t_dims tr)) (t_act tr)) (indices (tn_dims t)) (t_init tr) in
     e_trace z = (combine (zrange (zlen (tn_mem t))) ys, done o))).
Proof.
  intros Ht HL HB. pose proof (build_built HL HB) as B. pose proof (tensor_view Ht) as Hv.
  set (n := zlen (tn_mem t)) in *. set (v := whole (tn_ty t) (tn_dims t)) in *.
  destruct (@zip_cases _ _ (e_view n false v) e (wf_typed (vv_wf Hv)) (bu_ty B)) as [[HZ EZ]|[HZ EZ]].
  2:{ left. split; auto. intros H. apply HZ. now apply (@operand_zippable _ _ (e_view n false v) tr e B eq_refl). }
  right. apply (@operand_zippable _ _ (e_view n false v) tr e B eq_refl) in HZ. change (e_dims (e_view n false v)) with (tn_dims t) in HZ.
  split; auto. eexists. split; [exact EZ|]. intros HF.
  assert (EB : t_build (with_target n v tr) = Ok (zip_expr (e_view n false v) e (longer (e_dims (e_view n false v)) (e_dims e)))).
  { unfold with_target. cbn [t_build bind]. rewrite HB. exact EZ. }
  assert (HLZ : t_leaves (with_target n v tr)) by (split; auto).
  rewrite (tree_trace (build_built HLZ EB) HF).
  cbn [with_target t_act t_init t_dims].
  assert (ED : longer (v_dims v) (t_dims tr) = tn_dims t).
  { unfold longer. destruct HZ as (_ & H & _). change (v_dims v) with (tn_dims t).
    destruct (Nat.ltb_spec (length (tn_dims t)) (length (t_dims tr))); [lia|reflexivity]. }
  rewrite ED.
  pose proof (@produce_zip_pure _ _ _ (length (v_dims v)) (length (t_dims tr)) (v_addr v) (t_act tr) (indices (tn_dims t)) (t_init tr)) as P.
  destruct (produce (bcast _ _) _ _) as [ys o].
  match goal with |- (let (_, _) := ?X in _) = _ => change X with (produce (zip_action (length (v_dims v)) (length (t_dims tr)) (pure_action (v_addr v)) (t_act tr)) (indices (tn_dims t)) (tt, t_init tr)) end.
  rewrite P.
  f_equal; [|destruct o; reflexivity]. f_equal.
  assert (E1 : zrange n = map (flat (tn_dims t)) (indices (tn_dims t))).
  { pose proof (flat_bijection (to_nonneg Ht)) as (_ & _ & _ & E). rewrite E. unfold n, zlen. now rewrite (to_len Ht). }
  rewrite E1. apply map_ext_in. intros idx Hi. apply in_indices in Hi.
  change (v_dims v) with (tn_dims t). rewrite lastn_bounds by auto. unfold v. now rewrite whole_addr by (auto; apply Ht).
Qed.

Lemma bcast_proper {A} dims (t : tree A) s :
  nonneg dims -> operand_fits dims t -> t_safe t ->
  proper (snd (produce (bcast (length (t_dims t)) (t_act t)) (indices dims) s)).
Proof.
  intros Hn HF HS. apply produce_proper. intros idx s' Hi. unfold bcast. apply HS.
  apply in_indices in Hi. eapply operand_bounds; eauto.
Qed.

Lemma tree_zips {T Y} (t : tensor T) (tr : tree Y) e :
  tensor_ok t -> t_leaves tr -> t_build tr = Ok e -> t_safe tr ->
  (operand_fits (tn_dims t) tr -> t_fine (with_target (zlen (tn_mem t)) (whole (tn_ty t) (tn_dims t)) tr)) ->
  zips t e.
Proof.
  intros Ht HL HB HS HF. destruct (zip_with_tree Ht HL HB) as [[_ E]|[HO (z & E & HT)]]; [now apply zips_refused|].
  specialize (HT (HF HO)). pose proof (bcast_proper (t_init tr) (to_nonneg Ht) HO HS) as HP.
  pose proof (@produce_length _ _ (bcast (length (t_dims tr)) (t_act tr)) (indices (tn_dims t)) (t_init tr)) as [P1 P2].
  destruct (produce _ _ _) as [ys o]. cbn [fst snd] in *.
  assert (EL : length (indices (tn_dims t)) = length (tn_mem t)).
  { rewrite indices_length by apply Ht. rewrite <- (to_len Ht). lia. }
  apply (@zips_items _ _ t e z ys _ E HT).
  - lia.
  - destruct o as [s| | |]; try contradiction; [left|right; reflexivity]. split; [reflexivity|]. rewrite (P2 s eq_refl). exact EL.
Qed.

(** *** map *)
Lemma map_fine {T} (t : tensor T) : tensor_ok t ->
  t_fine (with_target (zlen (tn_mem t)) (whole (tn_ty t) (tn_dims t)) (TFill (fun s : unit => Ok (tt, s)) tt)).
Proof.
  intros Ht. unfold with_target. split; [cbn; lia|]. unfold t_outer. cbn [t_inner t_dims].
  assert (E : longer (tn_dims t) [] = tn_dims t) by (unfold longer; destruct (Nat.ltb_spec (length (tn_dims t)) (length (@nil Z))); auto; cbn in *; lia).
  change (v_dims (whole (tn_ty t) (tn_dims t))) with (tn_dims t). rewrite E.
  assert (EO : match inner_min (map_inner_rank (v_map (whole (tn_ty t) (tn_dims t)))) None with
               | None => 0%nat | Some k => (length (tn_dims t) - k)%nat end = 0%nat).
  { unfold map_inner_rank. cbn [whole v_map m_layout m_ty m_rank].
    destruct (sh_rank (tn_ty t)) as [[|k]|]; cbn [inner_min]; auto; unfold m_rank; cbn [m_dims]; lia. }
  rewrite EO. left. constructor.
Qed.

Lemma produce_unit (l : list (list Z)) :
  produce (bcast 0 (call_action (fun s : unit => Ok (tt, s)))) l tt = (repeat tt (length l), Ok tt) :> (list unit * outcome unit).
Proof. induction l as [|i l IH]; cbn; auto. unfold bcast, call_action in *. cbn in *. now rewrite IH. Qed.

Lemma gives_map_unit {T C} (f : T -> C -> call T C) (l : list T) n c : (length l <= n)%nat ->
  gives (map (fun p : T * unit => f (fst p)) (combine l (repeat tt n))) c = gives (map f l) c.
Proof.
  revert n c. induction l as [|x l IH]; intros [|n] c H; cbn in *; try lia; auto.
  destruct (f x c); auto. rewrite IH by lia. reflexivity.
Qed.

Lemma map_done {T C} (f : T -> C -> call T C) (t : tensor T) w : tensor_ok t ->
  tn_map f t w =
  let '(rs, c, b) := gives (map f (tn_mem t)) (w_clo w) in
  let world n := mkWorld c (w_made w ++ rs) (w_used w ++ firstn n (tn_mem t)) (w_dropped w) in
  if b then Done (mkTensor (tn_ty t) (tn_dims t) rs (tn_cap t)) (world (length rs))
  else Unwound (w_drop (rs ++ skipn (S (length rs)) (tn_mem t)) (world (S (length rs)))).
Proof.
  intros Ht. unfold tn_map. set (tr := TFill (fun s : unit => Ok (tt, s)) tt).
  destruct (@zip_with_tree _ _ t tr (e_fill (fun s : unit => Ok (tt, s)) tt) Ht I eq_refl) as [[H _]|[HO (z & E & HT)]].
  - exfalso. apply H. repeat split; cbn; auto; try lia. unfold trailing_eq. rewrite Nat.min_0_r. unfold lastn.
    rewrite !Nat.sub_0_r, !skipn_all. reflexivity.
  - specialize (HT (map_fine Ht)). change (length (t_dims tr)) with 0%nat in HT.
    change (t_act tr) with (call_action (fun s : unit => Ok (tt, s))) in HT. change (t_init tr) with tt in HT.
    assert (EL : length (indices (tn_dims t)) = length (tn_mem t)).
    { rewrite indices_length by apply Ht. rewrite <- (to_len Ht). lia. }
    rewrite produce_unit, EL in HT. cbn iota in HT.
    rewrite (zip_with_items _ w Ht E HT) by (rewrite repeat_length; lia).
    rewrite gives_map_unit by lia. reflexivity.
Qed.

(** ** Owned constant-shape arrays *)

(** The world after the closure took the items [us] and gave [rs]. *)
Definition worked {T C} (c : C) (rs us : list T) (w : world T C) : world T C :=
  mkWorld c (w_made w ++ rs) (w_used w ++ us) (w_dropped w).

Lemma fill_array_spec {T Y C} n (f : Y -> C -> call T C) (h : Y -> list T) (take : Y -> M (world T C) T) ys acc w :
  (forall y w, take y w = match f y (w_clo w) with
                          | Gives r c => Done r (worked c [r] (h y) w)
                          | Throws c => Unwound (worked c [] (h y) w)
                          end) ->
  zlen acc + zlen ys <= n ->
  fill_array n take ys (acc, w) =
  let '(rs, c, b) := gives (map f ys) (w_clo w) in
  finish b tt (acc ++ rs, worked c rs (flat_map h (firstn (length rs + if b then 0 else 1) ys)) w).
Proof.
  intros HT. revert acc w. induction ys as [|y ys IH]; intros acc w HL; cbn [fill_array map gives].
  - cbn. unfold ret, worked. rewrite !app_nil_r. now destruct w.
  - cbn [fst snd]. rewrite HT. destruct (f y (w_clo w)) as [r c|c].
    + unfold zlen in *. cbn [length] in HL. destruct (Z.ltb_spec (Z.of_nat (length acc)) n); [|lia].
      rewrite IH by (rewrite app_length; cbn [length]; lia). cbn [worked w_clo].
      destruct (gives (map f ys) c) as [[rs c'] b]. cbn [length Nat.add firstn flat_map].
      unfold worked. cbn [w_made w_used w_dropped]. rewrite <- !app_assoc. reflexivity.
    + cbn. rewrite !app_nil_r. reflexivity.
Qed.

Lemma w_drop_nil {T C} (w : world T C) : w_drop [] w = w.
Proof. unfold w_drop. rewrite app_nil_r. now destruct w. Qed.

(** What [Array::from_expr] does with items [ys] of an expression that ends with [o]. *)
Lemma array_fill_spec {T Y C} ds dims (f : Y -> C -> call T C) (h : Y -> list T) (take : Y -> M (world T C) T) ys o rest w :
  (forall y w, take y w = match f y (w_clo w) with
                          | Gives r c => Done r (worked c [r] (h y) w)
                          | Throws c => Unwound (worked c [] (h y) w)
                          end) ->
  dims = map dim_default ds -> typed (STuple ds) dims ->
  zlen ys <= prodZ dims -> (o = Ok tt -> zlen ys = prodZ dims) -> proper o ->
  array_fill ds dims take (ys, o) rest w =
  let '(rs, c, b) := gives (map f ys) (w_clo w) in
  let w' := worked c rs (flat_map h (firstn (length rs + if b then 0 else 1) ys)) w in
  if b && match o with Ok _ => true | _ => false end then Done rs (w_drop (rest w') w') else Unwound (w_drop (rest w' ++ rs) w').
Proof.
  intros HT -> TY HL HO HP. unfold array_fill. rewrite sh_from_dims_spec.
  assert (EA : accepts (STuple ds) (map dim_default ds) = true) by now apply accepts_typed.
  rewrite EA, sh_len_prod. unfold seqM. cbn [fst snd].
  rewrite (fill_array_spec (f := f) (h := h)) by (auto; unfold zlen in *; cbn; lia).
  destruct (gives (map f ys) (w_clo w)) as [[rs c] b] eqn:EG. pose proof (gives_length EG) as [_ HG]. rewrite map_length in HG.
  destruct b; cbn [finish app andb]; auto.
  unfold lift. destruct o as [[]| | |]; try contradiction; auto.
  unfold zlen in *. rewrite HG by auto. rewrite HO by auto. rewrite Z.eqb_refl. reflexivity.
Qed.

Lemma array_mismatch {T Y C} ds dims (take : Y -> M (world T C) T) tr rest w :
  ~ typed (STuple ds) dims -> array_fill ds dims take tr rest w = Unwound (w_drop (rest w) w).
Proof.
  intros H. unfold array_fill. rewrite sh_from_dims_spec. destruct (accepts (STuple ds) dims) eqn:E; auto.
  apply accepts_typed in E. contradiction.
Qed.

Lemma ar_from_mismatch {T C} ds (e : expression T) (w : world T C) :
  ~ typed (STuple ds) (e_dims e) -> ar_from_expr ds e w = Unwound w.
Proof. intros H. unfold ar_from_expr. now rewrite array_mismatch, w_drop_nil. Qed.

Definition consts (ds : list dimty) : Prop := Forall (fun d => exists n, d = DConst n) ds.

Lemma const_dims ds dims : consts ds -> typed (STuple ds) dims -> dims = map dim_default ds.
Proof.
  intros HC HT. cbn in HT. revert HC. induction HT as [|d n ds dims H HT IH]; intros HC; cbn; auto.
  inversion HC as [|? ? [k ->] HC']; subst. cbn in H. rewrite <- IH by auto. now rewrite H.
Qed.

Lemma flat_map_nil' {A B} (l : list A) : flat_map (fun _ => @nil B) l = [].
Proof. induction l; cbn; auto. Qed.

Lemma ar_from_expr_eq {T C} ds (e : expression T) (w : world T C) :
  consts ds -> honest e ->
  (typed (STuple ds) (e_dims e) ->
   ar_from_expr ds e w =
   let xs := fst (e_trace e) in
   match snd (e_trace e) with
   | Ok _ => Done xs (after (w_clo w) xs [] w)
   | _ => Unwound (after (w_clo w) xs xs w)
   end) /\
  (~ typed (STuple ds) (e_dims e) -> ar_from_expr ds e w = Unwound w).
Proof.
  intros HC (Hn & HL & HE). split; [|apply ar_from_mismatch].
  intros TY. pose proof (const_dims HC TY) as ED.
  unfold ar_from_expr. rewrite (surjective_pairing (e_trace e)).
  rewrite (array_fill_spec (f := moved) (h := fun _ => [])).
  - rewrite gives_moved. cbn [fst snd]. rewrite flat_map_nil'.
    unfold worked, after, w_drop. cbn [w_made w_used w_dropped w_clo]. rewrite !app_nil_r.
    destruct HE as [[-> _]| ->]; cbn [andb]; reflexivity.
  - intros y w0. unfold moved, worked, w_make. now rewrite app_nil_r.
  - exact ED.
  - exact TY.
  - exact HL.
  - intros E. destruct HE as [[_ H]|H]; [exact H|congruence].
  - destruct HE as [[-> _]| ->]; exact I.
Qed.

(** The items of owned elements [l] zipped with [e]. *)
Inductive azips {T Y} (ds : list dimty) (l : list T) (e : expression Y) : Prop :=
| azips_refused : e_zip (e_into (STuple ds) (map dim_default ds) l) e = Panic -> azips ds l e
| azips_items z ys o :
    e_zip (e_into (STuple ds) (map dim_default ds) l) e = Ok z -> e_dims z = map dim_default ds ->
    e_trace z = (combine l ys, o) -> (length ys <= length l)%nat ->
    (o = Ok tt /\ length ys = length l) \/ o = Panic -> azips ds l e.

Lemma ar_length_fits ds : fits (map dim_default ds) -> ar_length ds = Ok (prodZ (map dim_default ds)).
Proof. intros H. unfold ar_length. now rewrite checked_len_fits. Qed.

Lemma ar_length_cases ds : fits (map dim_default ds) \/ ar_length ds = Panic.
Proof. unfold ar_length. destruct (checked_len_cases (map dim_default ds)) as [H| ->]; auto. Qed.

Lemma ar_zip_with_items {T Y C} ds (l : list T) (e : expression Y) (f : T * Y -> C -> call T C) w z ys o :
  fits (map dim_default ds) -> typed (STuple ds) (map dim_default ds) -> zlen l = prodZ (map dim_default ds) ->
  e_zip (e_into (STuple ds) (map dim_default ds) l) e = Ok z -> e_dims z = map dim_default ds ->
  e_trace z = (combine l ys, o) -> (length ys <= length l)%nat -> (o = Ok tt /\ length ys = length l) \/ o = Panic ->
  ar_zip_with ds l e f w =
  let '(rs, c, b) := gives (map f (combine l ys)) (w_clo w) in
  if b
  then match o with
       | Ok _ => Done rs (worked c rs l w)
       | _ => Unwound (w_drop (skipn (length rs) l ++ rs) (worked c rs (firstn (length rs) l) w))
       end
  else Unwound (w_drop (skipn (S (length rs)) l ++ rs) (worked c rs (firstn (S (length rs)) l) w)).
Proof.
  intros HF TY HL EZ ED ET HY HO. unfold ar_zip_with. rewrite ar_length_fits by exact HF. cbn [bind]. rewrite EZ, ET, ED.
  rewrite (array_fill_spec (f := f) (h := fun p => [fst p])).
  - destruct (gives (map f (combine l ys)) (w_clo w)) as [[rs c] b] eqn:EG.
    pose proof (gives_length EG) as HG. pose proof (gives_short EG) as HS. rewrite map_length, combine_length in HG, HS.
    assert (EF : forall k, (k <= length ys)%nat -> flat_map (fun p : T * Y => [fst p]) (firstn k (combine l ys)) = firstn k l).
    { clear -HY. revert l HY. induction ys as [|y ys IH]; intros l HY k Hk; cbn in *.
      - replace k with 0%nat by lia. reflexivity.
      - destruct l as [|x l]; [cbn in *; lia|]. destruct k as [|k]; [reflexivity|]. cbn in *. f_equal. apply IH; lia. }
    assert (EU : forall k, (k <= length l)%nat -> (length (w_used w ++ firstn k l) - length (w_used w))%nat = k).
    { intros k Hk. rewrite app_length, firstn_length. lia. }
    destruct b; cbn [andb].
    + destruct HG as [_ HG]. specialize (HG eq_refl). rewrite Nat.add_0_r. rewrite EF by lia.
      destruct HO as [[-> HO]| ->]; cbn [w_used w_drop worked].
      * rewrite EU by lia. rewrite skipn_all2 by lia. rewrite firstn_all2 by lia. now rewrite w_drop_nil.
      * rewrite EU by lia. reflexivity.
    + specialize (HS eq_refl). rewrite Nat.add_1_r. rewrite EF by lia. cbn [w_used w_drop worked]. rewrite EU by lia.
      reflexivity.
  - intros p w0. destruct (f p (w_clo w0)); unfold worked, w_make, w_use, w_set; cbn; now rewrite ?app_nil_r.
  - reflexivity.
  - exact TY.
  - unfold zlen in *. rewrite combine_length. lia.
  - intros E. destruct HO as [[_ HO]|HO]; [|congruence]. unfold zlen in *. rewrite combine_length. lia.
  - destruct HO as [[-> _]| ->]; exact I.
Qed.

Lemma ar_zip_with_refused {T Y C} ds (l : list T) (e : expression Y) (f : T * Y -> C -> call T C) w :
  e_zip (e_into (STuple ds) (map dim_default ds) l) e = Panic -> ar_zip_with ds l e f w = Unwound (w_drop l w).
Proof.
  intros E. unfold ar_zip_with. destruct (ar_length_cases ds) as [H|H].
  - rewrite ar_length_fits by exact H. cbn [bind]. now rewrite E.
  - now rewrite H.
Qed.

(** The length of the shape overflows. *)
Lemma ar_zip_with_unfit {T Y C} ds (l : list T) (e : expression Y) (f : T * Y -> C -> call T C) w :
  ar_length ds = Panic -> ar_zip_with ds l e f w = Unwound (w_drop l w).
Proof. intros E. unfold ar_zip_with. now rewrite E. Qed.

Lemma ar_map_unfit {T C} ds (l : list T) (f : T -> C -> call T C) w :
  ar_length ds = Panic -> ar_map ds l f w = Unwound (w_drop l w).
Proof. intros E. unfold ar_map. now rewrite E. Qed.

Lemma ar_map_eq {T C} ds (l : list T) (f : T -> C -> call T C) w :
  fits (map dim_default ds) -> typed (STuple ds) (map dim_default ds) -> zlen l = prodZ (map dim_default ds) ->
  ar_map ds l f w =
  let '(rs, c, b) := gives (map f l) (w_clo w) in
  if b then Done rs (worked c rs l w)
  else Unwound (w_drop (skipn (S (length rs)) l ++ rs) (worked c rs (firstn (S (length rs)) l) w)).
Proof.
  intros HF TY HL. unfold ar_map. rewrite ar_length_fits by exact HF. rewrite (into_trace (STuple ds) HL). change (e_dims (e_into (STuple ds) (map dim_default ds) l)) with (map dim_default ds).
  rewrite (array_fill_spec (f := f) (h := fun x => [x])).
  - destruct (gives (map f l) (w_clo w)) as [[rs c] b] eqn:EG.
    pose proof (gives_length EG) as HG. pose proof (gives_short EG) as HS. rewrite map_length in HG, HS.
    assert (EF : forall k, flat_map (fun x : T => [x]) (firstn k l) = firstn k l).
    { intros k. generalize (firstn k l). intros l0. induction l0; cbn; congruence. }
    assert (EU : forall k, (k <= length l)%nat -> (length (w_used w ++ firstn k l) - length (w_used w))%nat = k).
    { intros k Hk. rewrite app_length, firstn_length. lia. }
    destruct b; cbn [andb].
    + destruct HG as [_ HG]. specialize (HG eq_refl). rewrite Nat.add_0_r, EF. cbn [w_used w_drop worked].
      rewrite EU by lia. rewrite skipn_all2 by lia. rewrite firstn_all2 by lia. now rewrite w_drop_nil.
    + specialize (HS eq_refl). rewrite Nat.add_1_r, EF. cbn [w_used w_drop worked]. rewrite EU by lia.
      reflexivity.
  - intros p w0. destruct (f p (w_clo w0)); unfold worked, w_make, w_use, w_set; cbn; now rewrite ?app_nil_r.
  - reflexivity.
  - exact TY.
  - rewrite HL. lia.
  - auto.
  - exact I.
Qed.

Lemma ar_zip_with_post {T Y C} ds (l : list T) (e : expression Y) (f : T * Y -> C -> call T C) w S0 R :
  typed (STuple ds) (map dim_default ds) -> zlen l = prodZ (map dim_default ds) -> azips ds l e ->
  balanced S0 (R ++ l) w ->
  match ar_zip_with ds l e f w with
  | Done rs w' => zlen rs = zlen l /\ balanced S0 (R ++ rs) w'
  | Unwound w' => balanced S0 R w'
  | _ => False
  end.
Proof.
  intros TY HL HZ HB. destruct HZ as [E|z ys o EZ ED ET HY HO].
  - rewrite ar_zip_with_refused by auto. eapply balanced_drop; [exact HB|reflexivity].
  - destruct (ar_length_cases ds) as [HF|E].
    2:{ rewrite ar_zip_with_unfit by exact E. eapply balanced_drop; [exact HB|reflexivity]. }
    rewrite (ar_zip_with_items f w HF TY HL EZ ED ET HY HO).
    destruct (gives _ _) as [[rs c] b] eqn:EG. pose proof (gives_length EG) as HG. pose proof (gives_short EG) as HS.
    rewrite map_length, combine_length in HG, HS. unfold balanced in *.
    assert (HP : forall k, Permutation (S0 ++ w_made w ++ rs) (R ++ firstn k l ++ skipn k l ++ w_used w ++ w_dropped w ++ rs)).
    { intros k. rewrite (app_assoc (firstn k _)), firstn_skipn. rewrite app_assoc.
      transitivity ((R ++ l ++ w_used w ++ w_dropped w) ++ rs).
      - apply Permutation_app_tail. rewrite HB. now rewrite <- app_assoc.
      - now rewrite <- !app_assoc. }
    destruct b.
    + destruct HG as [_ HG]. specialize (HG eq_refl). destruct HO as [[-> HO]| ->].
      * unfold zlen. split; [lia|]. unfold worked. cbn [w_made w_used w_dropped]. rewrite (HP (length l)).
        rewrite skipn_all2, firstn_all2 by lia. cbn [app]. perm.
      * unfold worked, w_drop. cbn [w_made w_used w_dropped]. rewrite (HP (length rs)). perm.
    + unfold worked, w_drop. cbn [w_made w_used w_dropped]. rewrite (HP (S (length rs))). perm.
Qed.

(** Operands given by trees. *)
Lemma ar_zip_tree {T Y} ds (l : list T) (tr : tree Y) e :
  typed (STuple ds) (map dim_default ds) -> nonneg (map dim_default ds) -> zlen l = prodZ (map dim_default ds) ->
  t_leaves tr -> t_build tr = Ok e ->
  (~ operand_fits (map dim_default ds) tr /\ e_zip (e_into (STuple ds) (map dim_default ds) l) e = Panic) \/
  (operand_fits (map dim_default ds) tr /\
   exists z, e_zip (e_into (STuple ds) (map dim_default ds) l) e = Ok z /\ e_dims z = map dim_default ds /\
    (t_fine (TZip (TInto (STuple ds) (map dim_default ds) l) tr) ->
     let (ys, o) := produce (bcast (length (t_dims tr)) (t_act tr)) (indices (map dim_default ds)) (t_init tr) in
     e_trace z = (combine l ys, done o))).
Proof.
  intros TY Hn HL Hl HB. pose proof (build_built Hl HB) as B.
  set (dims := map dim_default ds) in *. set (a := e_into (STuple ds) dims l).
  destruct (@zip_cases _ _ a e TY (bu_ty B)) as [[HZ EZ]|[HZ EZ]].
  2:{ left. split; auto. intros H. apply HZ. now apply (@operand_zippable _ _ a tr e B eq_refl). }
  right. apply (@operand_zippable _ _ a tr e B eq_refl) in HZ. change (e_dims a) with dims in HZ.
  assert (ED : longer dims (t_dims tr) = dims).
  { unfold longer. destruct HZ as (_ & H & _). destruct (Nat.ltb_spec (length dims) (length (t_dims tr))); [lia|reflexivity]. }
  split; auto. eexists. split; [exact EZ|]. split.
  { unfold zip_expr. cbn [e_dims]. change (e_dims a) with dims. now rewrite (bu_dims B). }
  intros HF.
  assert (EB : t_build (TZip (TInto (STuple ds) dims l) tr) = Ok (zip_expr a e (longer (e_dims a) (e_dims e)))).
  { cbn [t_build bind]. rewrite HB. exact EZ. }
  assert (HLZ : t_leaves (TZip (TInto (STuple ds) dims l) tr)) by (repeat split; auto).
  rewrite (tree_trace (build_built HLZ EB) HF).
  cbn [t_act t_init t_dims]. rewrite ED.
  pose proof (@produce_zip_list _ _ _ (length dims) (length (t_dims tr)) dims l (t_act tr) (t_init tr) Hn HL eq_refl) as P.
  destruct (produce (bcast _ _) _ _) as [ys o].
  match goal with |- (let (_, _) := ?X in _) = _ => change X with (produce (zip_action (length dims) (length (t_dims tr)) (list_action dims l) (t_act tr)) (indices dims) (tt, t_init tr)) end.
  rewrite P. f_equal. destruct o; reflexivity.
Qed.

Lemma tree_azips {T Y} ds (l : list T) (tr : tree Y) e :
  typed (STuple ds) (map dim_default ds) -> nonneg (map dim_default ds) -> zlen l = prodZ (map dim_default ds) ->
  t_leaves tr -> t_build tr = Ok e -> t_safe tr ->
  (operand_fits (map dim_default ds) tr -> t_fine (TZip (TInto (STuple ds) (map dim_default ds) l) tr)) ->
  azips ds l e.
Proof.
  intros TY Hn HL Hl HB HS HF. destruct (ar_zip_tree TY Hn HL Hl HB) as [[_ E]|[HO (z & E & ED & HT)]]; [now apply azips_refused|].
  specialize (HT (HF HO)). pose proof (bcast_proper (t_init tr) Hn HO HS) as HP.
  pose proof (@produce_length _ _ (bcast (length (t_dims tr)) (t_act tr)) (indices (map dim_default ds)) (t_init tr)) as [P1 P2].
  destruct (produce _ _ _) as [ys o]. cbn [fst snd] in *.
  assert (EL : length (indices (map dim_default ds)) = length l).
  { rewrite indices_length by auto. unfold zlen in HL. rewrite <- HL. lia. }
  apply (azips_items E ED HT).
  - lia.
  - destruct o as [s| | |]; try contradiction; [left|right; reflexivity]. split; [reflexivity|]. rewrite (P2 s eq_refl). exact EL.
Qed.
