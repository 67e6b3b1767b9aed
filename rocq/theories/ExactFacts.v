(** The guards on empty arrays are exact: what goes wrong without them, for every expression. *)
From Verif Require Import Base Spec SpecFacts Shape Mapping Index View Wf MappingFacts MapOps ReshapeFacts ViewFacts.
From Verif Require Import Expr ExprSpec ExprFacts IterFacts SourceFacts ExprTree ExprMore.
From Verif Require Import Tensor TraceFacts TensorSpec TensorFacts ResizeFacts TensorOps OwnFacts ZipFacts OwnMore Ops OpsFacts OpsMore NextFacts Consume.
Unset Strict Implicit.

(** ** Iterating when the inner part is not empty *)

Lemma trace_not_empty {A} (e : expression A) :
  nonneg (e_dims e) -> 0 < prodZ (skipn (outer_rank e) (e_dims e)) -> e_trace e <> ([], Ok tt).
Proof. intros HN HP E. apply e_collect_trace in E. apply collect_empty in E; auto. lia. Qed.

Lemma positive_dec l : {positive l} + {~ positive l}.
Proof. apply Forall_dec. intros d. destruct (Z_lt_dec 0 d); auto. Qed.

Lemma nonpos_prod l : nonneg l -> ~ positive l -> prodZ l = 0.
Proof.
  intros HN HP. pose proof (prodZ_nonneg HN). destruct (Z.eq_dec (prodZ l) 0); auto.
  exfalso. apply HP. apply prodZ_pos_inv; auto. lia.
Qed.

Lemma unfine {A} (t : tree A) : nonneg (t_dims t) -> (t_need t <= length (t_dims t) - t_outer t)%nat -> ~ t_fine t ->
  prodZ (t_dims t) = 0 /\ 0 < prodZ (skipn (t_outer t) (t_dims t)).
Proof.
  intros HN HL HF. assert (HP : ~ positive (firstn (t_outer t) (t_dims t))) by (intros H; apply HF; split; auto).
  assert (HZ : prodZ (skipn (t_outer t) (t_dims t)) <> 0) by (intros H; apply HF; split; auto).
  pose proof (prodZ_nonneg (nonneg_skipn (t_outer t) HN)). split; [|lia].
  rewrite <- (firstn_skipn (t_outer t) (t_dims t)), prodZ_app, (nonpos_prod (nonneg_firstn (t_outer t) HN) HP). lia.
Qed.

Lemma tree_outer {A} (t : tree A) e : built t e -> outer_rank e = t_outer t.
Proof. intros B. unfold outer_rank, t_outer, e_rank. now rewrite (bu_inner B), (bu_dims B). Qed.

Lemma empty_indices dims : nonneg dims -> prodZ dims = 0 -> indices dims = [].
Proof. intros HN HP. apply length_zero_iff_nil. rewrite indices_length by auto. lia. Qed.

Section Tree.
  Context {A : Type} (t : tree A) (e : expression A).
  Hypothesis HL : t_leaves t.
  Hypothesis HB : t_build t = Ok e.
  Hypothesis HN : (t_need t <= length (t_dims t) - t_outer t)%nat.

  Lemma tree_nonneg : nonneg (t_dims t).
  Proof. pose proof (build_built HL HB) as B. rewrite <- (bu_dims B). exact (proj1 (bu_computes B)). Qed.

  Lemma unfine_trace : ~ t_fine t -> indices (t_dims t) = [] /\ prodZ (t_dims t) = 0 /\ e_trace e <> ([], Ok tt).
  Proof.
    intros HF. destruct (unfine tree_nonneg HN HF) as [H1 H2]. pose proof (build_built HL HB) as B.
    split; [apply empty_indices; auto; apply tree_nonneg|]. split; [exact H1|].
    apply trace_not_empty; rewrite (bu_dims B); [apply tree_nonneg|]. now rewrite (tree_outer B).
  Qed.

  Lemma fine_dec : t_fine t \/ ~ t_fine t.
  Proof.
    unfold t_fine. destruct (positive_dec (firstn (t_outer t) (t_dims t))); [left; auto|].
    destruct (Z.eq_dec (prodZ (skipn (t_outer t) (t_dims t))) 0); [left; auto|]. right. tauto.
  Qed.

  Lemma tree_collect_iff :
    e_collect e = (let* (xs, _) := items (t_act t) (indices (t_dims t)) (t_init t) in Ok xs) <-> t_fine t.
  Proof.
    split; [|apply tree_collect; now apply build_built]. intros H. destruct fine_dec as [HF|HF]; auto. exfalso.
    destruct (unfine_trace HF) as (H1 & H2 & H3). rewrite H1 in H. cbn [items bind] in H. apply e_collect_trace in H. contradiction.
  Qed.

  (** *** Owned arrays *)

  Lemma eval_unfine {C} al (w : world A C) t' w' : ~ t_fine t -> tn_from_expr al e w <> Done t' w'.
  Proof.
    intros HF H. destruct (unfine_trace HF) as (_ & H2 & H3). pose proof (build_built HL HB) as B.
    unfold tn_from_expr in H. rewrite sh_len_prod, (bu_dims B), H2 in H. cbn [Z.eqb orb] in H.
    unfold clone_into_vec, seqM, check in H. destruct (_ <=? _); [|discriminate].
    destruct (e_trace e) as [[|y ys] [[]| | |]]; cbn [fst snd clone_loop lift ret] in H; try discriminate.
    now apply H3.
  Qed.

  Lemma array_unfine {C} ds (w : world A C) xs w' :
    consts ds -> typed (STuple ds) (t_dims t) -> ~ t_fine t -> ar_from_expr ds e w <> Done xs w'.
  Proof.
    intros HC HT HF H. destruct (unfine_trace HF) as (_ & H2 & H3). pose proof (build_built HL HB) as B.
    unfold ar_from_expr, array_fill in H. destruct (sh_from_dims _ _); try discriminate.
    rewrite sh_len_prod in H. rewrite <- (const_dims HC HT), H2 in H. unfold seqM in H.
    destruct (e_trace e) as [[|y ys] [[]| | |]]; cbn [fst snd fill_array lift ret] in H; try discriminate.
    now apply H3.
  Qed.
End Tree.

(** ** Folding with a closure that counts *)

Lemma foldM_grows {A S} (m : S -> Z) (f : S -> A -> outcome S) :
  (forall s x s', f s x = Ok s' -> m s < m s') ->
  forall l s s', foldM f l s = Ok s' -> m s <= m s' /\ (m s' <= m s -> l = []).
Proof.
  intros HF. induction l as [|x l IH]; intros s s' H; cbn [foldM] in H.
  - injection H as <-. split; auto. lia.
  - destruct (f s x) as [s1| | |] eqn:E; try discriminate. cbn [bind] in H. apply IH in H. apply HF in E. split; [lia|]. lia.
Qed.

Lemma fold_unfine {A S} (m : S -> Z) (f : S -> A -> outcome S) (t : tree A) e s s' :
  (forall s x s', f s x = Ok s' -> m s < m s') ->
  t_leaves t -> t_build t = Ok e -> (t_need t <= length (t_dims t) - t_outer t)%nat -> ~ t_fine t ->
  e_fold e f s = Ok s' -> m s < m s'.
Proof.
  intros HF HL HB HN HU H. destruct (unfine_trace HL HB HN HU) as (_ & _ & H3). rewrite e_fold_trace in H.
  destruct (e_trace e) as [l o]. cbn [fst snd] in H. destruct (foldM f l s) as [s1| | |] eqn:E; try discriminate.
  cbn [bind] in H. destruct o as [[]| | |]; try discriminate. cbn [bind] in H. injection H as <-.
  destruct (foldM_grows HF E) as [H1 H2]. destruct (Z_lt_dec (m s) (m s1)); auto. exfalso. apply H3. rewrite H2 by lia. reflexivity.
Qed.

(** ** Views *)

Lemma view_fine_iff n rep v : wf_map (v_map v) -> (t_fine (TView n rep v) <-> view_fine v).
Proof.
  intros Hw. split; [|now apply view_tree_fine]. intros [_ H]. unfold t_outer in H. cbn [t_inner t_dims] in H.
  unfold view_fine, v_layout, v_dims in *. unfold map_inner_rank in H.
  destruct (m_layout (v_map v)) eqn:EL; [auto|]. right.
  destruct (m_dims (v_map v)) as [|d ds _] eqn:E using rev_ind; [left; constructor|].
  unfold m_rank in H. rewrite E, app_length in H. cbn [length] in H.
  destruct (Nat.ltb_spec 0 (length ds + 1)); [|lia]. replace (length ds + 1 - 1)%nat with (length ds) in H by lia.
  rewrite firstn_app, firstn_all, Nat.sub_diag, skipn_app, skipn_all, Nat.sub_diag in H. cbn in H. rewrite app_nil_r in H.
  rewrite removelast_last, last_last. destruct H; [left; auto|right; lia].
Qed.

Lemma view_unfine {S} (m : S -> Z) (f : S -> Z -> outcome S) n rep v s s' :
  (forall s x s', f s x = Ok s' -> m s < m s') -> valid_view n v -> ~ view_fine v ->
  e_fold (e_view n rep v) f s = Ok s' -> m s < m s'.
Proof.
  intros HF HV HU. apply (@fold_unfine Z S m f (TView n rep v)); auto.
  - cbn. lia.
  - rewrite view_fine_iff; auto. exact (vv_wf HV).
Qed.

Lemma view_unfine_empty v : nonneg (v_dims v) -> ~ view_fine v -> prodZ (v_dims v) = 0.
Proof.
  intros HN HU. apply nonpos_prod; auto. intros HP. apply HU. right. left.
  rewrite removelast_firstn'. now apply positive_firstn.
Qed.

Lemma view_fine_dec v : view_fine v \/ ~ view_fine v.
Proof.
  unfold view_fine. destruct (v_layout v); [left; auto|]. destruct (positive_dec (removelast (v_dims v))); [left; auto|].
  destruct (Z.eq_dec (last (v_dims v) 1) 0); [left; auto|]. right. intros [H|[H|H]]; auto; discriminate.
Qed.

(** ** [fill_with] and [assign] call their closure once for every element *)

Lemma calls_count {T} (f : Z -> outcome (T * Z)) (l : list (list Z)) :
  (forall k, exists x, f k = Ok (x, k + 1)) ->
  forall c, exists xs, items (call_action f) l c = Ok (xs, c + zlen l).
Proof.
  intros HF. induction l as [|y l IH]; intros c; cbn [items].
  - exists []. unfold zlen. cbn. now rewrite Z.add_0_r.
  - unfold call_action at 1. destruct (HF c) as [x ->]. cbn [bind]. destruct (IH (c + 1)) as [xs ->]. cbn [bind].
    exists (x :: xs). do 2 f_equal. unfold zlen. cbn [length]. lia.
Qed.

Lemma traverse_count {Y T} (f : Y -> Z -> outcome (T * Z)) (l : list Y) :
  (forall y k, exists x, f y k = Ok (x, k + 1)) ->
  forall c, exists xs, traverse f l c = Ok (xs, c + zlen l).
Proof.
  intros HF. induction l as [|y l IH]; intros c; cbn [traverse].
  - exists []. unfold zlen. cbn. now rewrite Z.add_0_r.
  - destruct (HF y c) as [x ->]. cbn [bind]. destruct (IH (c + 1)) as [xs ->]. cbn [bind].
    exists (x :: xs). do 2 f_equal. unfold zlen. cbn [length]. lia.
Qed.

Lemma zlen_indices dims : nonneg dims -> zlen (indices dims) = prodZ dims.
Proof. intros H. unfold zlen. rewrite indices_length by auto. rewrite Z2Nat.id; auto. now apply prodZ_nonneg. Qed.

Lemma fill_count {T} (f : Z -> outcome (T * Z)) v mem :
  (forall k, exists x, f k = Ok (x, k + 1)) -> valid_view (Z.of_nat (length mem)) v ->
  ((exists mem', v_fill_with f v mem 0 = Ok (mem', prodZ (v_dims v))) <-> view_fine v).
Proof.
  intros HF HV. pose proof (wf_nonneg (vv_wf HV)) as HN. change (m_dims (v_map v)) with (v_dims v) in HN. split.
  - intros [mem' E]. destruct (view_fine_dec v) as [H|H]; auto. exfalso. unfold v_fill_with in E.
    eapply (@view_unfine _ (@snd (list T) Z)) in E; eauto.
    + cbn [snd] in E. rewrite (view_unfine_empty HN H) in E. lia.
    + clear -HF. intros [m k] a [m' k'] E. cbn [fst snd] in *. destruct (HF k) as [x EX]. rewrite EX in E. cbn [bind] in E.
      destruct (write m a x); try discriminate. cbn [bind] in E. injection E as <- <-. lia.
  - intros H. pose proof (@fill_with_ok T Z f v mem 0 HV H) as E.
    destruct (@calls_count T f (indices (v_dims v)) HF 0) as [xs EX]. rewrite EX in E. destruct E as (mem' & E & _).
    exists mem'. rewrite E. now rewrite zlen_indices, Z.add_0_l.
Qed.

Lemma items_zlen {A S} (act : action A S) l s xs s' : items act l s = Ok (xs, s') -> zlen xs = zlen l.
Proof.
  revert s xs s'. induction l as [|i l IH]; intros s xs s' E; cbn [items] in E; [injection E as <- _; reflexivity|].
  destruct (act i s) as [[x s1]| | |]; try discriminate. cbn [bind] in E.
  destruct (items act l s1) as [[ys s2]| | |] eqn:E1; try discriminate. cbn [bind] in E. injection E as <- _.
  apply IH in E1. unfold zlen in *. cbn [length]. lia.
Qed.

Lemma assign_count {T Y} (cl : Y -> Z -> outcome (T * Z)) v (t : tree Y) e mem ys s :
  let n := Z.of_nat (length mem) in
  (forall y k, exists x, cl y k = Ok (x, k + 1)) ->
  valid_view n v -> t_leaves t -> t_build t = Ok e -> t_need t = 0%nat ->
  trailing_eq (v_dims v) (t_dims t) -> (length (t_dims t) <= length (v_dims v))%nat ->
  (t_rep t = true \/ length (t_dims t) = length (v_dims v)) ->
  items (bcast (length (t_dims t)) (t_act t)) (indices (v_dims v)) (t_init t) = Ok (ys, s) ->
  ((exists mem', v_assign cl v e mem 0 = Ok (mem', prodZ (v_dims v))) <-> t_fine (with_target n v t)).
Proof.
  intros n HC HV HL HB H0 HT HR HP HI. pose proof (wf_nonneg (vv_wf HV)) as HN. change (m_dims (v_map v)) with (v_dims v) in HN. split.
  - intros [mem' E].
    assert (HNeed : (t_need (with_target n v t) <= length (t_dims (with_target n v t)) - t_outer (with_target n v t))%nat).
    { cbn [with_target t_need]. rewrite H0. cbn. lia. }
    destruct (@fine_dec _ (with_target n v t) HNeed) as [H|H]; auto. exfalso.
    assert (HZ : t_zips t) by (destruct (build_cases HL) as [[H' _]|[_ H']]; auto; congruence).
    assert (HLZ : t_leaves (with_target n v t)) by (split; auto).
    assert (HZZ : t_zips (with_target n v t)).
    { split; [exact I|]. split; auto. split; [exact HT|]. split; [right; exact HR|].
      destruct HP as [HP|HP]; auto. right. cbn [t_dims]. lia. }
    destruct (build_ok HLZ HZZ) as (z & Ez & Bz). pose proof Ez as Ez'. unfold with_target in Ez'. cbn [t_build bind] in Ez'.
    rewrite HB in Ez'. cbn [bind] in Ez'. unfold v_assign in E. fold n in E. rewrite Ez' in E. cbn [bind] in E.
    assert (HU := H). apply unfine in HU; [|exact (tree_nonneg HLZ Ez)|exact HNeed].
    eapply (@fold_unfine _ _ (@snd (list T) Z)) in E; eauto.
    + cbn [snd] in E. destruct HU as [HU _]. cbn [with_target t_dims] in HU.
      assert (ED : longer (v_dims v) (t_dims t) = v_dims v).
      { unfold longer. destruct (Nat.ltb_spec (length (v_dims v)) (length (t_dims t))); [lia|reflexivity]. }
      rewrite ED in HU. lia.
    + clear -HC. intros [m k] [a y] [m' k'] E. cbn [fst snd] in *. destruct (HC y k) as [x EX]. rewrite EX in E. cbn [bind] in E.
      destruct (write m a x); try discriminate. cbn [bind] in E. injection E as <- <-. lia.
  - intros H. rewrite (@assign_eq T Y Z cl v t e mem 0 HV HL HB HT HR HP H).
    rewrite (items_map cl 0 HI). destruct (@traverse_count Y T cl ys HC 0) as [zs ->]. cbn [bind snd].
    rewrite (items_zlen HI), zlen_indices by auto. eauto.
Qed.

(** ** [from_fn] *)

Lemma from_fn_fine_iff {A F} ty dims (f : list Z -> F -> outcome (A * F)) f0 :
  t_fine (TFromFn ty dims f f0) <-> positive (removelast dims) \/ last dims 1 = 0.
Proof.
  unfold t_fine, t_outer. cbn [t_inner t_dims t_need].
  destruct dims as [|d ds _] using rev_ind.
  - cbn. split; intros _; [left; constructor|]. split; [lia|left; constructor].
  - rewrite app_length. cbn [length]. destruct (Nat.ltb_spec 0 (length ds + 1)); [|lia].
    replace (length ds + 1 - 1)%nat with (length ds) by lia. rewrite removelast_last, last_last.
    rewrite firstn_app, firstn_all, Nat.sub_diag, skipn_app, skipn_all, Nat.sub_diag. cbn. rewrite app_nil_r.
    split; [intros [_ [H1|H1]]; [left; auto|right; lia]|].
    intros [H1|H1]; (split; [lia|]); [left; auto|right; lia].
Qed.

Lemma from_fn_iff {A F} ty dims (f : list Z -> F -> outcome (A * F)) f0 e :
  nonneg dims -> typed ty dims -> (ty = SDynRank -> dims = []) -> e_from_fn ty dims f f0 = Ok e ->
  (e_collect e = (let* (xs, _) := traverse f (indices dims) f0 in Ok xs) <->
   positive (removelast dims) \/ last dims 1 = 0).
Proof.
  intros Hn HT Hd E.
  assert (Hf : fits dims).
  { unfold e_from_fn in E. destruct (checked_len_cases dims) as [H|H]; auto. rewrite H in E. discriminate. }
  assert (HL : t_leaves (TFromFn ty dims f f0)) by (repeat split; auto).
  rewrite <- (from_fn_fine_iff ty dims f f0).
  rewrite <- (@tree_collect_iff A (TFromFn ty dims f f0) e HL E) by (cbn; lia).
  cbn [t_act t_dims t_init]. now rewrite items_index.
Qed.

Lemma from_fn_dyn {A F} dims (f : list Z -> F -> outcome (A * F)) f0 e :
  dims <> [] -> (forall i s, proper (f i s)) -> e_from_fn SDynRank dims f f0 = Ok e -> e_collect e = Panic.
Proof.
  intros HD HF E. unfold e_from_fn in E. destruct (sh_checked_len dims); [|discriminate]. injection E as <-.
  unfold e_collect, e_fold, it_fold, it_fuel. cbn [fold_loop].
  match goal with |- bind ?x _ = _ => enough (EP : x = Panic) by now rewrite EP end.
  set (ex := mkExpr _ _ _ _ _ _ _ _ _).
  assert (HR : (0 <? length dims)%nat = true) by (destruct dims; [contradiction|reflexivity]).
  destruct (Z.to_nat (it_limit (it_new ex) - it_index (it_new ex))) as [|n].
  - cbn [inner_loop bind]. unfold step_outer.
    assert (EQ : (outer_rank ex <? e_rank ex)%nat = true).
    { unfold outer_rank, e_rank. cbn [ex e_inner e_dims]. rewrite HR. apply Nat.ltb_lt. apply Nat.ltb_lt in HR. lia. }
    rewrite EQ. cbn [ex e_reset it_st it_new e_init fst dims_default]. unfold upd_checked, get_nth.
    destruct (e_rank ex - 1)%nat; reflexivity.
  - cbn [inner_loop]. cbn [ex e_get it_st it_new e_init fst snd dims_default].
    specialize (HF [] f0). destruct (f [] f0) as [[a s]| | |]; try contradiction; cbn [bind]; auto.
    rewrite HR. unfold upd_checked, get_nth. destruct (length dims - 1)%nat; reflexivity.
Qed.

(** ** Hashes *)

Lemma hash_iff {T H} (hash : T -> list H) mem v xs :
  (forall x, hash x <> []) -> valid_view (Z.of_nat (length mem)) v -> contents mem v xs ->
  (v_hash hash mem v = Ok (map HDim (v_dims v) ++ map HElem (flat_map hash xs)) <-> view_fine v).
Proof.
  intros HH HV HX. split; [|intros HF; now apply hash_ok]. intros E.
  destruct (view_fine_dec v) as [HF|HF]; auto. exfalso. unfold v_hash in E.
  pose proof (wf_nonneg (vv_wf HV)) as HN. change (m_dims (v_map v)) with (v_dims v) in HN.
  eapply (@view_unfine _ (fun l : list (hashed H) => zlen l)) in E; eauto.
  - assert (EX : xs = []).
    { apply contents_read in HX. rewrite (empty_indices HN (view_unfine_empty HN HF)) in HX. inversion HX. reflexivity. }
    rewrite EX in E. cbn [flat_map map] in E. rewrite app_nil_r in E. lia.
  - clear -HH. intros s p s' E. destruct (read mem p) as [x| | |]; try discriminate. cbn [bind] in E. injection E as <-.
    unfold zlen. rewrite app_length, map_length. specialize (HH x). destruct (hash x); [contradiction|cbn; lia].
Qed.

(** ** What happens otherwise *)

Lemma trace_first {A} (e : expression A) :
  0 < prodZ (skipn (outer_rank e) (e_dims e)) ->
  match e_get e 0 (e_init e) with
  | Ok (a, _) => exists l o, e_trace e = (a :: l, o)
  | o => e_trace e = ([], fail o)
  end.
Proof.
  intros HP. unfold e_trace, it_fuel. cbn [loop_trace it_new it_limit it_index it_st]. rewrite fold_mul_prod, Z.mul_1_l, Z.sub_0_r.
  destruct (Z.to_nat (prodZ (skipn (outer_rank e) (e_dims e)))) as [|n] eqn:EN; [lia|]. cbn [inner_trace].
  destruct (e_get e 0 (e_init e)) as [[a st]| | |]; auto.
  destruct (inner_trace e n (0 + 1) st) as [xs o]. destruct o as [st'| | |]; eauto. cbv beta iota zeta.
  match goal with |- context [@step_outer A e ?i] => destruct (@step_outer A e i) as [[[] it]| | |] end; eauto. cbv beta iota zeta.
  match goal with |- context [@loop_trace A e ?f ?i] => destruct (@loop_trace A e f i) as [ys o'] end. cbn [app]. eauto.
Qed.

Lemma eval_unfine_how {A C} (t : tree A) e al (w : world A C) :
  t_leaves t -> t_build t = Ok e -> (t_need t <= length (t_dims t) - t_outer t)%nat -> ~ t_fine t ->
  tn_from_expr al e w = match e_get e 0 (e_init e) with Panic => Unwound w | _ => Fault end.
Proof.
  intros HL HB HN HF. pose proof (build_built HL HB) as B. destruct (unfine (tree_nonneg HL HB) HN HF) as [H1 H2].
  assert (H3 : 0 < prodZ (skipn (outer_rank e) (e_dims e))) by now rewrite (bu_dims B), (tree_outer B).
  apply trace_first in H3. unfold tn_from_expr. rewrite sh_len_prod, (bu_dims B), H1. cbn [Z.eqb orb].
  unfold clone_into_vec. rewrite sh_len_prod, (bu_dims B), H1.
  destruct (e_get e 0 (e_init e)) as [[a st]| | |].
  - destruct H3 as (l & o & ->). reflexivity.
  - rewrite H3. cbn. unfold w_drop. rewrite app_nil_r. now destruct w.
  - rewrite H3. reflexivity.
  - rewrite H3. reflexivity.
Qed.

Lemma array_unfine_how {A C} (t : tree A) e ds (w : world A C) :
  t_leaves t -> t_build t = Ok e -> (t_need t <= length (t_dims t) - t_outer t)%nat -> ~ t_fine t ->
  consts ds -> typed (STuple ds) (t_dims t) ->
  ar_from_expr ds e w = match e_get e 0 (e_init e) with Panic => Unwound w | _ => Fault end.
Proof.
  intros HL HB HN HF HC HT. pose proof (build_built HL HB) as B. destruct (unfine (tree_nonneg HL HB) HN HF) as [H1 H2].
  assert (H3 : 0 < prodZ (skipn (outer_rank e) (e_dims e))) by now rewrite (bu_dims B), (tree_outer B).
  apply trace_first in H3. unfold ar_from_expr, array_fill. rewrite (bu_dims B).
  rewrite sh_len_prod, <- (const_dims HC HT), H1.
  rewrite sh_from_dims_spec, (proj2 (accepts_typed (STuple ds) (t_dims t)) HT).
  destruct (e_get e 0 (e_init e)) as [[a st]| | |].
  - destruct H3 as (l & o & ->). reflexivity.
  - rewrite H3. cbn. unfold w_drop. rewrite app_nil_r. now destruct w.
  - rewrite H3. reflexivity.
  - rewrite H3. reflexivity.
Qed.

(** Copies of a view. *)
Lemma copy_unfine {T C W} (mem : list T) (clone : T -> C -> outcome (T * C)) c0 v :
  valid_view (zlen mem) v -> ~ view_fine v -> (forall x c, exists y c', clone x c = Ok (y, c')) ->
  (forall al (w : world T W), v_to_tensor al mem clone c0 v w = Fault) /\
  (forall ds (w : world T W), consts ds -> typed (STuple ds) (v_dims v) -> v_to_array ds mem clone c0 v w = Fault).
Proof.
  intros HV HF HC. set (tr := TCloned (clone_at mem clone) c0 (TView (zlen mem) true v)).
  assert (HU : ~ t_fine tr) by exact (fun H => HF (proj1 (@view_fine_iff (zlen mem) true v (vv_wf HV)) H)).
  assert (HN : (t_need tr <= length (t_dims tr) - t_outer tr)%nat) by (cbn; lia).
  assert (HP : e_get (v_cloned mem clone c0 v) 0 (e_init (v_cloned mem clone c0 v)) <> Panic).
  { cbn. unfold e_ref. destruct (_ && _); cbn; [|discriminate]. unfold clone_at, read.
    destruct (_ <? 0); cbn; [discriminate|].
    match goal with |- context [nth_error ?l ?k] => destruct (nth_error l k) as [x|] end; cbn; [|discriminate].
    destruct (HC x c0) as (y & c' & ->). cbn. discriminate. }
  split.
  - intros al w. unfold v_to_tensor. rewrite (@eval_unfine_how T W tr (v_cloned mem clone c0 v) al w HV eq_refl HN HU).
    destruct (e_get _ _ _); auto. contradiction.
  - intros ds w HK HT. unfold v_to_array.
    rewrite (@array_unfine_how T W tr (v_cloned mem clone c0 v) ds w HV eq_refl HN HU HK HT).
    destruct (e_get _ _ _); auto. contradiction.
Qed.

(** ** Comparing and printing by rows *)

(** The rows can be made: there are none, or the product of the other dimensions does not overflow. *)
Definition room (dims : list Z) : Prop := hd 0 dims = 0 \/ fits (tl dims).

Lemma room_dec dims : room dims \/ ~ room dims.
Proof.
  unfold room. destruct (Z.eq_dec (hd 0 dims) 0); [left; auto|].
  destruct (checked_len_cases (tl dims)) as [F|F]; [left; auto|]. right. intros [H|H]; auto.
  apply checked_len_fits in H. congruence.
Qed.

Lemma prod_room n v : valid_view n v -> n <= usize_max -> prodZ (v_dims v) <= usize_max.
Proof.
  intros HV Hn. destruct (Z_lt_dec 0 (prodZ (v_dims v))) as [HP|HP]; [|unfold usize_max; lia].
  pose proof (nonempty_fits HV Hn HP) as H. specialize (H (length (v_dims v))). now rewrite firstn_all in H.
Qed.

Lemma row_overflow v : wf_map (v_map v) -> ~ room (v_dims v) ->
  exists e, e_axis true v (AxConst 0) = Ok e /\ it_next (it_new e) = Panic.
Proof.
  intros Hw HR. pose proof (wf_nonneg Hw) as HN. change (m_dims (v_map v)) with (v_dims v) in HN.
  destruct (v_dims v) as [|d ds] eqn:ED; [contradiction HR; left; reflexivity|]. cbn [room hd tl] in HR.
  unfold room in HR. cbn [hd tl] in HR.
  destruct (@axis_overflow true v (AxConst 0) 0 Hw) as (e & E1 & E2 & _).
  - change (m_dims (v_map v)) with (v_dims v). rewrite ED. split; cbn; auto. lia.
  - change (m_dims (v_map v)) with (v_dims v). rewrite ED. cbn. inversion HN; subst. lia.
  - change (m_dims (v_map v)) with (v_dims v). rewrite ED. cbn. tauto.
  - eauto.
Qed.

Lemma unroom_rank dims : ~ room dims -> (2 <= length dims)%nat.
Proof.
  intros H. destruct dims as [|d [|d' ds]]; cbn; try lia; exfalso; apply H; [left; reflexivity|]. right.
  intros [|k]; cbn; unfold usize_max; lia.
Qed.

Lemma eq_exact {T U} (eq : T -> U -> outcome bool) am bm a b xs ys :
  Z.of_nat (length am) <= usize_max -> Z.of_nat (length bm) <= usize_max ->
  valid_view (Z.of_nat (length am)) a -> valid_view (Z.of_nat (length bm)) b ->
  contents am a xs -> contents bm b ys -> v_dims a = v_dims b ->
  ((v_layout a = Dense /\ v_layout b = Dense) \/ room (v_dims a) -> v_eq eq am bm a b = list_eq eq xs ys) /\
  (~ ((v_layout a = Dense /\ v_layout b = Dense) \/ room (v_dims a)) -> v_eq eq am bm a b = Panic).
Proof.
  intros MA MB HA HB HX HY HD.
  assert (GD : v_layout a = Dense /\ v_layout b = Dense -> v_eq eq am bm a b = list_eq eq xs ys).
  { intros [LA LB].
    assert (E : (let* l := v_slice am a in let* r := v_slice bm b in slices_eq eq l r) = list_eq eq xs ys).
    { rewrite (slice_contents_when HA (prod_room HA MA) LA HX). cbn [bind].
      rewrite (slice_contents_when HB (prod_room HB MB) LB HY). cbn [bind]. unfold slices_eq.
      apply contents_length in HX; [|apply HA]. apply contents_length in HY; [|apply HB]. rewrite HD in HX.
      replace (length xs =? length ys)%nat with true; auto. symmetry. apply Nat.eqb_eq. unfold zlen in *. lia. }
    unfold v_eq. destruct (length (v_dims a)); cbn [eq_loop]; rewrite (proj2 (slice_eqb_iff _ _) HD); unfold is_dense; rewrite LA, LB; exact E. }
  split.
  - intros [H|H]; [now apply GD|].
    destruct (is_dense a && is_dense b) eqn:EB.
    { apply GD. apply andb_true_iff in EB. unfold is_dense in EB. destruct (v_layout a), (v_layout b); destruct EB; try discriminate. auto. }
    destruct (Nat.ltb_spec (length (v_dims a)) 2) as [HR2|HR2].
    + apply eq_loop_ok; auto. pose proof (wf_nonneg (vv_wf HA)) as HN. change (m_dims (v_map a)) with (v_dims a) in HN.
      pose proof (prod_room HA MA) as HP. destruct (v_dims a) as [|d [|d' ds]]; cbn in HR2; try lia.
      * intros [|k]; cbn; unfold usize_max; lia.
      * cbn in HP. intros [|k]; cbn [firstn]; [cbn; unfold usize_max; lia|]. destruct k; cbn; lia.
    + unfold v_eq. destruct (v_dims a) as [|d ds] eqn:EA; [cbn in HR2; lia|]. cbn [length] in *. cbn [eq_loop].
      rewrite EA, (proj2 (slice_eqb_iff _ _) HD), EB.
      replace (length (d :: ds) <? 2)%nat with false by (symmetry; apply Nat.ltb_ge; cbn [length]; lia).
      assert (HF : 0 < d -> fits ds) by (destruct H as [H|H]; cbn in H; [lia|auto]).
      symmetry in HD.
      destruct (rows_when HA EA HF) as (ea & ws & E1 & Y1 & F1 & C1 & L1 & W1 & _).
      destruct (rows_when HB HD HF) as (eb & vs & E2 & Y2 & F2 & C2 & L2 & W2 & _).
      rewrite E1. cbn [bind]. rewrite E2. cbn [bind].
      destruct (C1 _ am xs eq_refl HX) as (xss & HXS & <-). destruct (C2 _ bm ys eq_refl HY) as (yss & HYS & <-).
      erewrite iter_eq_list; [|exact Y1|exact Y2|lia|exact F1].
      apply (@list_eq_concat _ _ _ _ _ eq (contents am) (contents bm)); auto; [lia|].
      intros w v xs ys Hw Hv HCX HCY. rewrite Forall_forall in W1, W2.
      destruct (W1 w Hw) as (D1 & V1 & G1). destruct (W2 v Hv) as (D2 & V2 & G2). split.
      * apply contents_length in HCX; [|apply V1]. apply contents_length in HCY; [|apply V2]. unfold zlen in *. rewrite D1 in HCX. rewrite D2 in HCY. lia.
      * apply eq_loop_ok; auto; [rewrite D1; lia|congruence].
  - intros H. assert (HR : ~ room (v_dims a)) by tauto. assert (HL : ~ (v_layout a = Dense /\ v_layout b = Dense)) by tauto.
    pose proof (unroom_rank HR) as HR2. unfold v_eq. destruct (length (v_dims a)) as [|k] eqn:EL; [lia|]. cbn [eq_loop].
    rewrite EL, (proj2 (slice_eqb_iff _ _) HD).
    replace (is_dense a && is_dense b) with false.
    2:{ unfold is_dense. destruct (v_layout a), (v_layout b); auto; contradiction HL; auto. }
    replace (S k <? 2)%nat with false by (symmetry; apply Nat.ltb_ge; lia).
    destruct (row_overflow (vv_wf HA) HR) as (ea & -> & EN). cbn [bind].
    rewrite HD in HR. destruct (row_overflow (vv_wf HB) HR) as (eb & -> & _). cbn [bind].
    unfold next_fuel. cbn [iter_eq]. now rewrite EN.
Qed.

Lemma contains_exact {T} (eq : T -> T -> outcome bool) mem value v xs :
  Z.of_nat (length mem) <= usize_max -> valid_view (Z.of_nat (length mem)) v -> contents mem v xs ->
  (v_layout v = Dense \/ room (v_dims v) -> v_contains eq mem v value = list_any (fun x => eq x value) xs) /\
  (~ (v_layout v = Dense \/ room (v_dims v)) -> v_contains eq mem v value = Panic).
Proof.
  intros MV HV HX.
  assert (GD : v_layout v = Dense -> v_contains eq mem v value = list_any (fun x => eq x value) xs).
  { intros LV. unfold v_contains. pose proof (slice_contents_when HV (prod_room HV MV) LV HX) as E.
    destruct (length (v_dims v)); cbn [contains_loop]; unfold is_dense; rewrite LV, E; reflexivity. }
  split.
  - intros [H|H]; [now apply GD|]. destruct (is_dense v) eqn:EB.
    { apply GD. unfold is_dense in EB. destruct (v_layout v); auto. discriminate. }
    destruct (Nat.ltb_spec (length (v_dims v)) 2) as [HR2|HR2].
    + apply contains_loop_ok; auto. pose proof (wf_nonneg (vv_wf HV)) as HN. change (m_dims (v_map v)) with (v_dims v) in HN.
      pose proof (prod_room HV MV) as HP. destruct (v_dims v) as [|d [|d' ds]]; cbn in HR2; try lia.
      * intros [|k]; cbn; unfold usize_max; lia.
      * cbn in HP. intros [|k]; cbn [firstn]; [cbn; unfold usize_max; lia|]. destruct k; cbn; lia.
    + unfold v_contains. destruct (v_dims v) as [|d ds] eqn:EA; [cbn in HR2; lia|]. cbn [length] in *. cbn [contains_loop].
      rewrite EA, EB.
      replace (length (d :: ds) <? 2)%nat with false by (symmetry; apply Nat.ltb_ge; cbn [length]; lia).
      assert (HF : 0 < d -> fits ds) by (destruct H as [H|H]; cbn in H; [lia|auto]).
      destruct (rows_when HV EA HF) as (e & ws & E1 & Y1 & F1 & C1 & L1 & W1 & _). rewrite E1. cbn [bind].
      destruct (C1 _ mem xs eq_refl HX) as (xss & HXS & <-). erewrite iter_any_list; [|exact Y1|exact F1].
      apply list_any_concat with (R := contents mem); auto. intros w xs Hw HC. rewrite Forall_forall in W1.
      destruct (W1 w Hw) as (D1 & V1 & G1). apply contains_loop_ok; auto. rewrite D1. lia.
  - intros H. assert (HR : ~ room (v_dims v)) by tauto. assert (HL : v_layout v <> Dense) by tauto.
    pose proof (unroom_rank HR) as HR2. unfold v_contains. destruct (length (v_dims v)) as [|k] eqn:EL; [lia|]. cbn [contains_loop].
    rewrite EL. replace (is_dense v) with false by (unfold is_dense; destruct (v_layout v); auto; contradiction).
    replace (S k <? 2)%nat with false by (symmetry; apply Nat.ltb_ge; lia).
    destruct (row_overflow (vv_wf HV) HR) as (e & -> & EN). cbn [bind].
    unfold next_fuel. cbn [iter_any]. now rewrite EN.
Qed.

Lemma debug_exact {T D} (fmt : T -> outcome D) mem v : valid_view (Z.of_nat (length mem)) v ->
  (room (v_dims v) -> v_debug fmt mem v = nested (fun idx => let* x := v_get mem v idx in fmt x) (v_dims v)) /\
  (~ room (v_dims v) -> v_debug fmt mem v = Panic).
Proof.
  intros HV. split.
  - intros H. unfold v_debug. destruct (v_dims v) as [|d ds] eqn:EV.
    + cbn [length debug_loop]. rewrite EV. cbn [length Nat.eqb nested]. destruct (v_get mem v []) as [x| | |]; reflexivity.
    + cbn [length debug_loop]. rewrite EV. cbn [length Nat.eqb].
      assert (HF : 0 < d -> fits ds) by (destruct H as [H|H]; cbn in H; [lia|auto]).
      destruct (rows_when HV EV HF) as (e & ws & E1 & Y1 & F1 & _ & L1 & W1 & _ & G1).
      rewrite E1. cbn [bind nested]. erewrite iter_entries_list; [|exact Y1|exact F1].
      erewrite (@mapM_Forall2 view Z _ _ _ _ _ _ G1); [reflexivity|].
      intros w k Hw HG. rewrite Forall_forall in W1. destruct (W1 w Hw) as (D1 & V1 & FW).
      rewrite debug_ok; auto; [|rewrite D1; auto]. rewrite D1. apply nested_ext. intros idx Hi. cbn beta. now rewrite HG.
  - intros HR. pose proof (unroom_rank HR) as HR2. unfold v_debug. destruct (length (v_dims v)) as [|k] eqn:EL; [lia|].
    cbn [debug_loop]. rewrite EL. cbn [Nat.eqb].
    destruct (row_overflow (vv_wf HV) HR) as (e & -> & EN). cbn [bind].
    unfold next_fuel. cbn [iter_entries]. now rewrite EN.
Qed.

(** ** A resize to dimensions that are not of the type *)

Lemma resize_unfit_eq {T C} al new (f : C -> call T C) t (w : world T C) vs c :
  tensor_ok t -> nonneg new -> ~ typed (tn_ty t) new -> length new = length (tn_dims t) -> fits new ->
  (forall n, al_ok al n = true) -> gives (repeat f (fresh (tn_dims t) new)) (w_clo w) = (vs, c, true) ->
  exists xs cap w', zlen xs = prodZ new /\ prodZ new <= cap /\
    tn_resize_with al new f (t, w) =
      (if prodZ new =? prodZ (tn_dims t) then Unwound (mkTensor (tn_ty t) (tn_dims t) xs cap, w')
       else if prodZ (sh_default (tn_ty t)) =? 0
            then Unwound (mkTensor (tn_ty t) (sh_default (tn_ty t)) [] cap, w_drop xs w') else Aborted) /\
    tn_resize_with_nightly al new f (t, w) =
      (if prodZ new =? prodZ (tn_dims t) then Unwound (mkTensor (tn_ty t) (tn_dims t) xs cap, w')
       else Unwound (mkTensor (tn_ty t) (sh_default (tn_ty t)) [] cap, w_drop xs w')).
Proof.
  intros Ht Hn HT HL HF Hal HG.
  assert (HE : new <> []).
  { intros ->. apply HT. pose proof (to_typed Ht) as H. destruct (tn_dims t); [exact H|discriminate]. }
  destruct (start_pok w Ht) as [(K1 & K2 & K3) I].
  destruct (@resize_body_done T C al new f (mkParts (tn_mem t) (tn_cap t) (tn_dims t) w) vs c K1 Hn HL HE I K3 Hal HG) as (cap & HC & E).
  assert (HB : balanced (tn_mem t ++ w_used w ++ w_dropped w) (w_made w ++ tn_mem t) w) by (unfold balanced; perm).
  pose proof (@resize_body_cases T C al new f (mkParts (tn_mem t) (tn_cap t) (tn_dims t) w) _ _ K1 Hn HL HE I K3 HB) as HZ.
  rewrite E in HZ. cbn [p_items p_dims p_cap p_w] in *. destruct HZ as (_ & HZ & _).
  assert (ES : sh_store (tn_ty t) new = Panic).
  { rewrite sh_store_spec.
    - destruct (accepts (tn_ty t) new) eqn:EA; auto. apply accepts_typed in EA. contradiction.
    - pose proof (to_typed Ht) as H. destruct (tn_ty t); cbn in *; auto. rewrite HL. symmetry. eapply Forall2_len; eauto. }
  set (m := fun ty => resize_body al new f ;;; p_store ty new).
  assert (EM : m (tn_ty t) (mkParts (tn_mem t) (tn_cap t) (tn_dims t) w) =
    Unwound (mkParts (fill_missing (elem_at (tn_dims t) (tn_mem t)) (indices new) vs) cap (tn_dims t)
               (after c vs (lost (tn_dims t) (tn_mem t) new) w))).
  { unfold m, seqM. rewrite E. unfold p_store, seqM. rewrite ES. reflexivity. }
  assert (ET : to_vec_raw t = Some (tn_mem t)).
  { unfold to_vec_raw, tn_len. rewrite sh_len_prod. unfold zlen. rewrite (to_len Ht), Z.eqb_refl. reflexivity. }
  eexists _, cap, _. split; [exact HZ|]. split; [exact HC|]. split.
  - rewrite resize_unfold by auto. fold m. unfold with_mut_parts. rewrite ET, EM. cbn [p_items p_dims p_cap p_w].
    rewrite !sh_len_prod, HZ. reflexivity.
  - assert (EN : tn_resize_with_nightly al new f (t, w) = with_mut_parts_nightly m (t, w)).
    { unfold tn_resize_with_nightly. unfold seqM at 1. cbn [fst]. rewrite HL, Nat.eqb_refl. cbn [check].
      destruct new as [|n nt]; [congruence|]. rewrite checked_len_fits by auto. reflexivity. }
    rewrite EN. unfold with_mut_parts_nightly. rewrite ET, EM. cbn [p_items p_dims p_cap p_w].
    rewrite !sh_len_prod, HZ. reflexivity.
Qed.
