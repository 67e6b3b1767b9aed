(** Owned arrays: evaluating expressions, and results element by element. *)
From Verif Require Import Base Spec SpecFacts Shape Mapping Index View Wf MappingFacts ViewFacts.
From Verif Require Import Expr ExprSpec ExprFacts IterFacts SourceFacts ExprTree ExprMore.
From Verif Require Import Tensor TraceFacts TensorSpec TensorFacts ResizeFacts TensorOps DrainFacts OwnFacts ZipFacts.
Unset Strict Implicit.

(** ** Element by element *)

Lemma indices_at dims idx : in_bounds dims idx -> nth_error (indices dims) (Z.to_nat (flat dims idx)) = Some idx.
Proof.
  intros H. pose proof (flat_bounds H) as HB. pose proof (positive_nonneg (in_bounds_positive H)) as HN.
  rewrite (nth_error_nth' _ []) by (rewrite indices_length by auto; lia).
  rewrite indices_nth by (auto; lia). rewrite Z2Nat.id by lia. now rewrite unflat_flat.
Qed.

Lemma fill_nth {I T} (known : I -> option T) l vals k i :
  length vals = missing known l -> nth_error l k = Some i ->
  nth_error (fill_missing known l vals) k =
  match known i with Some x => Some x | None => nth_error vals (missing known (firstn k l)) end.
Proof.
  revert vals k. induction l as [|j l IH]; intros vals k HV E; [destruct k; discriminate|].
  unfold missing in *. cbn [filter] in HV. destruct k as [|k]; cbn [nth_error firstn filter] in *.
  - inversion E; subst j. cbn [fill_missing length]. destruct (known i); auto.
    cbn [length] in HV. destruct vals as [|v vt]; [discriminate|reflexivity].
  - cbn [fill_missing]. destruct (known j).
    + cbn [nth_error]. now apply IH.
    + cbn [length] in *. destruct vals as [|v vt]; [discriminate|]. cbn [nth_error]. apply IH; auto.
Qed.

Lemma filter_ext_in' {A} (f g : A -> bool) l : (forall a, In a l -> f a = g a) -> filter f l = filter g l.
Proof. induction l as [|a l IH]; intros H; cbn; auto. rewrite (H a) by now left. rewrite IH; auto. intros b Hb. apply H. now right. Qed.

Lemma elem_at_none {T} dims (l : list T) idx : zlen l = prodZ dims ->
  match elem_at dims l idx with None => true | Some _ => false end = negb (inside dims idx).
Proof.
  intros HL. destruct (inside dims idx) eqn:E.
  - apply inside_spec in E. pose proof (elem_at_in E HL). destruct (elem_at dims l idx); [reflexivity|congruence].
  - apply inside_false in E. now rewrite elem_at_out.
Qed.

Lemma fill_elem {T} old (l : list T) new vs idx :
  zlen l = prodZ old -> length vs = fresh old new -> in_bounds new idx ->
  elem_at new (fill_missing (elem_at old l) (indices new) vs) idx =
  if inside old idx then elem_at old l idx else nth_error vs (fresh_before old new idx).
Proof.
  intros HL HV HI. unfold elem_at at 1. rewrite (proj2 (inside_spec new idx) HI).
  rewrite (fill_nth (i := idx)); [|rewrite HV; apply fresh_missing; auto|now apply indices_at].
  pose proof (elem_at_none idx HL) as HE. destruct (inside old idx) eqn:E.
  - destruct (elem_at old l idx); [reflexivity|discriminate].
  - rewrite (elem_at_out l) by (now apply inside_false). unfold missing, fresh_before. do 2 f_equal.
    apply filter_ext_in'. intros a _. now apply elem_at_none.
Qed.

Lemma inside_cons d ds i is : inside (d :: ds) (i :: is) = (0 <=? i) && (i <? d) && inside ds is.
Proof. reflexivity. Qed.

(** Concatenation of rows. *)
Lemma elem_at_app {T} ds n m (a b : list T) i idx :
  zlen a = n * prodZ ds -> zlen b = m * prodZ ds -> 0 <= n -> 0 <= m ->
  elem_at (n + m :: ds) (a ++ b) (i :: idx) =
  if i <? n then elem_at (n :: ds) a (i :: idx) else elem_at (m :: ds) b (i - n :: idx).
Proof.
  intros HA HB Hn Hm. unfold elem_at. rewrite !inside_cons. cbn [flat].
  destruct (inside ds idx) eqn:E; [|rewrite !andb_false_r; now destruct (i <? n)].
  apply inside_spec in E. pose proof (flat_bounds E) as HF. rewrite !andb_true_r.
  unfold zlen in *. destruct (Z.ltb_spec i n).
  - destruct (Z.leb_spec 0 i); cbn [andb]; [|reflexivity]. destruct (Z.ltb_spec i (n + m)); [|lia].
    apply nth_error_app1. nia.
  - destruct (Z.leb_spec 0 i); [|lia]. destruct (Z.leb_spec 0 (i - n)); [|lia]. cbn [andb].
    destruct (Z.ltb_spec i (n + m)), (Z.ltb_spec (i - n) m); try lia; [|reflexivity].
    rewrite nth_error_app2 by nia. f_equal. nia.
Qed.

(** Rows of an array. *)
Lemma rows_elem {T} n ds (l : list T) a b i idx :
  nonneg ds -> zlen l = n * prodZ ds -> 0 <= a <= b -> b <= n -> 0 <= i < b - a ->
  elem_at (b - a :: ds) (rows_of (n :: ds) l a b) (i :: idx) = elem_at (n :: ds) l (a + i :: idx).
Proof.
  intros HN HL Ha Hb Hi. unfold elem_at. rewrite !inside_cons. cbn [flat].
  destruct (inside ds idx) eqn:E; [|now rewrite !andb_false_r].
  apply inside_spec in E. pose proof (flat_bounds E) as HF. rewrite !andb_true_r.
  destruct (Z.leb_spec 0 i); [|lia]. destruct (Z.ltb_spec i (b - a)); [|lia].
  destruct (Z.leb_spec 0 (a + i)); [|lia]. destruct (Z.ltb_spec (a + i) n); [|lia]. cbn [andb].
  unfold rows_of. cbn [tl]. rewrite nth_error_firstn'. destruct (Nat.ltb_spec (Z.to_nat (i * prodZ ds + flat ds idx)) (Z.to_nat ((b - a) * prodZ ds))); [|nia].
  rewrite nth_error_skipn'. f_equal. nia.
Qed.

Lemma rows_zlen {T} n ds (l : list T) a b :
  nonneg ds -> zlen l = n * prodZ ds -> 0 <= a <= b -> b <= n -> zlen (rows_of (n :: ds) l a b) = (b - a) * prodZ ds.
Proof.
  intros HN HL Ha Hb. pose proof (prodZ_nonneg HN). unfold rows_of. cbn [tl]. apply zlen_firstn.
  rewrite zlen_skipn; nia.
Qed.

(** ** Evaluating expressions *)

Lemma from_expr_eq {T C} al (e : expression T) (w : world T C) :
  (forall n, al_ok al n = true) -> honest e ->
  exists cap, prodZ (e_dims e) <= cap /\
  tn_from_expr al e w =
  let xs := fst (e_trace e) in
  match snd (e_trace e) with
  | Ok _ => Done (mkTensor (e_ty e) (e_dims e) xs cap) (after (w_clo w) xs [] w)
  | _ => Unwound (after (w_clo w) xs xs w)
  end.
Proof.
  intros HA HH. pose proof HH as (HN & HL & HO). unfold tn_from_expr. rewrite sh_len_prod, HA, orb_true_r.
  set (cap := if prodZ (e_dims e) =? 0 then 0 else Z.max (prodZ (e_dims e)) (al_grow al 0 (prodZ (e_dims e)))).
  assert (HC : prodZ (e_dims e) <= cap) by (unfold cap; destruct (Z.eqb_spec (prodZ (e_dims e)) 0); lia).
  exists cap. split; auto. rewrite clone_into_vec_spec; [|auto|cbn [p_items p_cap]; unfold zlen; cbn [length]; lia].
  cbn [p_w]. rewrite gives_moved. cbv zeta.
  assert (EU : Unwound (w_drop (p_items (pushed (w_clo w) (fst (e_trace e)) (mkParts [] cap [] w)))
      (p_w (pushed (w_clo w) (fst (e_trace e)) (mkParts [] cap [] w)))) =
      Unwound (A := tensor T) (after (w_clo w) (fst (e_trace e)) (fst (e_trace e)) w)).
  { unfold pushed, after, w_drop. cbn [p_items p_w w_clo w_made w_used w_dropped app]. now rewrite app_nil_r. }
  destruct HO as [[-> HO]| ->]; [|exact EU].
  unfold pushed, from_parts. cbn [p_items p_cap p_w app]. rewrite sh_len_prod.
  unfold zlen. rewrite HO, Z.eqb_refl. reflexivity.
Qed.

Section Eval.
  Context {T : Type} (tr : tree T) (e : expression T).
  Hypothesis HL : t_leaves tr.
  Hypothesis HB : t_build tr = Ok e.
  Hypothesis HF : t_fine tr.
  Hypothesis HS : t_safe tr.

  Lemma eval_tree {C} al (w : world T C) xs o :
    (forall n, al_ok al n = true) -> produce (t_act tr) (indices (t_dims tr)) (t_init tr) = (xs, o) ->
    match o with
    | Ok _ => exists cap, zlen xs = prodZ (t_dims tr) /\ zlen xs <= cap /\ typed (e_ty e) (t_dims tr) /\
        tn_from_expr al e w = Done (mkTensor (e_ty e) (t_dims tr) xs cap) (after (w_clo w) xs [] w)
    | _ => tn_from_expr al e w = Unwound (after (w_clo w) xs xs w)
    end.
  Proof.
    intros HA HP. destruct (tree_honest HL HB HF HS) as (HH & HT & HD & HX & HO).
    destruct (from_expr_eq w HA HH) as (cap & HC & ->). pose proof HH as (_ & _ & HK).
    rewrite HP in HX, HO. cbn [fst snd] in HX, HO. rewrite HD in *. rewrite HX in *.
    destruct o as [s| | |].
    - specialize (HO s eq_refl). rewrite HO. exists cap. destruct HK as [[_ HK]|HK]; [|congruence].
      split; [exact HK|]. split; [unfold zlen; lia|]. split; auto.
    - destruct HK as [[HK _]|HK]; [|now rewrite HK].
      exfalso.
      pose proof (tree_trace (build_built HL HB) HF) as E. rewrite HP in E. rewrite E in HK. discriminate HK.
    - exfalso. pose proof (produce_proper (act := t_act tr) (l := indices (t_dims tr)) (t_init tr)) as K.
      rewrite HP in K. apply K. intros idx s Hi. apply HS. now apply in_indices.
    - exfalso. pose proof (produce_proper (act := t_act tr) (l := indices (t_dims tr)) (t_init tr)) as K.
      rewrite HP in K. apply K. intros idx s Hi. apply HS. now apply in_indices.
  Qed.

  Lemma array_tree {C} ds (w : world T C) xs o :
    consts ds -> typed (STuple ds) (t_dims tr) ->
    produce (t_act tr) (indices (t_dims tr)) (t_init tr) = (xs, o) ->
    match o with
    | Ok _ => zlen xs = prodZ (t_dims tr) /\ ar_from_expr ds e w = Done xs (after (w_clo w) xs [] w)
    | _ => ar_from_expr ds e w = Unwound (after (w_clo w) xs xs w)
    end.
  Proof.
    intros HC HY HP. destruct (tree_honest HL HB HF HS) as (HH & HT & HD & HX & HO).
    rewrite <- HD in HY. rewrite (proj1 (ar_from_expr_eq w HC HH) HY). pose proof HH as (_ & _ & HK).
    rewrite HP in HX, HO. cbn [fst snd] in HX, HO. rewrite HX in *. cbv zeta.
    destruct o as [s| | |].
    - specialize (HO s eq_refl). rewrite HO. destruct HK as [[_ HK]|HK]; [|congruence].
      rewrite HD in HK. auto.
    - destruct HK as [[HK _]|HK]; [|now rewrite HK].
      exfalso. pose proof (tree_trace (build_built HL HB) HF) as E. rewrite HP in E. rewrite E in HK. discriminate HK.
    - exfalso. pose proof (produce_proper (act := t_act tr) (l := indices (t_dims tr)) (t_init tr)) as K.
      rewrite HP in K. apply K. intros idx s Hi. apply HS. now apply in_indices.
    - exfalso. pose proof (produce_proper (act := t_act tr) (l := indices (t_dims tr)) (t_init tr)) as K.
      rewrite HP in K. apply K. intros idx s Hi. apply HS. now apply in_indices.
  Qed.
End Eval.

(** Copying a view. *)
Definition read_cell {T} (mem : list T) (addr : Z) : outcome T := get_nth mem (Z.to_nat addr).

Lemma produce_fun {A B S} (rd : A -> outcome B) (act : action A S) (g : list Z -> B) l s :
  (forall idx s, In idx l -> exists a, act idx s = Ok (a, s) /\ rd a = Ok (g idx)) ->
  produce (fun_action rd act) l s = (map g l, Ok s).
Proof.
  induction l as [|i l IH]; intros H; cbn [produce map]; auto. unfold fun_action at 1.
  destruct (H i s (or_introl eq_refl)) as (a & -> & E). cbn [bind]. rewrite E. cbn [bind].
  rewrite IH; auto. intros idx s' Hi. apply H. now right.
Qed.

Definition elements {T} (mem : list T) (v : view) : list (option T) :=
  map (fun idx => nth_error mem (Z.to_nat (v_addr v idx))) (indices (v_dims v)).

Lemma to_tensor {T C} al (mem : list T) rep v (w : world T C) :
  (forall n, al_ok al n = true) -> valid_view (zlen mem) v -> view_fine v ->
  exists xs cap, map Some xs = elements mem v /\ zlen xs = prodZ (v_dims v) /\ zlen xs <= cap /\
    tn_from_expr al (e_copied (read_cell mem) (e_view (zlen mem) rep v)) w =
    Done (mkTensor (v_ty v) (v_dims v) xs cap) (after (w_clo w) xs [] w).
Proof.
  intros HA HV HF.
  assert (HR : forall idx, in_bounds (v_dims v) idx -> exists x, nth_error mem (Z.to_nat (v_addr v idx)) = Some x).
  { intros idx Hi. pose proof (vv_range HV Hi) as HB. destruct (nth_error mem (Z.to_nat (v_addr v idx))) eqn:E; eauto.
    apply nth_error_None in E. unfold zlen in HB. lia. }
  destruct mem as [|x0 mem0] eqn:EM; [|rewrite <- EM in *; clear EM].
  - (* no cells: no indices *)
    set (tr := TCopied (read_cell (@nil T)) (TView (zlen (@nil T)) rep v)).
    destruct (indices (v_dims v)) as [|i l] eqn:EI.
    + assert (HP : produce (t_act tr) (indices (t_dims tr)) (t_init tr) = ([], Ok tt)).
      { unfold tr. cbn [t_dims t_act t_init]. rewrite EI. reflexivity. }
      pose proof (@eval_tree T tr (e_copied (read_cell []) (e_view (zlen (@nil T)) rep v)) HV eq_refl (@view_tree_fine 0 rep v (vv_wf HV) HF)) as H.
      destruct (H ltac:(intros idx s Hi; exfalso; cbn in Hi; apply in_indices in Hi; now rewrite EI in Hi) C al w _ _ HA HP)
        as (cap & H1 & H2 & H3 & H4).
      exists [], cap. unfold elements. rewrite EI. repeat split; auto.
    + exfalso. destruct (HR i) as [x E]; [apply in_indices; rewrite EI; now left|]. destruct (Z.to_nat (v_addr v i)); discriminate.
  - set (tr := TCopied (read_cell mem) (TView (zlen mem) rep v)).
    set (g idx := nth (Z.to_nat (v_addr v idx)) mem x0).
    assert (HG : forall idx, in_bounds (v_dims v) idx -> nth_error mem (Z.to_nat (v_addr v idx)) = Some (g idx)).
    { intros idx Hi. unfold g. apply nth_error_nth'. pose proof (vv_range HV Hi). unfold zlen in *. lia. }
    assert (HP : produce (t_act tr) (indices (t_dims tr)) (t_init tr) = (map g (indices (v_dims v)), Ok tt)).
    { unfold tr. cbn [t_dims t_act t_init]. apply produce_fun. intros idx s Hi. exists (v_addr v idx). split; [reflexivity|].
      unfold read_cell, get_nth. rewrite HG; auto. now apply in_indices. }
    pose proof (@eval_tree T tr (e_copied (read_cell mem) (e_view (zlen mem) rep v)) HV eq_refl (@view_tree_fine 0 rep v (vv_wf HV) HF)) as H.
    destruct (H ltac:(intros idx s Hi; cbn in Hi |- *; unfold fun_action, pure_action, read_cell, get_nth; cbn [bind]; rewrite HG by auto; exact I) C al w _ _ HA HP)
      as (cap & H1 & H2 & H3 & H4).
    exists (map g (indices (v_dims v))), cap. split; [|split; [exact H1|split; auto]].
    unfold elements. rewrite map_map. apply map_ext_in. intros idx Hi. symmetry. apply HG. now apply in_indices.
Qed.
