(** Facts about the reference interpreter (Refer.v). *)
From Verif Require Import Base Spec SpecFacts Shape Mapping Index View Wf MappingFacts MapOps
  ReshapeFacts IndexFacts ViewFacts ViewMore PropsView.
From Verif Require Import Expr ExprSpec ExprFacts IterFacts SourceFacts ExprTree ExprMore PropsExpr.
From Verif Require Import Machine MachineSpec MachineIter MachineTensor MachineProgram MachineProgramFacts PropsMachineProgram.
From Verif Require Import Tensor TraceFacts TensorSpec TensorFacts ResizeFacts TensorOps DrainFacts OwnFacts OpsMore
  ZipFacts OwnMore OpsFacts History HistoryFacts OwnProps PropsTensor PropsMore Program ProgramFacts PropsProgram.
From Verif Require Import PanicFacts PropsPanic Select SelectFacts PropsSelect Refer.
Unset Strict Implicit.

(** ** Tests *)

Lemma fitsb_spec dims : fitsb dims = true <-> fits dims.
Proof.
  unfold fitsb, fits. rewrite forallb_forall. split.
  - intros H k. destruct (Nat.le_gt_cases k (length dims)) as [L|L].
    + apply Z.leb_le, H, in_seq. lia.
    + rewrite firstn_all2 by lia. rewrite <- (firstn_all dims) . apply Z.leb_le, H, in_seq. lia.
  - intros H k _. apply Z.leb_le, H.
Qed.

Lemma typedb_spec ds : forall dims, typedb ds dims = true <-> Forall2 dim_ok ds dims.
Proof.
  induction ds as [|d ds IH]; intros [|n dims]; cbn [typedb]; split; intros H; try discriminate; try constructor;
    try (now inversion H); destruct d as [k|]; try discriminate.
  - apply andb_true_iff in H as [H _]. apply Z.eqb_eq in H. cbn. auto.
  - exact I.
  - apply andb_true_iff in H as [_ H]. now apply IH.
  - now apply IH.
  - inversion H as [|? ? ? ? H1 H2]; subst. apply andb_true_iff. split; [|now apply IH]. cbn in H1. apply Z.eqb_eq. auto.
  - inversion H; subst. now apply IH.
Qed.
Lemma has_ty_spec ty dims : has_ty ty dims = true <-> typed ty dims.
Proof. destruct ty; cbn; [tauto|apply typedb_spec]. Qed.
Lemma has_ty_accepts ty dims : has_ty ty dims = accepts ty dims.
Proof. apply eq_true_iff_eq. now rewrite has_ty_spec, accepts_typed. Qed.

Lemma sizes_eq_spec a : forall b, sizes_eq a b = true <-> a = b.
Proof.
  induction a as [|x a IH]; intros [|y b]; cbn [sizes_eq]; split; intros H; try discriminate; auto.
  - apply andb_true_iff in H as [H1 H2]. apply Z.eqb_eq in H1. apply IH in H2. congruence.
  - injection H as -> ->. rewrite Z.eqb_refl. now apply IH.
Qed.
Lemma goes_with_spec a b : goes_with a b = true <-> trailing_eq a b /\ (length b <= length a)%nat.
Proof.
  unfold goes_with, trailing_eq. rewrite andb_true_iff, Nat.leb_le, sizes_eq_spec. split; intros [H1 H2]; split; auto.
  - rewrite Nat.min_r by auto. rewrite H2. unfold lastn. now rewrite Nat.sub_diag.
  - rewrite Nat.min_r in H1 by auto. rewrite H1. unfold lastn. now rewrite Nat.sub_diag.
Qed.

Lemma meets_spec len req : nonneg req -> meets len req = true <-> fits (known req) /\ resolves len req (resolved len req).
Proof.
  intros HN. unfold meets. rewrite andb_true_iff, fitsb_spec.
  destruct (request_cases req) as [[Hno Hc]|(a & b & -> & Ha & [[Hb Hc]|[Hb Hc]])].
  - assert (EI : inferred req = 0%nat) by (apply count_occ_not_In; exact Hno). rewrite EI, resolved_no by auto.
    split; intros [H1 H2]; split; auto.
    + left. apply Z.eqb_eq in H2. auto.
    + destruct H2 as [(_ & _ & H)|(H & _)]; [now apply Z.eqb_eq|congruence].
  - rewrite resolved_one by auto. rewrite known_one by auto.
    assert (EI : inferred (a ++ usize_max :: b) = 1%nat).
    { unfold inferred. rewrite count_occ_app. cbn [count_occ]. destruct (Z.eq_dec usize_max usize_max); [|congruence].
      rewrite (proj1 (count_occ_not_In Z.eq_dec a usize_max) Ha), (proj1 (count_occ_not_In Z.eq_dec b usize_max) Hb). reflexivity. }
    rewrite EI, andb_true_iff, negb_true_iff, Z.eqb_neq, Z.eqb_eq.
    assert (EP : forall x, prodZ (a ++ x :: b) = x * prodZ (a ++ b)) by (intros; rewrite !prodZ_app, prodZ_cons; ring).
    split; intros [H1 H2]; split; auto.
    + destruct H2 as [H2 H3]. right. split; [auto|]. split; [|split].
      * apply Forall2_app; [|constructor; [now left|]].
        -- clear. induction a; constructor; auto.
        -- clear. induction b; constructor; auto.
      * now rewrite known_one.
      * rewrite EP. pose proof (Z.div_mod len (prodZ (a ++ b)) H2). lia.
    + destruct H2 as [(H & _)|(_ & _ & H & E)]; [congruence|]. rewrite known_one in H by auto. split; [exact H|].
      rewrite EP in E. rewrite <- E at 1. apply Z.mod_mul. exact H.
  - assert (EI : exists n, inferred (a ++ usize_max :: b) = S (S n)).
    { unfold inferred. rewrite count_occ_app. cbn [count_occ]. destruct (Z.eq_dec usize_max usize_max); [|congruence].
      apply (count_occ_In Z.eq_dec) in Hb. exists (count_occ Z.eq_dec a usize_max + count_occ Z.eq_dec b usize_max - 1)%nat. lia. }
    destruct EI as [n EI]. rewrite EI. split; intros [_ H]; [discriminate|]. destruct H as [(H & _)|(H & _)]; congruence.
Qed.

Lemma resolves_resolved len req nd : resolves len req nd -> nd = resolved len req.
Proof.
  intros [(H & -> & _)|(H & F & HP & E)].
  - rewrite resolved_no; auto. now apply (count_occ_not_In Z.eq_dec).
  - destruct (request_cases req) as [[Hno Hc]|(a & b & -> & Ha & [[Hb Hc]|[Hb Hc]])].
    + apply (count_occ_not_In Z.eq_dec) in Hno. unfold inferred in H. congruence.
    + rewrite resolved_one by auto. rewrite known_one in HP by auto.
      apply Forall2_app_inv_l in F as (a' & r & Fa & Fr & ->). inversion Fr as [|? x ? b' Hx Fb]; subst.
      assert (SAME : forall l l', ~ In usize_max l -> Forall2 (fun r d => r = usize_max \/ d = r) l l' -> l' = l).
      { clear. intros l l' N G. induction G as [|r d l l' [E|E] G IH]; auto.
        - subst. exfalso. apply N. now left.
        - subst. f_equal. apply IH. intros X. apply N. now right. }
      rewrite (SAME a a'), (SAME b b') in * by auto. do 2 f_equal.
      rewrite !prodZ_app, prodZ_cons. rewrite prodZ_app in HP. replace (prodZ a * (x * prodZ b)) with (x * (prodZ a * prodZ b)) by ring. now rewrite Z.div_mul.
    + exfalso. unfold inferred in H. rewrite count_occ_app in H. cbn [count_occ] in H. destruct (Z.eq_dec usize_max usize_max); [|congruence].
      apply (count_occ_In Z.eq_dec) in Hb. lia.
Qed.

Lemma axis_in_spec a rank : axis_in a rank = true <-> is_axis a rank (axis_dim a rank).
Proof. unfold is_axis. destruct a; cbn [axis_in axis_dim]; rewrite ?Nat.ltb_lt, ?Nat.leb_le; intuition lia. Qed.
Lemma axis_exists a rank (P : nat -> Prop) : (exists p, is_axis a rank p /\ P p) <-> axis_in a rank = true /\ P (axis_dim a rank).
Proof.
  rewrite axis_in_spec. split.
  - intros (p & H & HP). rewrite (axis_dim_is H). auto.
  - intros [H HP]. eauto.
Qed.

Lemma in_range_spec lo hi d : in_range lo hi d = true <-> range_lo lo <= range_hi d hi <= d.
Proof. unfold in_range. rewrite andb_true_iff, !Z.leb_le. reflexivity. Qed.
Lemma ix_fits_spec d x : ix_fits d x = true <-> ix_ok d x.
Proof.
  destruct x; cbn [ix_fits ix_ok]; rewrite ?Z.ltb_lt, ?in_range_spec; try reflexivity; [tauto|].
  rewrite andb_true_iff, in_range_spec, negb_true_iff, Z.eqb_neq. reflexivity.
Qed.
Lemma all_fit_spec dims : forall xs, all_fit dims xs = true <-> Forall2 ix_ok dims xs.
Proof.
  induction dims as [|d dims IH]; intros [|x xs]; cbn [all_fit]; split; intros H; try discriminate; try constructor; try (now inversion H).
  - apply andb_true_iff in H as [H _]. now apply ix_fits_spec.
  - apply andb_true_iff in H as [_ H]. now apply IH.
  - inversion H; subst. apply andb_true_iff. split; [now apply ix_fits_spec|now apply IH].
Qed.
Lemma permutes_spec n perm : permutes n perm = true <-> perm_of n perm.
Proof.
  unfold permutes, perm_of. rewrite andb_true_iff, Nat.eqb_eq, forallb_forall. split.
  - intros [HL H]. symmetry. apply NoDup_Permutation_bis.
    + apply FinFun.Injective_map_NoDup; [|apply seq_NoDup]. intros x y E. lia.
    + rewrite map_length, seq_length. lia.
    + intros z I. apply in_map_iff in I as (k & <- & I). specialize (H k I). apply existsb_exists in H as (y & Iy & E).
      apply Z.eqb_eq in E. now rewrite E.
  - intros H. split; [rewrite (Permutation_length H), map_length, seq_length; reflexivity|].
    intros k I. apply existsb_exists. exists (Z.of_nat k). split; [|apply Z.eqb_refl].
    eapply Permutation_in; [symmetry; exact H|]. now apply in_map.
Qed.

Lemma op_works_spec dims o : op_given dims o -> op_works dims o = true <-> op_fits dims o.
Proof.
  intros HG. destruct o; cbn [op_works op_fits]; rewrite ?andb_true_iff.
  - rewrite axis_exists, Z.ltb_lt. reflexivity.
  - rewrite axis_exists, Z.leb_le. reflexivity.
  - rewrite axis_exists, Z.leb_le. reflexivity.
  - apply all_fit_spec.
  - apply permutes_spec.
  - tauto.
  - cbn in HG. rewrite has_ty_spec, meets_spec; [tauto|]. destruct HG as [HG _]. eapply Forall_impl; [|exact HG]. unfold usize. intros; cbv beta in *; lia.
  - tauto.
  - apply has_ty_spec.
  - destruct dims as [|d0 [|d1 [|]]]; try (split; [discriminate|intros (? & ? & E & _); discriminate E]).
    rewrite Z.ltb_lt. split; [eauto|]. intros (? & ? & E & H). now injection E as <- <-.
  - destruct dims as [|d0 [|d1 [|]]]; try (split; [discriminate|intros (? & ? & E & _); discriminate E]).
    rewrite Z.ltb_lt. split; [eauto|]. intros (? & ? & E & H). now injection E as <- <-.
  - destruct dims as [|d0 [|d1 [|]]]; try (split; [discriminate|intros (? & ? & E & _); discriminate E]).
    rewrite andb_true_iff, !Z.leb_le. split; [eauto|]. intros (? & ? & E & H). injection E as <- <-. lia.
Qed.
Lemma chain_works_spec ops : forall dims, chain_given dims ops -> chain_works dims ops = true <-> chain_fits dims ops.
Proof.
  induction ops as [|o ops IH]; intros dims HG; cbn [chain_works chain_fits chain_given] in *; [tauto|].
  destruct HG as [H1 H2]. rewrite andb_true_iff, (op_works_spec H1). split; intros [K1 K2]; split; auto; now apply (IH _ (H2 K1)).
Qed.

(** ** Elements *)

Lemma at_all {T} dims (els : list T) (f : list Z -> list Z) l xs :
  Forall2 (fun idx x => elem dims els (f idx) = Some x) l xs -> at_indices dims els (map f l) = xs.
Proof.
  intros H. unfold at_indices. induction H as [|idx x l xs E H IH]; cbn [map flat_map]; auto.
  unfold elem in E. rewrite E. cbn [app]. now rewrite IH.
Qed.

Lemma combine_nth_error {A B} (l : list A) (m : list B) p :
  nth_error (combine l m) p = match nth_error l p, nth_error m p with Some a, Some b => Some (a, b) | _, _ => None end.
Proof.
  revert m p. induction l as [|a l IH]; intros [|b m] [|p]; cbn; auto.
  - now destruct (nth_error l p).
Qed.
Lemma zrange_nth_error n p : (p < Z.to_nat n)%nat -> nth_error (zrange n) p = Some (Z.of_nat p).
Proof.
  intros H. unfold zrange. rewrite nth_error_map. rewrite (nth_error_nth' _ 0%nat) by (now rewrite seq_length).
  rewrite seq_nth by auto. reflexivity.
Qed.
Lemma nth_error_ext' {A} (l m : list A) : (forall p, nth_error l p = nth_error m p) -> l = m.
Proof.
  revert m. induction l as [|a l IH]; intros [|b m] H; auto.
  - specialize (H 0%nat). discriminate H.
  - specialize (H 0%nat). discriminate H.
  - pose proof (H 0%nat) as H0. injection H0 as ->. f_equal. apply IH. intros p. apply (H (S p)).
Qed.

Lemma written_eq {T} (a : arr T) ops news mem' :
  nonneg (a_dims a) -> zlen (a_els a) = prodZ (a_dims a) ->
  (forall idx, in_bounds (chain_dims (a_dims a) ops) idx -> in_bounds (a_dims a) (chain_index (a_dims a) ops idx)) ->
  selected_changed (a_dims a) ops news (a_els a) mem' -> mem' = written a ops news.
Proof.
  intros HN HL HB (L & A & B). unfold written. set (dims := a_dims a) in *. set (els := a_els a) in *. cbv zeta.
  apply nth_error_ext'. intros p. rewrite nth_error_map, combine_nth_error.
  destruct (Nat.lt_ge_cases p (length els)) as [Lp|Lp].
  2:{ rewrite (proj2 (nth_error_None els p)) by lia. rewrite (proj2 (nth_error_None mem' p)) by lia. now destruct (nth_error _ p). }
  rewrite zrange_nth_error by (unfold zlen; lia).
  destruct (nth_error els p) as [x|] eqn:Ex; [|apply nth_error_None in Ex; lia]. cbn [option_map fst snd].
  destruct (find _ (indices (chain_dims dims ops))) as [idx|] eqn:EF.
  - apply find_some in EF as [I E]. apply in_indices in I. apply Z.eqb_eq in E.
    specialize (A idx I). unfold elem in A. rewrite E, Nat2Z.id in A. rewrite A.
    destruct (nth_error news _) as [[y|]|]; auto.
  - assert (U : in_bounds dims (unflat dims (Z.of_nat p))) by (apply unflat_in_bounds; auto; unfold zlen in HL; lia).
    assert (FU : flat dims (unflat dims (Z.of_nat p)) = Z.of_nat p) by (apply flat_unflat; auto; unfold zlen in HL; lia).
    specialize (B _ U). unfold elem in B. rewrite FU, Nat2Z.id in B. rewrite B; auto.
    intros idx I E. apply in_indices in I. pose proof (find_none _ _ EF _ I) as N. cbv beta in N. apply Z.eqb_neq in N.
    apply N. rewrite E. exact FU.
Qed.

(** ** Views of the tensor in a variable *)

Lemma as_arr_dims {T} (t : tensor T) : a_dims (as_arr t) = tn_dims t. Proof. reflexivity. Qed.

Lemma views_run {T} (t : tensor T) ops : tensor_ok t -> views (as_arr t) ops ->
  view_arg t ops /\
  ((v_run (whole (tn_ty t) (tn_dims t)) ops = Panic /\ chain_works (tn_dims t) ops = false /\ ~ chain_fits (tn_dims t) ops) \/
   (exists v, v_run (whole (tn_ty t) (tn_dims t)) ops = Ok v /\ chain_works (tn_dims t) ops = true /\ chain_fits (tn_dims t) ops /\
      v_dims v = chain_dims (tn_dims t) ops /\ valid_view (zlen (tn_mem t)) v /\
      shows (whole (tn_ty t) (tn_dims t)) v (chain_index (tn_dims t) ops) /\
      contents (tn_mem t) v (view_els (as_arr t) ops))).
Proof.
  intros Ht (HS & HL & HR & HG & HA). cbn [as_arr a_dims a_els] in *.
  assert (HD : Forall (fun d => d <= usize_max) (tn_dims t)) by (eapply Forall_impl; [|exact HS]; intros; cbv beta in *; lia).
  split; [now apply given_view_arg|].
  destruct (@c77_chain_panics T t ops Ht HS HL HR HG HA) as [HP HO]. cbv zeta in *.
  assert (Hn : 0 <= zlen (tn_mem t) <= usize_max) by (unfold zlen in *; lia).
  assert (HV : valid_view (zlen (tn_mem t)) (whole (tn_ty t) (tn_dims t))) by (apply whole_valid; try apply Ht; unfold zlen; rewrite (to_len Ht); lia).
  destruct (chain_works (tn_dims t) ops) eqn:EW.
  - right. apply (chain_works_spec HG) in EW as F. destruct (proj2 HO F) as [v E]. exists v.
    destruct (@run_index (zlen (tn_mem t)) ops _ v Hn HV HD HG E) as (_ & D & V & _ & SH). change (v_dims (whole (tn_ty t) (tn_dims t))) with (tn_dims t) in *.
    do 6 (split; [assumption || reflexivity|]).
    destruct (contents_exist (mem := tn_mem t) V) as [xs HX].
    replace (view_els (as_arr t) ops) with xs; [exact HX|]. symmetry. unfold view_els. cbn [as_arr a_dims a_els]. apply at_all.
    unfold contents in HX. rewrite D in HX.
    assert (G : forall l, (forall idx, In idx l -> in_bounds (v_dims v) idx) -> forall ys,
      Forall2 (fun idx x => v_get (tn_mem t) v idx = Ok x) l ys -> Forall2 (fun idx x => elem (tn_dims t) (tn_mem t) (chain_index (tn_dims t) ops idx) = Some x) l ys).
    { intros l Hl ys Q. induction Q as [|idx x l ys EX Q IH]; constructor.
      - assert (B : in_bounds (v_dims v) idx) by (apply Hl; now left). destruct (SH idx B) as [Bf A].
        rewrite (@whole_addr (tn_ty t) (tn_dims t) _ Bf) in A. rewrite v_get_in in EX by exact B.
        destruct (read_ok (vv_range V B)) as (y & R & R'). rewrite R in EX. injection EX as ->. unfold elem. now rewrite <- A.
      - apply IH. intros j J. apply Hl. now right. }
    apply G; auto. intros idx I. apply in_indices in I. now rewrite D.
  - left. assert (F : ~ chain_fits (tn_dims t) ops) by (intros F; apply (chain_works_spec HG) in F; congruence).
    split; [now apply HP|]. auto.
Qed.

Lemma walked_visits {T} (t : tensor T) ops v : v_run (whole (tn_ty t) (tn_dims t)) ops = Ok v -> v_dims v = chain_dims (tn_dims t) ops ->
  walked (as_arr t) ops -> visits_right v.
Proof.
  intros E D [->|H].
  - injection E as <-. left. reflexivity.
  - right. rewrite D. exact H.
Qed.

Lemma shows_inside ty dims v ops : shows (whole ty dims) v (chain_index dims ops) -> v_dims v = chain_dims dims ops ->
  forall idx, in_bounds (chain_dims dims ops) idx -> in_bounds dims (chain_index dims ops idx).
Proof. intros SH D idx B. rewrite <- D in B. exact (proj1 (SH idx B)). Qed.

(** What a write leaves. *)
Lemma rewritten_written {T} (t : tensor T) ops v news mem' : tensor_ok t ->
  shows (whole (tn_ty t) (tn_dims t)) v (chain_index (tn_dims t) ops) -> v_dims v = chain_dims (tn_dims t) ops ->
  rewritten (v_dims v) (v_addr v) news (tn_mem t) mem' -> mem' = written (as_arr t) ops news.
Proof.
  intros Ht SH D H. apply written_eq; cbn [as_arr a_dims a_els].
  - apply Ht.
  - apply (to_len Ht).
  - eapply shows_inside; eauto.
  - eapply rewritten_selected; eauto.
Qed.

(** ** Operands *)

Lemma produce_reads {T} (mem : list T) (g : list Z -> Z) l xs : Forall2 (fun idx x => read mem (g idx) = Ok x) l xs ->
  produce (fun_action (read mem) (pure_action g)) l tt = (xs, Ok tt).
Proof.
  intros H. induction H as [|idx x l xs E H IH]; [reflexivity|]. cbn [produce]. unfold fun_action at 1, pure_action at 1. cbn [bind]. rewrite E. cbn [bind].
  now rewrite IH.
Qed.

Lemma rvar_seen {T C} (st : state T C) i : rvar (seen st) i = option_map as_arr (var st i).
Proof. unfold rvar, var, seen. cbn [r_vars]. rewrite nth_error_map. destruct (nth_error (st_vars st) i) as [[t|]|]; reflexivity. Qed.

(** The tree of a view of a tensor whose elements are read. *)
Definition lent {T} (t : tensor T) (v : view) : tree T := TCopied (read (tn_mem t)) (TView (zlen (tn_mem t)) true v).

Record lent_ok {T C} (st : state T C) (j : nat) (ops : list vop) (t : tensor T) (v : view) : Prop := {
  le_var : var st j = Some t;
  le_ok : tensor_ok t;
  le_run : v_run (whole (tn_ty t) (tn_dims t)) ops = Ok v;
  le_op : t_build (lent t v) = Ok (operand st j ops);
  le_dims : v_dims v = chain_dims (tn_dims t) ops;
  le_valid : valid_view (zlen (tn_mem t)) v;
  le_safe : t_safe (lent t v);
  le_items : forall dims, goes_with dims (v_dims v) = true ->
    produce (bcast (length (v_dims v)) (t_act (lent t v))) (indices dims) tt = (operand_els (as_arr t) ops dims, Ok tt)
    /\ length (operand_els (as_arr t) ops dims) = length (indices dims);
  le_all : produce (t_act (lent t v)) (indices (v_dims v)) tt = (view_els (as_arr t) ops, Ok tt)
}.

Lemma lends_ok {T C} (st : state T C) l i j ops : consistent st l -> lends i j ops (seen st) -> exists t v, lent_ok st j ops t v.
Proof.
  intros HC (_ & b & HV & HW & HF). rewrite rvar_seen in HV. destruct (var st j) as [t|] eqn:EV; [|discriminate]. injection HV as <-.
  pose proof (var_ok HC EV) as Ht. destruct (views_run Ht HW) as [HA [(_ & _ & N)|(v & E & _ & _ & D & V & SH & HX)]]; [contradiction|].
  assert (RD : forall idx, in_bounds (v_dims v) idx -> exists x, read (tn_mem t) (v_addr v idx) = Ok x /\
    elem (tn_dims t) (tn_mem t) (chain_index (tn_dims t) ops idx) = Some x).
  { intros idx B. destruct (SH idx B) as [Bf A]. rewrite (@whole_addr (tn_ty t) (tn_dims t) _ Bf) in A.
    destruct (read_ok (vv_range V B)) as (x & R & R'). exists x. split; [exact R|]. unfold elem. now rewrite <- A. }
  assert (IT : forall (f : list Z -> list Z) l0, (forall idx, In idx l0 -> in_bounds (v_dims v) (f idx)) -> exists ys,
    Forall2 (fun idx x => read (tn_mem t) (v_addr v (f idx)) = Ok x) l0 ys /\
    Forall2 (fun idx x => elem (tn_dims t) (tn_mem t) (chain_index (tn_dims t) ops (f idx)) = Some x) l0 ys).
  { intros f l0. induction l0 as [|idx l0 IH]; intros HB; [exists []; split; constructor|].
    destruct IH as (ys & F1 & F2); [intros; apply HB; now right|]. destruct (RD (f idx)) as (x & R1 & R2); [apply HB; now left|].
    exists (x :: ys). split; constructor; auto. }
  exists t, v. constructor; auto.
  - unfold lent, operand. rewrite EV, E. reflexivity.
  - intros idx s B. unfold lent. cbn [t_act]. unfold fun_action, pure_action. cbn [bind]. destruct (RD idx B) as (x & R & _). rewrite R. exact I.
  - intros dims HG. apply goes_with_spec in HG as [H1 H2].
    destruct (IT (lastn (length (v_dims v))) (indices dims)) as (ys & F1 & F2).
    { intros idx I. apply in_indices in I. apply (in_bounds_lastn (length (v_dims v))) in I.
      unfold trailing_eq in H1. rewrite Nat.min_r in H1 by auto. rewrite H1 in I. unfold lastn in I at 1. rewrite Nat.sub_diag in I. exact I. }
    assert (EY : operand_els (as_arr t) ops dims = ys).
    { unfold operand_els. cbn [as_arr a_dims a_els]. rewrite <- D.
      apply (at_all (f := fun idx => chain_index (tn_dims t) ops (lastn (length (v_dims v)) idx))). exact F2. }
    rewrite EY. split; [|clear - F2; induction F2; cbn [length]; congruence].
    apply (@produce_reads T (tn_mem t) (fun idx => v_addr v (lastn (length (v_dims v)) idx))). exact F1.
  - destruct (IT (fun idx => idx) (indices (v_dims v))) as (ys & F1 & F2); [intros idx I; now apply in_indices|].
    assert (EY : view_els (as_arr t) ops = ys) by (unfold view_els; cbn [as_arr a_dims a_els]; rewrite <- D; apply at_all; exact F2).
    rewrite EY. apply produce_reads. exact F1.
Qed.

Lemma lent_fits {T} (t : tensor T) v dims : operand_fits dims (lent t v) <-> goes_with dims (v_dims v) = true.
Proof. rewrite goes_with_spec. unfold operand_fits, lent. cbn [t_dims t_rep]. tauto. Qed.

Lemma lent_fine {T} n (t : tensor T) u v : positive (v_dims u) -> operand_fits (v_dims u) (lent t v) ->
  t_fine (with_target n u (lent t v)).
Proof.
  intros HP HO. split.
  - unfold with_target, lent. cbn [t_need]. lia.
  - left. rewrite with_target_dims by exact HO. unfold positive in *. now apply Forall_firstn'.
Qed.

(** The items of the operand. *)
Lemma lent_collect {T C} (st : state T C) j ops t v : lent_ok st j ops t v -> visits_right v ->
  let e := operand st j ops in
  honest e /\ e_dims e = v_dims v /\ e_collect e = Ok (view_els (as_arr t) ops) /\ zlen (view_els (as_arr t) ops) = prodZ (e_dims e).
Proof.
  intros H HF e. assert (FI : t_fine (lent t v)) by exact (view_tree_fine (zlen (tn_mem t)) true (vv_wf (le_valid H)) HF).
  destruct (@tree_honest T (lent t v) e (le_valid H) (le_op H) FI (le_safe H)) as (A & _ & B & P & Q).
  change (t_dims (lent t v)) with (v_dims v) in *. change (t_init (lent t v)) with tt in *. rewrite (le_all H) in *. cbn [fst snd] in *.
  specialize (Q tt eq_refl). split; [exact A|]. split; [exact B|].
  assert (ET : e_trace e = (view_els (as_arr t) ops, Ok tt)) by (rewrite (surjective_pairing (e_trace e)); congruence).
  split; [now apply e_collect_trace|]. destruct A as (_ & _ & [[_ L]|L]); [rewrite ET in L; exact L|rewrite ET in L; discriminate L].
Qed.

(** ** Steps *)

Lemma map_upd {A B} (f : A -> B) l i x : map f (upd l i x) = upd (map f l) i (f x).
Proof. revert i. induction l as [|y l IH]; intros [|i]; cbn; auto. now rewrite IH. Qed.
Lemma seen_set {T C} i (v : option (tensor T)) w (st : state T C) :
  seen (set_var i v w st) = mkRef (upd (r_vars (seen st)) i (option_map as_arr v)) (w_clo w) (w_used w).
Proof. unfold seen, set_var. cbn [st_vars st_w r_vars]. now rewrite map_upd. Qed.
Lemma seen_nth {T C} (st : state T C) i t : var st i = Some t -> nth_error (r_vars (seen st)) i = Some (Some (as_arr t)).
Proof. intros H. unfold seen. cbn [r_vars]. now rewrite nth_error_map, (var_nth H). Qed.
Lemma seen_same {T C} (st : state T C) i t t' w : var st i = Some t -> as_arr t' = as_arr t -> w_clo w = w_clo (st_w st) ->
  w_used w = w_used (st_w st) -> seen (set_var i (Some t') w st) = seen st.
Proof.
  intros HV ET EC EU. rewrite seen_set. cbn [option_map]. rewrite ET, EC, EU, upd_self by (now apply seen_nth). reflexivity.
Qed.

Lemma on_var_done {T C A} i (m : M (tensor T * world T C) A) st t a t' w' : var st i = Some t -> m (t, st_w st) = Done a (t', w') ->
  on_var i m st = Done tt (set_var i (Some t') w' st).
Proof. intros HV E. unfold on_var. now rewrite HV, E. Qed.
Lemma on_var_unwound {T C A} i (m : M (tensor T * world T C) A) st t t' w' : var st i = Some t -> m (t, st_w st) = Unwound (t', w') ->
  on_var i m st = Done tt (set_var i (Some t') w' st).
Proof. intros HV E. unfold on_var. now rewrite HV, E. Qed.
Lemma on_var_finished {T C} i (m : M (tensor T * world T C) unit) st t (b : bool) t' w' : var st i = Some t ->
  m (t, st_w st) = (if b then Done tt (t', w') else Unwound (t', w')) -> on_var i m st = Done tt (set_var i (Some t') w' st).
Proof. intros HV E. destruct b; [eapply on_var_done|eapply on_var_unwound]; eauto. Qed.

Section Steps.
  Context {T C : Type} (al : allocator) (Hal : forall n, al_ok al n = true).

  Lemma rows_seen (t : tensor T) : match rows (as_arr t) with
    | Some (n, ds) => has_rows t n ds
    | None => forall n ds, ~ has_rows t n ds
    end.
  Proof.
    unfold rows, has_rows. cbn [as_arr a_dims a_ty]. destruct (tn_dims t) as [|n ds].
    - intros n ds [E _]. discriminate E.
    - destruct (sh_head (tn_ty t)); [|auto]. intros ? ? [_ E]. discriminate E.
  Qed.

  (** Conditions of the commands. *)
  Lemma one_code_ok (k : act T C) (st : state T C) l i t : consistent st l -> on k = Some i -> var st i = Some t ->
    one_ok k (as_arr t) (seen st) -> cmd_ok (code k st) st.
  Proof.
    intros HC HI HV HO. pose proof (var_ok HC HV) as Ht.
    assert (ON : forall ops (P : tensor T -> view -> Prop), views (as_arr t) ops ->
      (forall v, v_run (whole (tn_ty t) (tn_dims t)) ops = Ok v -> v_dims v = chain_dims (tn_dims t) ops -> chain_fits (tn_dims t) ops ->
         valid_view (zlen (tn_mem t)) v -> P t v) ->
      forall t', var st i = Some t' -> view_arg t' ops /\ forall v, v_run (whole (tn_ty t') (tn_dims t')) ops = Ok v -> P t' v).
    { intros ops P HW HP t' E. rewrite HV in E. injection E as <-.
      destruct (views_run Ht HW) as [HA [(E & _ & _)|(v & E & _ & F & D & V & _)]]; (split; [exact HA|]); intros v' E'; rewrite E in E'; [discriminate|].
      injection E' as <-. now apply HP. }
    destruct k; cbn [on] in HI; try discriminate HI; injection HI as <-; cbn [one_ok code cmd_ok op_ok] in *; auto.
    - destruct HO as [HL HO]. destruct (lends_ok HC HL) as (u & v & LO). specialize (HO (as_arr u)). rewrite rvar_seen, (le_var LO) in HO.
      pose proof (HO eq_refl) as HW. eapply lent_collect; eauto. eapply walked_visits; eauto; apply LO.
    - intros t' E. rewrite HV in E. injection E as <-. apply HO.
    - apply HO.
    - apply HO.
    - destruct HO as (H1 & H2 & H3). split; [exact H1|]. split; [exact H2|]. intros t' E. rewrite HV in E. injection E as <-. exact H3.
    - destruct HO as [H1 H2]. split; [exact H1|]. intros t' u E1 E2. rewrite HV in E1. injection E1 as <-.
      specialize (H2 (as_arr u)). rewrite rvar_seen, E2 in H2. symmetry. apply (H2 eq_refl).
    - apply HO.
    - destruct HO as (H1 & H2 & H3 & _). split; [exact H1|]. split; [|exact H3]. apply has_ty_spec in H2.
      destruct ty; cbn in *; [exact I|]. symmetry. exact (Forall2_len H2).
    - intros t' E. rewrite HV in E. injection E as <-. destruct HO as [HL HP]. destruct (lends_ok HC HL) as (u & v & LO).
      apply (@tree_zips T T t (lent u v)); auto; try apply LO. intros HF. apply lent_fine; [exact HP|exact HF].
    - destruct HO as [HW HF]. apply ON; auto. intros v E D F V. eapply walked_visits; eauto.
    - destruct HO as (HW & HL & HP). destruct (lends_ok HC HL) as (u & v' & LO). apply ON; auto. intros v E D F V.
      apply (@tree_vzips T _ v (lent u v')); auto; try apply LO. intros HF. apply lent_fine; [|exact HF]. rewrite D. now apply HP.
    - destruct HO as [HW HF]. apply ON; auto. intros v E D F V. eapply walked_visits; eauto.
    - destruct HO as [HW HF]. apply ON; auto. intros v E D F V. eapply walked_visits; eauto.
    - destruct HO as [HW HF]. apply ON; auto.
    - destruct HO as [HW HF]. apply ON; auto.
    - destruct HO as (H1 & H2 & HP). split; apply ON; auto. intros v E D F V. rewrite D. now apply HP.
  Qed.

  Definition done_as (o : result (state T C) unit) (s : rstate T C) : Prop := exists st', o = Done tt st' /\ seen st' = s.

  Lemma set_done st i t m t' w' (a : unit) s : var st i = Some t -> m (t, st_w st) = Done a (t', w') ->
    seen (set_var i (Some t') w' st) = s -> done_as (on_var (T := T) (C := C) i m st) s.
  Proof. intros HV E S. eexists. split; [eapply on_var_done; eauto|exact S]. Qed.
  Lemma set_unwound st i t (m : M (tensor T * world T C) unit) t' w' s : var st i = Some t -> m (t, st_w st) = Unwound (t', w') ->
    seen (set_var i (Some t') w' st) = s -> done_as (on_var i m st) s.
  Proof. intros HV E S. eexists. split; [eapply on_var_unwound; eauto|exact S]. Qed.
  Lemma set_consumed st i t m v w' s : var st i = Some t -> m t (st_w st) = Done v w' ->
    seen (set_var i v w' st) = s -> done_as (consume (T := T) (C := C) i m st) s.
  Proof. intros HV E S. unfold consume. rewrite HV, E. eexists. split; [reflexivity|exact S]. Qed.
  Lemma set_gone st i t m w' s : var st i = Some t -> m t (st_w st) = Unwound w' ->
    seen (set_var i None w' st) = s -> done_as (consume (T := T) (C := C) i m st) s.
  Proof. intros HV E S. unfold consume. rewrite HV, E. eexists. split; [reflexivity|exact S]. Qed.

  Ltac same := first [ eassumption | reflexivity ].

  Lemma clone_exec st i t cl : tensor_ok t -> var st i = Some t ->
    done_as (step al (Clone i cl) st) (r_one (AClone i cl) (as_arr t) (seen st)).
  Proof.
    intros Ht HV. cbn [step r_one]. rewrite HV. unfold create. rewrite c47_clone by auto. cbn [as_arr a_els a_dims a_ty with_els].
    change (r_clo (seen st)) with (w_clo (st_w st)). destruct (gives _ _) as [[ys c] [|]]; (eexists; split; [reflexivity|]).
    - unfold seen, r_new, r_code. cbn [st_vars st_w r_vars r_clo r_out]. rewrite map_app. reflexivity.
    - reflexivity.
  Qed.

  Lemma expand_exec st l i j ops cl t : consistent st l -> var st i = Some t -> one_ok (AExpand i j ops cl) (as_arr t) (seen st) ->
    done_as (step al (Expand i (operand st j ops) cl) st) (r_one (AExpand i j ops cl) (as_arr t) (seen st)).
  Proof.
    intros HC HV [HL HO]. pose proof (var_ok HC HV) as Ht. destruct (lends_ok HC HL) as (u & v & LO). specialize (HO (as_arr u)).
    rewrite rvar_seen, (le_var LO) in HO. pose proof (HO eq_refl) as HW. clear HO.
    assert (VR : visits_right v) by (eapply walked_visits; eauto; apply LO).
    destruct (lent_collect LO VR) as (HH & ED & EC & EZ). cbv zeta in *.
    cbn [step r_one]. rewrite rvar_seen, (le_var LO). cbn [option_map]. pose proof (rows_seen t) as RS.
    destruct (rows (as_arr t)) as [[n ds]|].
    2:{ eapply set_unwound; [eauto|apply c32_no_rows; exact RS|]. apply (seen_same HV); reflexivity. }
    change (a_dims (as_arr u)) with (tn_dims u). rewrite <- (le_dims LO), <- ED. set (e := operand st j ops) in *. cbn [as_arr a_dims a_els a_ty].
    change (r_clo (seen st)) with (w_clo (st_w st)). destruct (gives (map cl (view_els (as_arr u) ops)) (w_clo (st_w st))) as [[ys c] ok] eqn:G.
    assert (HN : nonneg (e_dims e)) by apply HH. pose proof (prodZ_nonneg HN) as P0. pose proof (prodZ_nonneg (to_nonneg Ht)) as T0.
    destruct (Z.eqb_spec (prodZ (e_dims e)) 0) as [E0|E0].
    { eapply set_done; [eauto|eapply c32_nothing; [exact RS|lia]|]. apply (seen_same HV); reflexivity. }
    destruct (Z.eqb_spec (prodZ (tn_dims t)) 0) as [E1|E1].
    - destruct (has_ty (tn_ty t) (e_dims e)) eqn:EH.
      + apply has_ty_spec in EH. destruct ok.
        2:{ destruct (@c79_expand T T C al e cl _ ys c t (st_w st) n ds Ht RS Hal HN ltac:(lia) EC EZ) as [_ (cap & _ & E)]; [lia|auto|exact G|].
            eapply set_unwound; [eauto|exact E|]. rewrite seen_set. reflexivity. }
        destruct (@c32_expand_empty T T C al e cl _ ys c t (st_w st) n ds Ht RS E1 Hal HN EH ltac:(lia) EC EZ G) as (cap & _ & E).
        eapply set_done; [eauto|exact E|]. rewrite seen_set. reflexivity.
      + destruct (@c32_mismatch_partial T T C al e cl t (st_w st) n ds Ht RS Hal ltac:(lia)) as (cap & _ & E); [lia| |].
        * intros _ X. apply has_ty_spec in X. congruence.
        * eapply set_unwound; [eauto|exact E|]. apply (seen_same HV); reflexivity.
    - assert (MIS : tl (e_dims e) <> ds \/ e_dims e = [] -> done_as (on_var i (tn_expand al e cl) st) (seen st)).
      { intros HM. destruct (@c32_mismatch_partial T T C al e cl t (st_w st) n ds Ht RS Hal ltac:(lia)) as (cap & _ & E); [auto|lia|].
        eapply set_unwound; [eauto|exact E|]. apply (seen_same HV); reflexivity. }
      case_eq (e_dims e); [intros X; apply MIS; now right|]. intros m bt EE.
      destruct (sizes_eq bt ds) eqn:ES; [|apply MIS; left; rewrite EE; cbn; intros X; apply sizes_eq_spec in X; congruence].
      apply sizes_eq_spec in ES as ->.
      assert (Hm : 0 < m). { rewrite EE in HN, E0, P0. inversion HN; subst. rewrite prodZ_cons in E0. assert (m <> 0) by (intros ->; lia). lia. }
      destruct ok.
      2:{ destruct (@c79_expand T T C al e cl _ ys c t (st_w st) n ds Ht RS Hal HN ltac:(lia) EC EZ) as [_ (cap & _ & E)]; [eauto|lia|exact G|].
          eapply set_unwound; [eauto|exact E|]. rewrite seen_set. reflexivity. }
      destruct (@c32_expand T T C al e cl _ ys c t (st_w st) n ds m Ht RS ltac:(lia) Hal EE Hm EC EZ G) as (cap & _ & E).
      eapply set_done; [eauto|exact E|]. rewrite seen_set. reflexivity.
  Qed.

  Lemma append_exec st l i j t : consistent st l -> var st i = Some t -> one_ok (AAppend i j) (as_arr t) (seen st) ->
    done_as (step al (Append i j) st) (r_one (AAppend i j) (as_arr t) (seen st)).
  Proof.
    intros HC HV (HN & HR & HJ). pose proof (var_ok HC HV) as Ht. cbn [step r_one]. rewrite HV, rvar_seen.
    destruct (var st j) as [u|] eqn:EJ; cbn [option_map].
    2:{ eexists. split; [reflexivity|]. reflexivity. }
    pose proof (var_ok HC EJ) as Hu. specialize (HJ (as_arr u)). rewrite rvar_seen, EJ in HJ. specialize (HJ eq_refl).
    pose proof (rows_seen t) as RT. pose proof (rows_seen u) as RU.
    destruct (rows (as_arr t)) as [[n ds]|]; [|congruence]. destruct (rows (as_arr u)) as [[m dt]|]; [|congruence]. clear HR HJ.
    cbn [as_arr a_dims a_els a_ty]. pose proof (prodZ_nonneg (to_nonneg Ht)) as T0. pose proof (prodZ_nonneg (to_nonneg Hu)) as U0.
    assert (FIN : forall t' u' w b, tn_append al (t, u, st_w st) = (if b : bool then Done tt (t', u', w) else Unwound (t', u', w)) ->
      w_clo w = w_clo (st_w st) -> w_used w = w_used (st_w st) ->
      done_as match tn_append al (t, u, st_w st) with
              | Done _ (self, other, w) | Unwound (self, other, w) => Done tt (set_var j (Some other) w (set_var i (Some self) w st))
              | Aborted => Aborted | Fault => Fault end
        (r_set j (Some (as_arr u')) (r_set i (Some (as_arr t')) (seen st)))).
    { intros t' u' w b E W1 W2. rewrite E. destruct b; (eexists; split; [reflexivity|]); rewrite !seen_set; unfold r_set; cbn [r_vars r_clo r_out]; now rewrite W1, W2. }
    assert (SELF : forall u', r_set j u' (r_set i (Some (as_arr t)) (seen st)) = r_set j u' (seen st)).
    { intros u'. unfold r_set at 2. rewrite upd_self by (now apply seen_nth). reflexivity. }
    destruct (Z.eqb_spec (prodZ (tn_dims u)) 0) as [E0|E0].
    { pose proof (@c32_append_nothing T C al t u (st_w st) n ds m dt Ht Hu RT RU E0) as E.
      rewrite <- (SELF (Some (mkArr (tn_ty u) (0 :: dt) []))). exact (FIN _ _ _ true E eq_refl eq_refl). }
    assert (MIS : (0 < prodZ (tn_dims t) -> dt <> ds) -> (prodZ (tn_dims t) = 0 -> ~ typed (tn_ty t) (tn_dims u)) ->
      done_as match tn_append al (t, u, st_w st) with
              | Done _ (self, other, w) | Unwound (self, other, w) => Done tt (set_var j (Some other) w (set_var i (Some self) w st))
              | Aborted => Aborted | Fault => Fault end (r_set j (Some (mkArr (tn_ty u) (0 :: dt) [])) (seen st))).
    { intros M1 M2. destruct (@c32_append_mismatch T C al t u (st_w st) m dt Ht Hu RU ltac:(lia)) as (cap & _ & E).
      - intros n' ds' [R1 _] HP. destruct RT as [R2 _]. rewrite R1 in R2. injection R2 as _ ->. auto.
      - intros n' ds' _ HP. auto.
      - rewrite <- (SELF (Some (mkArr (tn_ty u) (0 :: dt) []))). exact (FIN _ _ _ false E eq_refl eq_refl). }
    destruct (Z.eqb_spec (prodZ (tn_dims t)) 0) as [E1|E1].
    - destruct (has_ty (tn_ty t) (tn_dims u)) eqn:EH.
      + apply has_ty_spec in EH. destruct (@c32_append_empty T C al t u (st_w st) n ds m dt Ht Hu RT RU E1 ltac:(lia) EH Hal) as (cap & _ & E).
        exact (FIN _ _ _ true E eq_refl eq_refl).
      + apply MIS; [lia|]. intros _ X. apply has_ty_spec in X. congruence.
    - destruct (sizes_eq dt ds) eqn:ES.
      + apply sizes_eq_spec in ES as ->. destruct RT as [R1 R1']. destruct RU as [R2 R2'].
        pose proof (to_nonneg Ht) as N1. pose proof (to_nonneg Hu) as N2. rewrite R1 in N1, E1, T0. rewrite R2 in N2, E0, U0.
        rewrite prodZ_cons in *. apply Forall_cons_iff in N1 as [N1 N3]. apply Forall_cons_iff in N2 as [N2 _]. pose proof (prodZ_nonneg N3).
        destruct (@c32_append T C al t u (st_w st) n m ds Ht Hu (conj R1 R1') (conj R2 R2') ltac:(nia) ltac:(nia) ltac:(nia) Hal) as (cap & _ & E).
        exact (FIN _ _ _ true E eq_refl eq_refl).
      + apply MIS; [|lia]. intros _ X. apply sizes_eq_spec in X. congruence.
  Qed.

  Lemma takes {A} (l : list A) n : flat_map (fun x => match x with Some x => [x] | None => [] end) (map Some l ++ repeat None n) = l.
  Proof.
    rewrite flat_map_app. replace (flat_map _ (repeat None n)) with (@nil A) by (now induction n).
    rewrite app_nil_r. induction l as [|x l IH]; cbn; [reflexivity|]. now rewrite IH.
  Qed.

  Ltac fin := rewrite seen_set; unfold r_set, r_code, r_hand, with_els, as_arr; cbn [option_map r_vars r_clo r_out tn_ty tn_dims tn_mem a_ty a_dims a_els w_clo w_used w_drop after w_uses w_use]; try reflexivity.

  Lemma rows_some n ds (l : list T) a b : rows_of (n :: ds) l a b = some_rows l (prodZ ds) a b.
  Proof. reflexivity. Qed.

  Lemma drain_exec st l i lo hi k t : consistent st l -> var st i = Some t -> one_ok (T := T) (C := C) (ADrain i lo hi k) (as_arr t) (seen st) ->
    done_as (step al (DrainTake i lo hi k) st) (r_one (ADrain i lo hi k) (as_arr t) (seen st)).
  Proof.
    intros HC HV (B1 & B2 & HU). pose proof (var_ok HC HV) as Ht. cbn [step r_one]. pose proof (rows_seen t) as RS.
    assert (NO : (forall n ds, has_rows t n ds -> n <= usize_max /\ ~ (range_lo lo <= range_hi n hi <= n)) ->
      done_as (on_var i (drained_by lo hi k drain_drop) st) (seen st)).
    { intros H. pose proof (@c33_panics T t lo hi Ht B1 B2 H) as E. eapply set_unwound; [eauto| |].
      - unfold drained_by. cbn [fst]. rewrite E. reflexivity.
      - apply (seen_same HV); reflexivity. }
    destruct (rows (as_arr t)) as [[n ds]|].
    2:{ apply NO. intros n ds H. exfalso. eapply RS; eauto. }
    assert (HN : n <= usize_max) by (destruct RS as [E _]; cbn [as_arr a_dims] in HU; rewrite E in HU; exact HU).
    cbn [as_arr a_ty a_els]. destruct (in_range lo hi n) eqn:EI.
    - apply in_range_spec in EI. destruct (@c33_drain T t lo hi n ds Ht RS HN B1 B2 EI) as (d & ED & H). cbv zeta in H.
      destruct (H k C (w_uses (firstn k (rows_of (n :: ds) (tn_mem t) (range_lo lo) (range_hi n hi))) (st_w st))) as (it & E1 & E2 & _).
      eapply set_done; [eauto| |].
      + unfold drained_by. cbn [fst snd]. rewrite ED, E1. rewrite takes. exact E2.
      + fin.
    - apply NO. intros n' ds' H'. destruct RS as [E _], H' as [E' _]. rewrite E in E'. injection E' as <- <-. split; [exact HN|].
      intros X. apply in_range_spec in X. congruence.
  Qed.

  (** [resize_with] from any world with the same captured state; [resize] needs another one. *)
  Lemma resize_seen new f t (w : world T C) st i : tensor_ok t -> var st i = Some t -> nonneg new -> has_ty (tn_ty t) new = true ->
    w_clo w = w_clo (st_w st) -> w_used w = w_used (st_w st) ->
    exists (ok : bool) t' w', tn_resize_with al new f (t, w) = (if ok then Done tt (t', w') else Unwound (t', w')) /\
      forall w2, w_clo w2 = w_clo w' -> w_used w2 = w_used w' -> seen (set_var i (Some t') w2 st) = r_resize i (as_arr t) new f (seen st).
  Proof.
    intros Ht HV HN HY EC EU. apply has_ty_spec in HY. unfold r_resize. cbn [as_arr a_ty a_els a_dims].
    change (r_clo (seen st)) with (w_clo (st_w st)). rewrite <- EC.
    assert (NO : length new <> length (tn_dims t) \/ ~ fits new ->
      exists (ok : bool) t' w', tn_resize_with al new f (t, w) = (if ok then Done tt (t', w') else Unwound (t', w')) /\
        forall w2, w_clo w2 = w_clo w' -> w_used w2 = w_used w' -> seen (set_var i (Some t') w2 st) = seen st).
    { intros H. exists false, t, w. split; [now apply c35_resize_panics|]. intros w2 A B. apply (seen_same HV); [reflexivity|congruence|congruence]. }
    destruct (Nat.eqb_spec (length new) (length (tn_dims t))) as [EL|EL]; cbn [andb]; [|apply NO; now left].
    destruct (fitsb new) eqn:EF; [apply fitsb_spec in EF|apply NO; right; intros X; apply fitsb_spec in X; congruence]. clear NO.
    destruct (gives (repeat f (fresh (tn_dims t) new)) (w_clo w)) as [[ys c] ok] eqn:G.
    destruct ok.
    - destruct new as [|n nt].
      + assert (ED : tn_dims t = []) by (destruct (tn_dims t); [reflexivity|discriminate EL]).
        exists true, t, w. split; [apply resize_rank0; exact ED|]. intros w2 A B.
        pose proof (to_len Ht) as TL. rewrite ED in *. change (prodZ []) with 1 in TL. unfold zlen in TL.
        destruct (tn_mem t) as [|x [|]] eqn:EM; cbn [length] in TL; try lia.
        assert (Efr : fresh [] [] = 0%nat) by reflexivity. rewrite Efr in G. cbn in G. injection G as <- <-.
        fin. rewrite ED, EM, A, B, EU. reflexivity.
      + destruct (@resize_done T C al (n :: nt) f t w ys c Ht HN HY EL ltac:(discriminate) EF Hal G) as (cap & _ & E).
        eexists true, _, _. split; [exact E|]. intros w2 A B. cbn [after w_clo w_used] in A, B. fin. rewrite A, B, EU. reflexivity.
    - destruct (@resize_panics T C al new f t w ys c Ht HN HY EL EF Hal G) as (cap & ds & _ & _ & E).
      eexists false, _, _. split; [exact E|]. intros w2 A B. cbn [after w_clo w_used] in A, B. unfold resize_kept. change (sizes_eq (tl new) (tl (tn_dims t))) with (slice_eqb (tl new) (tl (tn_dims t))).
      assert (NE : nothing ys = (length ys =? 0)%nat) by (destruct ys; reflexivity). rewrite NE.
      destruct (if slice_eqb (tl new) (tl (tn_dims t)) then (length ys =? 0)%nat else prodZ (tn_dims t) =? 0); cbn [left_with]; fin; rewrite A, B, EU; reflexivity.
  Qed.

  Lemma resize_exec st l i new f t : consistent st l -> var st i = Some t -> one_ok (T := T) (C := C) (AResizeWith i new f) (as_arr t) (seen st) ->
    done_as (step al (ResizeWith i new f) st) (r_one (AResizeWith i new f) (as_arr t) (seen st)).
  Proof.
    intros HC HV [HN HY]. destruct (@resize_seen new f t (st_w st) st i (var_ok HC HV) HV HN HY eq_refl eq_refl) as (ok & t' & w' & E & S).
    cbn [step r_one]. destruct ok; [eapply set_done|eapply set_unwound]; eauto.
  Qed.

  Lemma resize_value_exec st l i new x cl t : consistent st l -> var st i = Some t -> one_ok (T := T) (C := C) (AResize i new x cl) (as_arr t) (seen st) ->
    done_as (step al (Resize i new x cl) st) (r_one (AResize i new x cl) (as_arr t) (seen st)).
  Proof.
    intros HC HV [HN HY]. set (w := mkWorld (w_clo (st_w st)) (w_made (st_w st) ++ [x]) (w_used (st_w st)) (w_dropped (st_w st))).
    destruct (@resize_seen new (cl x) t w st i (var_ok HC HV) HV HN HY eq_refl eq_refl) as (ok & t' & w' & E & S).
    cbn [step r_one]. destruct ok.
    - eapply set_done; [eauto|unfold tn_resize; cbn [fst snd]; fold w; rewrite E; reflexivity|]. apply S; reflexivity.
    - eapply set_unwound; [eauto|unfold tn_resize; cbn [fst snd]; fold w; rewrite E; reflexivity|]. apply S; reflexivity.
  Qed.

  Lemma shape_exec st l i ty req t : consistent st l -> var st i = Some t -> one_ok (T := T) (C := C) (AIntoShape i ty req) (as_arr t) (seen st) ->
    done_as (step al (IntoShape i ty req) st) (r_one (AIntoShape i ty req) (as_arr t) (seen st)).
  Proof.
    intros HC HV (HN & HY & HW & HS). pose proof (var_ok HC HV) as Ht. cbn [step r_one]. cbn [as_arr a_ty a_els a_dims] in *. apply has_ty_spec in HY.
    assert (CS : const_small ty) by (destruct ty; [exact I|]; apply Forall_forall; intros d I ->; exact (HS _ eq_refl I)).
    destruct (@c47_into_shape T C ty req t (st_w st) Ht HN HY CS) as [H1 H2].
    destruct (meets (prodZ (tn_dims t)) req) eqn:EM.
    - apply (meets_spec _ HN) in EM as [F R]. eapply set_consumed; [eauto| |].
      + unfold kept, seqM. rewrite (H1 _ F R). reflexivity.
      + fin.
    - eapply set_gone; [eauto| |].
      + unfold kept, seqM. rewrite H2; [reflexivity|]. intros (nd & F & R). pose proof (resolves_resolved R) as E. subst nd.
        assert (X : meets (prodZ (tn_dims t)) req = true) by (apply meets_spec; auto). congruence.
      + fin.
  Qed.

  Lemma zip_with_exec st l i j ops f t : consistent st l -> var st i = Some t -> one_ok (AZipWith i j ops f) (as_arr t) (seen st) ->
    done_as (step al (ZipWith i (operand st j ops) f) st) (r_one (AZipWith i j ops f) (as_arr t) (seen st)).
  Proof.
    intros HC HV [HL HP]. pose proof (var_ok HC HV) as Ht. destruct (lends_ok HC HL) as (u & v & LO).
    cbn [step r_one]. rewrite rvar_seen, (le_var LO). cbn [option_map]. cbn [as_arr a_ty a_els a_dims] in *. rewrite <- (le_dims LO).
    destruct (@zip_with_tree T T t (lent u v) _ Ht (le_valid LO) (le_op LO)) as [[NF E]|[OF (z & E & HT)]].
    - destruct (goes_with (tn_dims t) (v_dims v)) eqn:EG; [exfalso; apply NF; now apply lent_fits|].
      eapply set_gone; [eauto| |].
      + unfold kept, seqM. rewrite zip_with_refused by auto. reflexivity.
      + fin.
    - apply lent_fits in OF as EG. rewrite EG. destruct (le_items LO EG) as [EI EL].
      assert (FI : t_fine (with_target (zlen (tn_mem t)) (whole (tn_ty t) (tn_dims t)) (lent u v))) by (apply lent_fine; auto).
      specialize (HT FI). change (t_dims (lent u v)) with (v_dims v) in HT. change (t_init (lent u v)) with tt in HT. rewrite EI in HT. cbn [done] in HT.
      assert (LT : length (indices (tn_dims t)) = length (tn_mem t)) by (rewrite indices_length by apply Ht; rewrite <- (to_len Ht); unfold zlen; lia).
      assert (LY : length (operand_els (as_arr u) ops (tn_dims t)) = length (tn_mem t)) by congruence.
      pose proof (@c36_zip_with T T C _ f t (st_w st) z _ _ Ht E HT ltac:(lia) (fun _ => LY)) as EQ.
      change (r_clo (seen st)) with (w_clo (st_w st)).
      destruct (gives (map f (combine (tn_mem t) (operand_els (as_arr u) ops (tn_dims t)))) (w_clo (st_w st))) as [[rs c] b] eqn:G.
      cbv zeta in EQ. pose proof (gives_length G) as [GL1 GL2]. rewrite map_length, combine_length in GL1, GL2. destruct b.
      + eapply set_consumed; [eauto| |].
        * unfold kept, seqM. rewrite EQ. reflexivity.
        * fin. rewrite firstn_all2 by (rewrite (GL2 eq_refl); lia). reflexivity.
      + eapply set_gone; [eauto| |].
        * unfold kept, seqM. rewrite EQ. reflexivity.
        * fin.
  Qed.

  (** *** Writes through views *)
  Lemma edit_seen st i t ops v (m : M (tensor T * world T C) unit) b b' l news c made dropped : var st i = Some t -> tensor_ok t ->
    shows (whole (tn_ty t) (tn_dims t)) v (chain_index (tn_dims t) ops) -> v_dims v = chain_dims (tn_dims t) ops ->
    edited l (w_clo (st_w st)) = (news, c, b') ->
    finished b (m (t, st_w st)) (fun s => exists mem', rewritten (v_dims v) (v_addr v) news (tn_mem t) mem' /\
      s = (mkTensor (tn_ty t) (tn_dims t) mem' (tn_cap t), mkWorld c made (w_used (st_w st)) dropped)) ->
    done_as (on_var i m st) (r_edit (C := C) i (as_arr t) ops l (seen st)).
  Proof.
    intros HV Ht SH D EL (s & E & mem' & R & ->). unfold r_edit. change (r_clo (seen st)) with (w_clo (st_w st)). rewrite EL.
    rewrite (@rewritten_written T t ops v news mem' Ht SH D R) in E.
    eexists. split; [destruct b; [eapply on_var_done|eapply on_var_unwound]; eauto|]. fin.
  Qed.

  Lemma at_seen st i t ops v idx h : var st i = Some t -> tensor_ok t -> view_arg t ops ->
    v_run (whole (tn_ty t) (tn_dims t)) ops = Ok v ->
    shows (whole (tn_ty t) (tn_dims t)) v (chain_index (tn_dims t) ops) -> v_dims v = chain_dims (tn_dims t) ops -> 
    nonneg idx -> valid_view (zlen (tn_mem t)) v ->
    done_as (on_var i (tn_edit_at ops idx h) st)
      (if inside (chain_dims (tn_dims t) ops) idx then r_set_at (C := C) i (as_arr t) ops idx h (seen st) else seen st).
  Proof.
    intros HV Ht HA E SH D HN V. rewrite <- D.
    destruct (@c71_at T C h t (st_w st) ops v idx Ht HA E HN) as [[NB EU]|[B (x & G & H)]].
    - destruct (inside (v_dims v) idx) eqn:EI; [apply inside_spec in EI; contradiction|].
      eapply set_unwound; [eauto|exact EU|]. apply (seen_same HV); reflexivity.
    - assert (EI : inside (v_dims v) idx = true) by (now apply inside_spec). rewrite EI.
      destruct (SH idx B) as [Bf A]. rewrite (@whole_addr (tn_ty t) (tn_dims t) _ Bf) in A.
      rewrite v_get_in in G by exact B. destruct (read_ok (vv_range V B)) as (y & R & R'). rewrite R in G. injection G as ->.
      unfold r_set_at. cbn [as_arr a_dims a_els a_ty]. rewrite <- A. rewrite R'. change (r_clo (seen st)) with (w_clo (st_w st)).
      destruct (h x (w_clo (st_w st))) as [new c b]. destruct H as (s & ES & mem' & ML & M1 & M2 & ->).
      eexists. split; [destruct b; [eapply on_var_done|eapply on_var_unwound]; eauto|]. fin. do 4 f_equal.
      set (p := Z.to_nat (v_addr v idx)) in *. apply nth_error_ext'. intros q.
      destruct (Nat.eq_dec q p) as [->|NE].
      + rewrite M1. destruct new as [z|]; [|now rewrite R']. rewrite nth_error_upd_same; auto. apply nth_error_Some. congruence.
      + rewrite M2 by auto. destruct new as [z|]; auto. now rewrite nth_error_upd_other by auto.
  Qed.

  Lemma halves_refused st t ops a mid ops1 ops2 (h : T -> T -> C -> edit T C) :
    let p := ops ++ OpSplitFst a mid :: ops1 in let q := ops ++ OpSplitSnd a mid :: ops2 in let v := whole (tn_ty t) (tn_dims t) in
    (v_run v p = Panic \/ exists v1, v_run v p = Ok v1) -> (v_run v q = Panic \/ exists v2, v_run v q = Ok v2) ->
    (v_run v p = Panic \/ v_run v q = Panic) -> tn_edit_halves ops a mid ops1 ops2 h (t, st) = Unwound (t, st).
  Proof.
    intros p q v. unfold p, q. rewrite !v_run_app. unfold tn_edit_halves. cbn [fst]. fold v.
    destruct (v_run v ops) as [u| | |]; cbn [bind]; try (intros [H|[? H]]; discriminate H); [|reflexivity].
    cbn [v_run v_step]. destruct (v_split_axis_at u a mid) as [[u1 u2]| | |]; cbn [bind]; try (intros [H|[? H]]; discriminate H); [|reflexivity].
    intros [H1|[v1 H1]]; rewrite H1; cbn [bind]; [reflexivity|]. intros _ [H|H]; [discriminate H|]. now rewrite H.
  Qed.

  Lemma halves_exec st l i ops a mid ops1 ops2 h t : consistent st l -> var st i = Some t ->
    one_ok (T := T) (C := C) (AHalves i ops a mid ops1 ops2 h) (as_arr t) (seen st) ->
    done_as (exec al (Halves i ops a mid ops1 ops2 h) st) (r_one (AHalves i ops a mid ops1 ops2 h) (as_arr t) (seen st)).
  Proof.
    intros HC HV (W1 & W2 & HP). pose proof (var_ok HC HV) as Ht. cbn [exec r_one]. cbn [as_arr a_ty a_els a_dims] in *.
    set (p := ops ++ OpSplitFst a mid :: ops1) in *. set (q := ops ++ OpSplitSnd a mid :: ops2) in *.
    assert (NO : tn_edit_halves ops a mid ops1 ops2 h (t, st_w st) = Unwound (t, st_w st) ->
      done_as (on_var i (tn_edit_halves ops a mid ops1 ops2 h) st) (seen st)).
    { intros E. eapply set_unwound; [eauto|exact E|]. apply (seen_same HV); reflexivity. }
    destruct (views_run Ht W1) as [A1 C1]. destruct (views_run Ht W2) as [A2 C2].
    destruct C1 as [(E1 & K1 & _)|(v1 & E1 & K1 & F1 & D1 & V1 & SH1 & X1)].
    { rewrite K1. cbn [andb]. apply NO. apply halves_refused; [left; exact E1| |left; exact E1].
      destruct C2 as [(E2 & _)|(v2 & E2 & _)]; [left|right]; eauto. }
    destruct C2 as [(E2 & K2 & _)|(v2 & E2 & K2 & F2 & D2 & V2 & SH2 & X2)].
    { rewrite K1, K2. cbn [andb]. apply NO. apply halves_refused; [right; eauto|left; exact E2|right; exact E2]. }
    rewrite K1, K2. cbn [andb]. specialize (HP F1). pose proof E1 as E1'. pose proof E2 as E2'. unfold p in E1'. unfold q in E2'.
    rewrite v_run_app in E1', E2'. destruct (v_run (whole (tn_ty t) (tn_dims t)) ops) as [v| | |] eqn:E0; cbn [bind] in *; try discriminate.
    cbn [v_run v_step] in E1', E2'. destruct (v_split_axis_at v a mid) as [[u1 u2]| | |] eqn:ES; cbn [bind] in *; try discriminate.
    rewrite <- D1 in HP. rewrite <- D1, <- D2.
    destruct (@c71_halves T C h t (st_w st) ops a mid ops1 ops2 v u1 u2 v1 v2 _ Ht A1 A2 E0 ES E1' E2' HP X1) as [[NF E]|[FF (ys & HY & H)]].
    - destruct (goes_with (v_dims v1) (v_dims v2)) eqn:EG; [apply goes_with_spec in EG; contradiction|]. now apply NO.
    - apply goes_with_spec in FF as EG. rewrite EG.
      assert (EY : operand_els (as_arr t) q (v_dims v1) = ys).
      { unfold operand_els. cbn [as_arr a_dims a_els]. rewrite <- D2.
        apply (at_all (f := fun idx => chain_index (tn_dims t) q (lastn (length (v_dims v2)) idx))).
        assert (GG : forall l0, (forall idx, In idx l0 -> in_bounds (v_dims v1) idx) -> forall zs,
          Forall2 (fun idx y => v_get (tn_mem t) v2 (lastn (length (v_dims v2)) idx) = Ok y) l0 zs ->
          Forall2 (fun idx x => elem (tn_dims t) (tn_mem t) (chain_index (tn_dims t) q (lastn (length (v_dims v2)) idx)) = Some x) l0 zs).
        { intros l0 Hl zs Q. induction Q as [|idx x l0 zs EX Q IH]; constructor.
          - assert (B : in_bounds (v_dims v2) (lastn (length (v_dims v2)) idx)).
            { pose proof (Hl idx (or_introl eq_refl)) as I. apply (in_bounds_lastn (length (v_dims v2))) in I.
              destruct FF as [H1 H2]. unfold trailing_eq in H1. rewrite Nat.min_r in H1 by auto. rewrite H1 in I. unfold lastn in I at 1. rewrite Nat.sub_diag in I. exact I. }
            destruct (SH2 _ B) as [Bf A]. rewrite (@whole_addr (tn_ty t) (tn_dims t) _ Bf) in A. rewrite v_get_in in EX by exact B.
            destruct (read_ok (vv_range V2 B)) as (y & R & R'). rewrite R in EX. injection EX as ->. unfold elem. now rewrite <- A.
          - apply IH. intros j J. apply Hl. now right. }
        apply GG; auto. intros idx I. now apply in_indices. }
      rewrite EY. destruct (edited _ _) as [[news c] b] eqn:EE.
      eapply edit_seen; eauto.
  Qed.

  Lemma bounds_nonneg d idx : in_bounds d idx -> nonneg idx.
  Proof. intros H. induction H; constructor; auto; lia. Qed.

  Lemma refused (t : tensor T) (w : world T C) ops : v_run (whole (tn_ty t) (tn_dims t)) ops = Panic ->
    (forall h, tn_edit ops h (t, w) = Unwound (t, w)) /\ (forall (e : expression T) h, tn_edit_zip ops e h (t, w) = Unwound (t, w)) /\
    (forall value cl, tn_fill ops value cl (t, w) = Unwound (t, mkWorld (w_clo w) (w_made w ++ [value]) (w_used w) (w_dropped w ++ [value]))) /\
    (forall idx h, tn_edit_at ops idx h (t, w) = Unwound (t, w)) /\ (forall k h, tn_edit_linear ops k h (t, w) = Unwound (t, w)).
  Proof.
    intros E. unfold tn_fill, tn_edit, tn_edit_zip, tn_visit, tn_edit_at, tn_edit_linear. cbn [fst snd]. rewrite E. cbn [bind]. auto 10.
  Qed.

  Theorem one_exec (k : act T C) (st : state T C) l i t : consistent st l -> on k = Some i -> var st i = Some t ->
    one_ok k (as_arr t) (seen st) -> done_as (exec al (code k st) st) (r_one k (as_arr t) (seen st)).
  Proof.
    intros HC HI HV HO. pose proof (var_ok HC HV) as Ht.
    destruct k; cbn [on] in HI; try discriminate HI; injection HI as <-; cbn [code exec].
    - now apply clone_exec.
    - cbn [step r_one]. cbn [as_arr a_ty a_els a_dims]. destruct (Z.eqb_spec (prodZ (sh_default (tn_ty t))) 0).
      + eapply set_done; [eauto|now apply c34_clear|]. fin.
      + eapply set_unwound; [eauto|now apply c34_clear_panics|]. apply (seen_same HV); reflexivity.
    - cbn [step r_one]. pose proof (rows_seen t) as RS. destruct (rows (as_arr t)) as [[n ds]|].
      + eapply set_done; [eauto|apply (@c34_truncate T C t (st_w st) n ds); auto|]. fin.
      + eapply set_unwound; [eauto|now apply c34_truncate_panics|]. apply (seen_same HV); reflexivity.
    - cbn [step r_one]. destruct (@c61_reserve T C al n t (st_w st) Ht) as [H _]. destruct H as (cap & E & _); [now left|].
      eapply set_done; [eauto|exact E|]. apply (seen_same HV); reflexivity.
    - cbn [step r_one]. destruct (@c61_shrink T C n t (st_w st) Ht) as (cap & E & _).
      eapply set_done; [eauto|exact E|]. apply (seen_same HV); reflexivity.
    - eapply expand_exec; eauto.
    - rename HO into HY. cbn [one_ok] in HY. cbn [step r_one]. change (r_clo (seen st)) with (w_clo (st_w st)).
      destruct (gives ys (w_clo (st_w st))) as [[ys' c] ok] eqn:G. cbn [as_arr a_ty] in HY. destruct ok.
      + destruct (@c47_extend T C al _ t (st_w st) _ _ Ht HY Hal G) as (cap & _ & _ & E).
        eapply set_done; [eauto|exact E|]. fin. now rewrite HY.
      + destruct (@c47_extend_panics T C al _ t (st_w st) _ _ Ht HY Hal G) as (cap & _ & E).
        destruct ys'; (eapply set_unwound; [eauto|exact E|]); fin; unfold emptied; cbn [nothing a_ty]; rewrite HY; reflexivity.
    - eapply resize_exec; eauto.
    - eapply resize_value_exec; eauto.
    - eapply drain_exec; eauto.
    - destruct HO as [_ HO]. cbn [step r_one]. rewrite rvar_seen. destruct (var st j) as [u|] eqn:EJ; cbn [option_map].
      + pose proof (HO (as_arr u)) as HY. rewrite rvar_seen, EJ in HY. specialize (HY eq_refl). cbn [as_arr a_ty] in HY.
        change (r_clo (seen st)) with (w_clo (st_w st)). cbn [as_arr a_els a_dims a_ty].
        destruct (gives (map cl (tn_mem u)) (w_clo (st_w st))) as [[ys' c] ok] eqn:G. pose proof (var_ok HC EJ) as Hu.
        destruct ok.
        2:{ assert (TY : typed (tn_ty t) (tn_dims u)) by (rewrite <- HY; apply Hu).
            destruct ((length ys' <=? length (tn_mem t))%nat && (length (tn_mem t) <=? length (tn_mem u))%nat) eqn:K.
            - apply andb_true_iff in K as [K1 K2]. apply Nat.leb_le in K1, K2.
              destruct (@c79_clone_from_kept T C al cl (tn_mem u) (tn_dims u) t (st_w st) _ _ Ht TY (to_len Hu) Hal G (conj K1 K2)) as (cap & _ & E).
              eapply set_unwound; [eauto|exact E|]. fin.
            - apply andb_false_iff in K. rewrite !Nat.leb_gt in K.
              destruct (@c79_clone_from_lost T C al cl (tn_mem u) (tn_dims u) t (st_w st) _ _ Ht TY (to_len Hu) Hal G K) as (cap & gone & _ & _ & _ & E).
              eapply set_unwound; [eauto|exact E|]. fin. }
        destruct (@c47_clone_from T C al _ (tn_mem u) (tn_dims u) t (st_w st) _ _ Ht (to_len (var_ok HC EJ)) Hal G) as (cap & _ & E).
        eapply set_done; [eauto|exact E|]. fin.
      + eexists. split; reflexivity.
    - eapply append_exec; eauto.
    - eapply shape_exec; eauto.
    - cbn [step r_one]. cbn [as_arr a_ty a_els a_dims]. rewrite has_ty_accepts. pose proof (@c47_into_mapping T C ty t (st_w st) Ht) as E.
      destruct (accepts ty (tn_dims t)).
      + eapply set_consumed; [eauto|unfold kept, seqM; rewrite E; reflexivity|]. fin.
      + eapply set_gone; [eauto|unfold kept, seqM; rewrite E; reflexivity|]. fin.
    - cbn [step r_one]. eapply set_consumed; [eauto|unfold kept, seqM; rewrite c47_into_flat by auto; reflexivity|]. fin.
    - eapply zip_with_exec; eauto.
    - cbn [step r_one]. pose proof (@c36_map T C f t (st_w st) Ht) as E. cbn [as_arr a_ty a_els a_dims].
      change (r_clo (seen st)) with (w_clo (st_w st)). destruct (gives (map f (tn_mem t)) (w_clo (st_w st))) as [[rs c] b] eqn:G. cbv zeta in E.
      pose proof (gives_length G) as [GL1 GL2]. rewrite map_length in GL1, GL2. destruct b.
      + eapply set_consumed; [eauto|unfold kept, seqM; rewrite E; reflexivity|]. fin. rewrite firstn_all2 by (rewrite (GL2 eq_refl); lia). reflexivity.
      + eapply set_gone; [eauto|unfold kept, seqM; rewrite E; reflexivity|]. fin.
    - cbn [step r_one]. destruct (@c37_into_iter T (tn_ty t) (tn_dims t) (tn_mem t) k (to_len Ht)) as (it & E & _).
      eapply set_consumed; [eauto|cbv beta; rewrite E, takes; reflexivity|]. fin.
    - cbn [step r_one]. cbn [as_arr a_ty a_els a_dims]. destruct (@c47_into_scalar T C t (st_w st) Ht) as [H1 H2]. destruct (Z.eqb_spec (prodZ (tn_dims t)) 1) as [E|E].
      + destruct (H1 E) as (x & EM & EX). eapply set_consumed; [eauto|unfold seqM; rewrite EX; reflexivity|]. fin. now rewrite EM.
      + eapply set_gone; [eauto|unfold seqM; rewrite (H2 E); reflexivity|]. fin. now rewrite app_nil_r.
    - cbn [step r_one]. eapply set_consumed; [eauto|reflexivity|]. fin.
    - destruct HO as [HW HF]. cbn [r_one]. cbn [as_arr a_dims]. destruct (views_run Ht HW) as [HA [(E & K & _)|(v & E & K & F & D & V & SH & X)]]; rewrite K.
      + eapply set_unwound; [eauto|apply (refused (st_w st) E)|]. apply (seen_same HV); reflexivity.
      + pose proof (@c71_each T C h t (st_w st) ops v _ Ht HA E (walked_visits E D (HF F)) X) as H.
        destruct (edited _ _) as [[news c] b] eqn:EE. eapply edit_seen; eauto.
    - destruct HO as (HW & HL & HP). destruct (lends_ok HC HL) as (u & v' & LO). cbn [r_one]. rewrite rvar_seen, (le_var LO). cbn [option_map].
      cbn [as_arr a_dims a_els a_ty] in *. destruct (views_run Ht HW) as [HA [(E & K & _)|(v & E & K & F & D & V & SH & X)]]; rewrite K; cbn [andb].
      { eapply set_unwound; [eauto|apply (refused (st_w st) E)|]. apply (seen_same HV); reflexivity. }
      rewrite <- D, <- (le_dims LO). specialize (HP F). rewrite <- D in HP.
      destruct (@c71_zip T T C h t (st_w st) ops v _ (lent u v') _ Ht HA E X (le_valid LO) (le_op LO) (le_safe LO) (fun O => lent_fine _ HP O)) as [[NF EU]|[OF H]].
      + destruct (goes_with (v_dims v) (v_dims v')) eqn:EG; [exfalso; apply NF; now apply lent_fits|].
        eapply set_unwound; [eauto|exact EU|]. apply (seen_same HV); reflexivity.
      + apply lent_fits in OF as EG. rewrite EG. destruct (le_items LO EG) as [EI _].
        change (t_dims (lent u v')) with (v_dims v') in H. change (t_init (lent u v')) with tt in H. rewrite EI in H.
        destruct (edited _ _) as [[news c] b] eqn:EE. eapply edit_seen; eauto.
    - destruct HO as [HW HF]. cbn [r_one]. cbn [as_arr a_dims]. destruct (views_run Ht HW) as [HA [(E & K & _)|(v & E & K & F & D & V & SH & X)]]; rewrite K.
      + eapply set_unwound; [eauto|apply (refused (st_w st) E)|]. apply (seen_same HV); reflexivity.
      + pose proof (@c71_each T C (edit_set f) t (st_w st) ops v _ Ht HA E (walked_visits E D (HF F)) X) as H.
        destruct (edited _ _) as [[news c] b] eqn:EE. eapply edit_seen; eauto.
    - destruct HO as [HW HF]. cbn [r_one]. cbn [as_arr a_dims]. destruct (views_run Ht HW) as [HA [(E & K & _)|(v & E & K & F & D & V & SH & X)]]; rewrite K.
      + eapply set_unwound; [eauto|apply (refused (st_w st) E)|]. apply (seen_same HV); reflexivity.
      + pose proof (@c71_fill T C value cl t (st_w st) ops v _ Ht HA E (walked_visits E D (HF F)) X) as H.
        destruct (edited _ _) as [[news c] b] eqn:EE. eapply edit_seen; eauto.
    - destruct HO as [HW HN]. cbn [r_one]. cbn [as_arr a_dims]. destruct (views_run Ht HW) as [HA [(E & K & _)|(v & E & K & F & D & V & SH & X)]]; rewrite K; cbn [andb].
      + eapply set_unwound; [eauto|apply (refused (st_w st) E)|]. apply (seen_same HV); reflexivity.
      + eapply at_seen; eauto.
    - destruct HO as [HW HN]. cbn [r_one]. cbn [as_arr a_dims]. destruct (views_run Ht HW) as [HA [(E & K & _)|(v & E & K & F & D & V & SH & X)]]; rewrite K; cbn [andb].
      + eapply set_unwound; [eauto|apply (refused (st_w st) E)|]. apply (seen_same HV); reflexivity.
      + pose proof (@c71_linear T C h t (st_w st) ops v k Ht HA E HN) as EL. rewrite <- D.
        destruct (Z.ltb_spec k (prodZ (v_dims v))) as [L|L].
        * pose proof (wf_nonneg (vv_wf V)) as Hn. rewrite indices_nth in EL by (auto; lia). rewrite Z2Nat.id in EL by lia.
          assert (B : in_bounds (v_dims v) (unflat (v_dims v) k)) by (apply unflat_in_bounds; auto; lia).
          pose proof (@at_seen st _ t ops v (unflat (v_dims v) k) h HV Ht HA E SH D (bounds_nonneg B) V) as H.
          rewrite <- D, (proj2 (inside_spec _ _) B) in H. unfold on_var in *. rewrite HV in *. now rewrite EL.
        * eapply set_unwound; [eauto|exact EL|]. apply (seen_same HV); reflexivity.
    - eapply halves_exec; eauto.
  Qed.

  (** ** Steps and programs *)
  Theorem do_step (k : act T C) (st : state T C) l : consistent st l -> act_ok k (seen st) ->
    exists st' more, exec al (code k st) st = Done tt st' /\ consistent st' (l ++ more) /\ seen st' = r_do k (seen st).
  Proof.
    intros HC HO.
    assert (ON : on k <> None -> exists st' more, exec al (code k st) st = Done tt st' /\ consistent st' (l ++ more) /\
      seen st' = match on k with Some i => match rvar (seen st) i with Some a => r_one k a (seen st) | None => seen st end | None => seen st end).
    { intros HI. destruct (on k) as [i|] eqn:EI; [|congruence]. rewrite rvar_seen.
      assert (HO' : match rvar (seen st) i with Some a => one_ok k a (seen st) | None => True end) by (destruct k; cbn [act_ok on] in *; try discriminate EI; injection EI as <-; exact HO).
      rewrite rvar_seen in HO'. destruct (var st i) as [t|] eqn:EV; cbn [option_map] in *.
      - destruct (one_exec HC EI EV HO') as (st' & E & S). pose proof (@exec_ok T C al _ st l HC (one_code_ok HC EI EV HO')) as P. rewrite E in P.
        destruct P as (more & P & _). exists st', more. auto.
      - exists st, []. rewrite app_nil_r. split; [|auto].
        destruct k; cbn [on] in EI; try discriminate EI; injection EI as <-; cbn [code exec step]; unfold on_var, consume; rewrite ?EV; auto.
        destruct (var st j); auto; unfold on_var; now rewrite EV. }
    destruct k; try (apply ON; discriminate).
    - destruct HO as (H1 & H2 & H3). cbn [code exec step r_do].
      destruct (@c61_with_capacity T C al ty cap (st_w st) H1 H2 H3) as [((E0 & EF & _) & cap' & E & _ & _ & OK)|[N E]]; unfold create; rewrite E.
      + rewrite (proj2 (Z.eqb_eq _ _) E0), (proj2 (fitsb_spec _) EF). cbn [andb]. exists (mkState (st_vars st ++ [Some (mkTensor ty (sh_default ty) [] cap')]) (st_w st)), [].
        split; [reflexivity|]. rewrite app_nil_r. split.
        * destruct HC as [C1 C2]. split; cbn [st_vars st_w]; [apply Forall_app; auto|]. unfold held in *. rewrite flat_map_app. cbn [flat_map app tn_mem]. now rewrite app_nil_r.
        * unfold seen, r_new. cbn [st_vars st_w r_vars r_clo r_out]. now rewrite map_app.
      + exists (mkState (st_vars st) (st_w st)), []. rewrite app_nil_r. split; [reflexivity|]. split; [destruct st; exact HC|].
        replace (_ && _) with false; [destruct st; reflexivity|]. symmetry. apply andb_false_iff.
        destruct (Z.eqb_spec (prodZ (sh_default ty)) 0); [right|now left]. destruct (fitsb (sh_default ty)) eqn:EF; auto.
        exfalso. apply N. split; [auto|]. split; [now apply fitsb_spec|auto].
    - pose proof (@exec_ok T C al (code (AFromVec items) st) st l HC) as P. cbn [code exec step] in *. unfold create in *. rewrite c47_from_vec in *.
      destruct P as (more & P & _); [cbn; unfold zlen; lia|].
      eexists. exists more. split; [reflexivity|]. split; [exact P|]. unfold seen, r_do, r_new. cbn [st_vars st_w r_vars r_clo r_out w_clo w_used]. now rewrite map_app.
  Qed.

  Theorem run_refers (p : list (act T C)) : forall (st : state T C) l, consistent st l -> acts_ok p (seen st) ->
    exists st' more, run_prog al (map code p) st = Done tt st' /\ consistent st' (l ++ more) /\ seen st' = r_run p (seen st).
  Proof.
    induction p as [|k p IH]; intros st l HC HO; cbn [map run_prog r_run acts_ok] in *.
    - exists st, []. rewrite app_nil_r. auto.
    - destruct HO as [H1 H2]. destruct (do_step HC H1) as (st1 & m1 & E1 & C1 & S1). rewrite <- S1 in H2 |- *.
      destruct (IH st1 _ C1 H2) as (st2 & m2 & E2 & C2 & S2). exists st2, (m1 ++ m2). unfold seqM. rewrite E1.
      split; [exact E2|]. split; [now rewrite app_assoc|exact S2].
  Qed.
End Steps.
