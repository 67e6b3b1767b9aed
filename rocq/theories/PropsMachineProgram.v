(** C76: writing through mutable views, and programs with such writes, with machine integers.

    [x_prog dbg] runs a program of [Program.v] with 64-bit integers, with overflow checks ([dbg = true]) or without.
    [run_machine] asks for arguments of their types, [small] for machine dimensions and a storage of at most
    [isize::MAX] elements, and [visited v] for a view with elements or a contiguous one.  With checks a loop can end in
    a panic of its own: [walkable true] tells when it does not (no stride is [isize::MIN]). *)
From Coq Require Import Permutation.
From Verif Require Import Base Spec SpecFacts Shape Mapping Index View Wf MappingFacts MapOps ReshapeFacts.
From Verif Require Import IndexFacts ViewFacts ViewMore Expr ExprSpec ExprFacts IterFacts SourceFacts ExprTree ExprMore.
From Verif Require Import Tensor TraceFacts TensorSpec ResizeFacts TensorOps DrainFacts OwnFacts ZipFacts OpsFacts History HistoryFacts OwnProps.
From Verif Require Import Program ProgramFacts Machine MachineSpec MachineFacts MachineRun MachineWrap MachineSteps MachineIter MachineSources.
From Verif Require Import PropsView PropsExpr PropsTensor PropsProgram PropsMachine PropsWrap PropsMachineIter PropsMachineTensor.
From Verif Require Import MachineTensor MachineTensorFacts MachineTensorMore MachineTensorRun MachineProgram MachineProgramFacts TensorFacts.
Unset Strict Implicit.

(** ** Loops *)

(** A loop over all elements of a view: [k] of them are visited, in row-major order, each once, and no other cell is
    touched.  They are all unless a panic of the loop itself ends it, which takes overflow checks and a stride of
    [isize::MIN] (or a view without elements). *)
Theorem c76_each : forall dbg T C (h : T -> C -> edit T C) (t : tensor T) (w : world T C) ops v xs,
  tensor_ok t -> small dbg t -> run_machine dbg (whole (tn_ty t) (tn_dims t)) ops ->
  x_run dbg (whole (tn_ty t) (tn_dims t)) ops = Ok v -> visited v -> contents (tn_mem t) v xs ->
  exists k all,
    (all = true -> (length xs <= k)%nat) /\
    (all = false -> dbg = true /\ ~ walkable dbg (zlen (tn_mem t)) v) /\
    let '(news, c, b) := edited (map (fun x => (x, h)) (firstn k xs)) (w_clo w) in
    finished (b && all) (x_edit dbg ops h (t, w)) (wrote t w v xs news c).
Proof.
  intros dbg T C h t w ops v xs Ht HS HR E HV HC. destruct (tensor_machine Ht HS) as [HN _].
  destruct (x_chain_cases Ht HS HR) as [F|(v0 & F & HM)]; rewrite E in F; [discriminate|]. injection F as <-.
  destruct (x_edit_eq h w E HM (proj2 HN) HV HC) as (k & all & K1 & K2 & EQ). exists k, all. split; auto. split; auto.
  rewrite EQ. destruct (edited _ _) as [[news c] b]. eexists. split; [unfold finish; reflexivity|].
  eexists. split; [apply putting_rewritten, HM|reflexivity].
Qed.
Print Assumptions c76_each.

(** Without checks, and with them for the views whose strides can be negated, exactly what C71 says. *)
Theorem c76_each_exact : forall dbg T C (h : T -> C -> edit T C) (t : tensor T) (w : world T C) ops v xs,
  tensor_ok t -> small dbg t -> run_machine dbg (whole (tn_ty t) (tn_dims t)) ops ->
  x_run dbg (whole (tn_ty t) (tn_dims t)) ops = Ok v -> contents (tn_mem t) v xs ->
  (if dbg then walkable true (zlen (tn_mem t)) v else visited v) ->
  let '(news, c, b) := edited (map (fun x => (x, h)) xs) (w_clo w) in
  finished b (x_edit dbg ops h (t, w)) (wrote t w v xs news c).
Proof.
  intros dbg T C h t w ops v xs Ht HS HR E HC HW.
  assert (HV : visited v) by (destruct dbg; auto; right; apply HW).
  destruct (@c76_each dbg T C h t w ops v xs Ht HS HR E HV HC) as (k & all & K1 & K2 & H).
  destruct all.
  - rewrite firstn_all2 in H by auto. destruct (edited _ _) as [[news c] b]. now rewrite andb_true_r in H.
  - destruct (K2 eq_refl) as [-> NW]. contradiction.
Qed.
Print Assumptions c76_each_exact.

(** [fill_with] and [fill]: the same loops. *)
Theorem c76_fill_with : forall dbg T C (f : C -> call T C) (t : tensor T) (w : world T C) ops v xs,
  tensor_ok t -> small dbg t -> run_machine dbg (whole (tn_ty t) (tn_dims t)) ops ->
  x_run dbg (whole (tn_ty t) (tn_dims t)) ops = Ok v -> visited v -> contents (tn_mem t) v xs ->
  exists k all,
    (all = true -> (length xs <= k)%nat) /\
    (all = false -> dbg = true /\ ~ walkable dbg (zlen (tn_mem t)) v) /\
    let '(rs, c, b) := gives (repeat f (length (firstn k xs))) (w_clo w) in
    finished (b && all) (x_fill_with dbg ops f (t, w))
      (wrote t w v xs (map Some rs ++ (if b then [] else [None])) c).
Proof.
  intros dbg T C f t w ops v xs Ht HS HR E HV HC.
  destruct (@c76_each dbg T C (edit_set f) t w ops v xs Ht HS HR E HV HC) as (k & all & K1 & K2 & H).
  exists k, all. split; auto. split; auto. rewrite edited_set in H.
  destruct (gives (repeat f (length (firstn k xs))) (w_clo w)) as [[rs c] b]. exact H.
Qed.
Print Assumptions c76_fill_with.

Theorem c76_fill : forall dbg T C value (cl : T -> T -> C -> edit T C) (t : tensor T) (w : world T C) ops v xs,
  tensor_ok t -> small dbg t -> run_machine dbg (whole (tn_ty t) (tn_dims t)) ops ->
  x_run dbg (whole (tn_ty t) (tn_dims t)) ops = Ok v -> visited v -> contents (tn_mem t) v xs ->
  exists k all,
    (all = true -> (length xs <= k)%nat) /\
    (all = false -> dbg = true /\ ~ walkable dbg (zlen (tn_mem t)) v) /\
    let '(news, c, b) := edited (map (fun x => (x, cl value)) (firstn k xs)) (w_clo w) in
    finished (b && all) (x_fill dbg ops value cl (t, w)) (fun s =>
      exists mem', rewritten (v_dims v) (v_addr v) news (tn_mem t) mem' /\
        s = (mkTensor (tn_ty t) (tn_dims t) mem' (tn_cap t),
             mkWorld c ((w_made w ++ [value]) ++ somes news) (w_used w) ((w_dropped w ++ replaced xs news) ++ [value]))).
Proof.
  intros dbg T C value cl t w ops v xs Ht HS HR E HV HC.
  set (w0 := mkWorld (w_clo w) (w_made w ++ [value]) (w_used w) (w_dropped w)).
  destruct (@c76_each dbg T C (cl value) t w0 ops v xs Ht HS HR E HV HC) as (k & all & K1 & K2 & H). change (w_clo w0) with (w_clo w) in H.
  exists k, all. split; auto. split; auto.
  destruct (edited _ (w_clo w)) as [[news c] b]. destruct H as (s & ES & mem' & HRw & ->). eexists. split.
  - unfold x_fill. cbn [fst snd]. fold w0. rewrite ES. destruct (b && all); reflexivity.
  - exists mem'. split; auto.
Qed.
Print Assumptions c76_fill.

(** [assign], [+=] and zips in general: refused without a trace unless the operand fits; otherwise the code gets each
    element of the view with the operand's item for the same index, up to the first panic of the operand, of the code
    or - with checks and a stride of [isize::MIN] - of the loop. *)
Theorem c76_zip : forall dbg T Y C (h : T -> Y -> C -> edit T C) (t : tensor T) (w : world T C) ops v xs (tr : tree Y) e size,
  tensor_ok t -> small dbg t -> run_machine dbg (whole (tn_ty t) (tn_dims t)) ops ->
  x_run dbg (whole (tn_ty t) (tn_dims t)) ops = Ok v -> positive (v_dims v) -> contents (tn_mem t) v xs ->
  t_leaves tr -> t_machine false size tr -> t_safe tr -> x_build dbg tr = Ok e ->
  (operand_fits (v_dims v) tr ->
     (t_need tr <= length (v_dims v) - t_outer (with_target (zlen (tn_mem t)) v tr))%nat) ->
  (~ operand_fits (v_dims v) tr /\ x_edit_zip dbg ops e h (t, w) = Unwound (t, w)) \/
  (operand_fits (v_dims v) tr /\
   let (ys, o) := produce (bcast (length (t_dims tr)) (t_act tr)) (indices (v_dims v)) (t_init tr) in
   exists k all,
     (all = true -> (length ys <= k)%nat) /\
     (all = false -> dbg = true /\ ~ (walkable dbg (zlen (tn_mem t)) v /\ t_machine dbg size tr)) /\
     let '(news, c, b) := edited (combine xs (map (fun y x => h x y) (firstn k ys))) (w_clo w) in
     finished (b && all && match o with Ok _ => true | _ => false end) (x_edit_zip dbg ops e h (t, w)) (wrote t w v xs news c)).
Proof.
  intros dbg T Y C h t w ops v xs tr e size Ht HS HR E HP HC HL HT HSf HB HNd. destruct (tensor_machine Ht HS) as [HN _].
  destruct (x_chain_cases Ht HS HR) as [F|(v0 & F & HM)]; rewrite E in F; [discriminate|]. injection F as <-. pose proof (mv_valid HM) as Hv.
  destruct (cut_with_tree HM (proj2 HN) HP HL HT HB HNd) as [[HO EZ]|(HO & z & EZ & HZ)]; [left|right]; split; auto.
  - unfold x_edit_zip. cbn [fst]. rewrite E. cbn [bind]. now rewrite EZ.
  - pose proof (bcast_proper (t_init tr) (wf_nonneg (vv_wf Hv)) HO HSf) as HPr.
    destruct (produce _ _ _) as [ys o]. cbn [snd] in HPr. destruct HZ as [HZ|(ED & NW & k & HZ)].
    + exists (length ys), true. split; auto. split; [discriminate|]. rewrite firstn_all.
      assert (HD : done o = Ok tt \/ done o = Panic) by (destruct o; try contradiction; auto).
      rewrite (x_edit_zip_eq h w E Hv HC EZ HZ HD). destruct (edited _ _) as [[news c] b]. rewrite andb_true_r. eexists. split.
      * unfold finish. destruct o; try contradiction; reflexivity.
      * eexists. split; [now apply putting_rewritten|reflexivity].
    + exists k, false. split; [discriminate|]. split; [auto|].
      rewrite (x_edit_zip_eq h w E Hv HC EZ HZ (or_intror eq_refl)). destruct (edited _ _) as [[news c] b].
      rewrite andb_false_r. cbn [andb]. eexists. split; [unfold finish; reflexivity|].
      eexists. split; [now apply putting_rewritten|reflexivity].
Qed.
Print Assumptions c76_zip.

(** ** One element *)
Theorem c76_at : forall dbg T C (h : T -> C -> edit T C) (t : tensor T) (w : world T C) ops v idx,
  tensor_ok t -> small dbg t -> run_machine dbg (whole (tn_ty t) (tn_dims t)) ops ->
  x_run dbg (whole (tn_ty t) (tn_dims t)) ops = Ok v -> nonneg idx ->
  (~ in_bounds (v_dims v) idx /\ x_edit_at dbg ops idx h (t, w) = Unwound (t, w)) \/
  (in_bounds (v_dims v) idx /\ exists x, v_get (tn_mem t) v idx = Ok x /\
   let '(Edit new c b) := h x (w_clo w) in
   finished b (x_edit_at dbg ops idx h (t, w)) (fun s => exists mem',
     length mem' = length (tn_mem t) /\
     nth_error mem' (Z.to_nat (v_addr v idx)) = Some (match new with Some y => y | None => x end) /\
     (forall a, a <> Z.to_nat (v_addr v idx) -> nth_error mem' a = nth_error (tn_mem t) a) /\
     s = (mkTensor (tn_ty t) (tn_dims t) mem' (tn_cap t),
          mkWorld c (w_made w ++ somes [new]) (w_used w) (w_dropped w ++ replaced [x] [new])))).
Proof.
  intros dbg T C h t w ops v idx Ht HS HR E HI. destruct (tensor_machine Ht HS) as [HN _].
  destruct (x_chain_cases Ht HS HR) as [F|(v0 & F & HM)]; rewrite E in F; [discriminate|]. injection F as <-. pose proof (mv_valid HM) as Hv.
  unfold x_edit_at. cbn [fst]. rewrite E. cbn [bind].
  destruct (@x_index_cases dbg _ v idx Hv (proj2 HN) HI) as [[B EX]|[B EX]]; rewrite EX; cbn [bind]; [right|left; auto].
  split; auto. destruct (proj1 (checked_get (mem := tn_mem t) Hv) idx B) as [x Ex]. exists x. split; auto. rewrite v_get_in in Ex by exact B.
  change (v_ptr v + m_offset (v_map v) idx) with (v_addr v idx).
  rewrite (put_one_eq h w Ex). destruct (h x (w_clo w)) as [new c b].
  eexists. split; [unfold finish; reflexivity|]. exists (putting [v_addr v idx] [new] (tn_mem t)).
  pose proof (vv_range Hv B) as HRg. split; [apply putting_length|]. split; [|split; [|reflexivity]].
  - rewrite (@putting_in T [v_addr v idx] [new] (tn_mem t) 0 (v_addr v idx)); auto.
    + cbn [nth_error]. destruct new; auto. unfold read in Ex. destruct (v_addr v idx <? 0); [discriminate|].
      destruct (nth_error (tn_mem t) (Z.to_nat (v_addr v idx))); congruence.
    + constructor; [intros []|constructor].
    + intros b' [<-|[]]. exact HRg.
  - intros a NE. apply putting_out. intros b' [<-|[]]. auto.
Qed.
Print Assumptions c76_at.

Theorem c76_linear : forall dbg T C (h : T -> C -> edit T C) (t : tensor T) (w : world T C) ops v k,
  tensor_ok t -> small dbg t -> run_machine dbg (whole (tn_ty t) (tn_dims t)) ops ->
  x_run dbg (whole (tn_ty t) (tn_dims t)) ops = Ok v -> 0 <= k ->
  x_edit_linear dbg ops k h (t, w) =
  if k <? prodZ (v_dims v) then x_edit_at dbg ops (nth (Z.to_nat k) (indices (v_dims v)) []) h (t, w) else Unwound (t, w).
Proof.
  intros dbg T C h t w ops v k Ht HS HR E Hk. destruct (tensor_machine Ht HS) as [HN _].
  destruct (x_chain_cases Ht HS HR) as [F|(v0 & F & HM)]; rewrite E in F; [discriminate|]. injection F as <-. pose proof (mv_valid HM) as Hv.
  unfold x_edit_linear, x_edit_at. cbn [fst]. rewrite E. cbn [bind]. rewrite (@x_linear_addr dbg v k _ Hv (proj2 HN) Hk).
  destruct (Z.ltb_spec k (prodZ (v_dims v))) as [L|L]; auto.
  pose proof (wf_nonneg (vv_wf Hv)) as Hn. rewrite indices_nth by (auto; lia). rewrite Z2Nat.id by lia.
  assert (B : in_bounds (v_dims v) (unflat (v_dims v) k)) by (apply unflat_in_bounds; auto; lia).
  assert (NB : nonneg (unflat (v_dims v) k)) by (clear - B; induction B; constructor; [lia|auto]).
  destruct (@x_index_cases dbg _ v _ Hv (proj2 HN) NB) as [[_ EX]|[F _]]; [rewrite EX; reflexivity|contradiction].
Qed.
Print Assumptions c76_linear.

(** ** The two halves of a split *)
Theorem c76_halves : forall dbg T C (h : T -> T -> C -> edit T C) (t : tensor T) (w : world T C) ops a mid ops1 ops2 v u1 u2 v1 v2 xs,
  tensor_ok t -> small dbg t ->
  run_machine dbg (whole (tn_ty t) (tn_dims t)) (ops ++ OpSplitFst a mid :: ops1) ->
  run_machine dbg (whole (tn_ty t) (tn_dims t)) (ops ++ OpSplitSnd a mid :: ops2) ->
  x_run dbg (whole (tn_ty t) (tn_dims t)) ops = Ok v -> x_split_axis_at dbg v a mid = Ok (u1, u2) ->
  x_run dbg u1 ops1 = Ok v1 -> x_run dbg u2 ops2 = Ok v2 ->
  positive (v_dims v1) -> contents (tn_mem t) v1 xs ->
  let fits := trailing_eq (v_dims v1) (v_dims v2) /\ (length (v_dims v2) <= length (v_dims v1))%nat in
  (~ fits /\ x_edit_halves dbg ops a mid ops1 ops2 h (t, w) = Unwound (t, w)) \/
  (fits /\ exists ys k all,
     (all = true -> (length xs <= k)%nat) /\
     (all = false -> dbg = true /\ ~ (walkable dbg (zlen (tn_mem t)) v1 /\ walkable dbg (zlen (tn_mem t)) v2)) /\
     Forall2 (fun idx y => v_get (tn_mem t) v2 (lastn (length (v_dims v2)) idx) = Ok y) (indices (v_dims v1)) ys /\
     let '(news, c, b) := edited (combine xs (map (fun y x => h x y) (firstn k ys))) (w_clo w) in
     finished (b && all) (x_edit_halves dbg ops a mid ops1 ops2 h (t, w)) (wrote t w v1 xs news c)).
Proof.
  intros dbg T C h t w ops a mid ops1 ops2 v u1 u2 v1 v2 xs Ht HS HA1 HA2 E ES E1 E2 HP HC fits.
  destruct (x_halves_views Ht HS HA1 HA2 E ES E1 E2) as (M1 & _ & _).
  destruct (x_halves_eq h w Ht HS HA1 HA2 E ES E1 E2 HP HC) as [[HO EQ]|(HO & ys & k & all & K1 & K2 & HY & EQ)]; [left|right].
  - split; auto. intros [H1 H2]. apply HO. split; [exact H1|]. split; [exact H2|]. left. reflexivity.
  - split; [split; apply HO|]. exists ys, k, all. split; auto. split; auto. split; auto. rewrite EQ.
    destruct (edited _ _) as [[news c] b]. eexists. split; [unfold finish; reflexivity|].
    eexists. split; [apply putting_rewritten, M1|reflexivity].
Qed.
Print Assumptions c76_halves.

(** Operations that panic, or overflow with checks, before anything is written. *)
Theorem c76_refused : forall dbg T Y C (t : tensor T) (w : world T C) ops (e : expression Y) h1 h2 f value cl idx k,
  x_run dbg (whole (tn_ty t) (tn_dims t)) ops = Panic ->
  x_edit dbg ops h1 (t, w) = Unwound (t, w) /\ x_edit_zip dbg ops e h2 (t, w) = Unwound (t, w) /\
  x_fill_with dbg ops f (t, w) = Unwound (t, w) /\
  x_fill dbg ops value cl (t, w) = Unwound (t, mkWorld (w_clo w) (w_made w ++ [value]) (w_used w) (w_dropped w ++ [value])) /\
  x_edit_at dbg ops idx h1 (t, w) = Unwound (t, w) /\ x_edit_linear dbg ops k h1 (t, w) = Unwound (t, w).
Proof.
  intros dbg T Y C t w ops e h1 h2 f value cl idx k E.
  unfold x_fill_with, x_fill, x_edit, x_edit_zip, x_edit_at, x_edit_linear. cbn [fst snd]. rewrite E. cbn [bind]. auto 10.
Qed.
Print Assumptions c76_refused.

(** ** Programs *)

(** Nothing undefined happens, whatever overflows; every tensor stays consistent and of machine size, and every element
    is in exactly one place. *)
Theorem c76_program : forall dbg T C al (p : list (state T C -> cmd T C)) c,
  al_machine al -> x_prog_ok dbg al p (start c) ->
  match x_prog dbg al p (start c) with
  | Done _ st =>
      (forall i t, var st i = Some t ->
         nonneg (tn_dims t) /\ typed (tn_ty t) (tn_dims t) /\
         zlen (tn_mem t) = prodZ (tn_dims t) /\ zlen (tn_mem t) <= tn_cap t <= isize_max /\
         x_len dbg (tn_dims t) = Ok (zlen (tn_mem t))) /\
      exists leaked,
        Permutation (w_made (st_w st)) (held (st_vars st) ++ leaked ++ w_used (st_w st) ++ w_dropped (st_w st)) /\
        within leaked (x_prog_leak dbg al p (start c)) /\
        (NoDup (w_made (st_w st)) -> NoDup (held (st_vars st) ++ leaked ++ w_used (st_w st) ++ w_dropped (st_w st)))
  | Aborted => exists p1 p2 st i t, p = p1 ++ p2 /\ x_prog dbg al p1 (start c) = Done tt st /\
      var st i = Some t /\ prodZ (sh_default (tn_ty t)) <> 0
  | _ => False
  end.
Proof.
  intros dbg T C al p c HA HO. pose proof (x_prog_safe HA (start_consistent c) (Forall_nil _) HO) as H. unfold safe_res in H.
  destruct (x_prog dbg al p (start c)) as [[] st|st| |]; auto.
  - destruct H as [HS (more & HC & HW)]. split.
    + intros i t EV. pose proof (var_ok HC EV) as Ht. pose proof (var_small HS EV) as HSt.
      assert (HL : zlen (tn_mem t) = prodZ (tn_dims t)) by exact (to_len Ht).
      split; [apply Ht|]. split; [apply (to_typed Ht)|]. split; [exact HL|].
      split; [pose proof (to_cap Ht); pose proof (sm_cap HSt); unfold zlen; lia|].
      rewrite HL. apply counted_len; [apply Ht|apply HSt].
    + destruct HC as [_ HP]. exists more. split; auto. split; auto. intros HN. eapply Permutation_NoDup; eauto.
  - destruct H as (p1 & p2 & st & H1 & H2 & i & t & H3 & H4). exists p1, p2, st, i, t. auto.
Qed.
Print Assumptions c76_program.

(** Programs whose commands are neither [zip_with] nor leave a draining iterator behind lose nothing. *)
Theorem c76_clean : forall dbg T C al (p : list (state T C -> cmd T C)) c st,
  al_machine al -> x_prog_ok dbg al p (start c) -> x_prog dbg al p (start c) = Done tt st ->
  Forall (fun k => forall s : state T C, match k s with Own (ZipWith _ _ _) | Own (DrainLeak _ _ _ _) => False | _ => True end) p ->
  Permutation (w_made (st_w st)) (held (st_vars st) ++ w_used (st_w st) ++ w_dropped (st_w st)).
Proof.
  intros dbg T C al p c st HA HO E HP.
  assert (L : forall q s, Forall (fun k => forall s : state T C, match k s with Own (ZipWith _ _ _) | Own (DrainLeak _ _ _ _) => False | _ => True end) q ->
    x_prog_leak dbg al q s = Some 0%nat).
  { induction q as [|k q IH]; intros s H; [reflexivity|]. inversion H as [|? ? Hk Hq]; subst. cbn [x_prog_leak]. specialize (Hk s).
    assert (K : cmd_leak (k s) = Some 0%nat) by (destruct (k s) as [o| | | | | | |]; try reflexivity; destruct o; try reflexivity; contradiction).
    rewrite K. destruct (x_exec dbg al (k s) s); try reflexivity. now rewrite IH. }
  pose proof (@c76_program dbg T C al p c HA HO) as H. rewrite E in H. destruct H as (_ & leaked & P & W & _).
  rewrite (L p (start c) HP) in W. destruct leaked; [exact P|cbn in W; lia].
Qed.
Print Assumptions c76_clean.

(** Operands that are expression trees are admitted. *)
Theorem c76_operand : forall dbg Y n v (tr : tree Y) e size,
  machine_view n v -> n <= isize_max -> positive (v_dims v) ->
  t_leaves tr -> t_machine false size tr -> t_safe tr -> x_build dbg tr = Ok e ->
  (operand_fits (v_dims v) tr -> (t_need tr <= length (v_dims v) - t_outer (with_target n v tr))%nat) ->
  xzips dbg n v e.
Proof. exact @tree_xzips. Qed.
Print Assumptions c76_operand.

(** ** Without checks nothing is lost *)

(** Commands whose views, made with unbounded integers, have elements. *)
Definition wide_cmd {T C} (k : cmd T C) (st : state T C) : Prop :=
  let on i ops (P : Prop) :=
    forall t, var st i = Some t -> run_wide (whole (tn_ty t) (tn_dims t)) ops /\
      (exists v, v_run (whole (tn_ty t) (tn_dims t)) ops = Ok v /\ positive (v_dims v)) /\ P in
  match k with
  | Own o => op_ok o st /\ machine_op false o st
  | EachMut i ops _ | FillWith i ops _ | Fill i ops _ _ => on i ops True
  | SetAt i ops idx _ => on i ops (nonneg idx)
  | SetLinear i ops n _ => on i ops (0 <= n)
  | ZipMut _ _ _ _ | Halves _ _ _ _ _ _ _ => False
  end.
Fixpoint wide_prog {T C} (al : allocator) (p : list (state T C -> cmd T C)) (st : state T C) : Prop :=
  match p with
  | [] => True
  | k :: p' => wide_cmd (k st) st /\ (forall st', exec al (k st) st = Done tt st' -> wide_prog al p' st')
  end.

Lemma release_view {T} (t : tensor T) ops v :
  tensor_ok t -> small false t -> run_wide (whole (tn_ty t) (tn_dims t)) ops ->
  v_run (whole (tn_ty t) (tn_dims t)) ops = Ok v -> positive (v_dims v) ->
  exists v', x_run false (whole (tn_ty t) (tn_dims t)) ops = Ok v' /\ machine_view (zlen (tn_mem t)) v' /\ same_view v' v /\
    valid_view (zlen (tn_mem t)) v.
Proof.
  intros Ht HS HR E HP. destruct (tensor_machine Ht HS) as [HN HM]. apply prodZ_pos in HP.
  destruct (@c66_release_run _ _ _ _ HN HM HR E HP) as (v' & X & M & S). exists v'. split; auto. split; auto. split; auto.
  eapply (x_run_faithful HN (mv_valid HM) (mv_dims HM) HR E HP).
Qed.

Lemma release_each {T C} (t : tensor T) (w : world T C) ops v h :
  tensor_ok t -> small false t -> run_wide (whole (tn_ty t) (tn_dims t)) ops ->
  v_run (whole (tn_ty t) (tn_dims t)) ops = Ok v -> positive (v_dims v) ->
  x_edit false ops h (t, w) = tn_edit ops h (t, w).
Proof.
  intros Ht HS HR E HP. destruct (release_view Ht HS HR E HP) as (v' & X & M & S & HV).
  destruct (contents_exist HV) as [xs HC].
  assert (EA : forall idx, In idx (indices (v_dims v)) -> v_addr v' idx = v_addr v idx).
  { intros idx Hi. apply (sv_addr S). rewrite (sv_dims S). now apply in_indices. }
  assert (HC' : contents (tn_mem t) v' xs).
  { unfold contents in *. rewrite (sv_dims S). revert HC. clear - EA S.
    assert (G : forall idx, In idx (indices (v_dims v)) -> in_bounds (v_dims v) idx) by (intros; now apply in_indices).
    revert EA G. generalize (indices (v_dims v)) as l. intros l EA G H. induction H as [|idx x l xs HG H IH]; constructor.
    - rewrite v_get_in in * by (rewrite ?(sv_dims S); apply G; now left). rewrite EA by now left. exact HG.
    - apply IH; intros; [apply EA|apply G]; now right. }
  assert (HP' : positive (v_dims v')) by (rewrite (sv_dims S); exact HP).
  destruct (x_edit_eq h w X M (proj2 (proj1 (tensor_machine Ht HS))) (or_intror HP') HC') as (k & all & K1 & K2 & ->).
  rewrite (edit_eq h w E HV (positive_visits HP) HC). destruct all; [|destruct (K2 eq_refl); discriminate].
  rewrite firstn_all2 by auto. rewrite (sv_dims S), (map_ext_in _ _ _ EA).
  destruct (edited _ _) as [[news c] b]. now rewrite andb_true_r.
Qed.

Lemma release_at {T C} (t : tensor T) (w : world T C) ops v idx h :
  tensor_ok t -> small false t -> run_wide (whole (tn_ty t) (tn_dims t)) ops ->
  v_run (whole (tn_ty t) (tn_dims t)) ops = Ok v -> positive (v_dims v) -> nonneg idx ->
  x_edit_at false ops idx h (t, w) = tn_edit_at ops idx h (t, w).
Proof.
  intros Ht HS HR E HP HI. destruct (release_view Ht HS HR E HP) as (v' & X & M & S & HV).
  unfold x_edit_at, tn_edit_at. cbn [fst]. rewrite X, E. cbn [bind].
  destruct (@x_index_cases false _ v' idx (mv_valid M) (proj2 (proj1 (tensor_machine Ht HS))) HI) as [[B EX]|[B EX]]; rewrite EX; cbn [bind].
  - pose proof (sv_addr S B) as EA. rewrite (sv_dims S) in B. rewrite slice_index_multi_in by exact B. cbn [bind].
    change (v_ptr v' + m_offset (v_map v') idx) with (v_addr v' idx). now rewrite EA.
  - rewrite (sv_dims S) in B. now rewrite slice_index_multi_out.
Qed.

Lemma release_linear {T C} (t : tensor T) (w : world T C) ops v n h :
  tensor_ok t -> small false t -> run_wide (whole (tn_ty t) (tn_dims t)) ops ->
  v_run (whole (tn_ty t) (tn_dims t)) ops = Ok v -> positive (v_dims v) -> 0 <= n ->
  x_edit_linear false ops n h (t, w) = tn_edit_linear ops n h (t, w).
Proof.
  intros Ht HS HR E HP HI. destruct (release_view Ht HS HR E HP) as (v' & X & M & S & HV).
  unfold x_edit_linear, tn_edit_linear. cbn [fst]. rewrite X, E. cbn [bind].
  rewrite (@x_linear_addr false v' n _ (mv_valid M) (proj2 (proj1 (tensor_machine Ht HS))) HI), (linear_addr (vv_wf HV) HI), (sv_dims S).
  destruct (Z.ltb_spec n (prodZ (v_dims v))) as [L|L]; auto. rewrite (sv_addr S); [reflexivity|]. rewrite (sv_dims S).
  apply unflat_in_bounds; [apply HV|lia].
Qed.

Theorem c76_release_step : forall T C al (k : cmd T C) (st : state T C) l,
  al_machine al -> consistent st l -> small_state false st -> wide_cmd k st ->
  x_exec false al k st = exec al k st.
Proof.
  intros T C al k st l HA HC HS HO.
  assert (G : forall i (m m' : M (tensor T * world T C) unit),
    (forall t, var st i = Some t -> tensor_ok t -> small false t -> m (t, st_w st) = m' (t, st_w st)) -> on_var i m st = on_var i m' st).
  { intros i m m' H. unfold on_var. destruct (var st i) as [t|] eqn:EV; auto.
    now rewrite (H t eq_refl (var_ok HC EV) (var_small HS EV)). }
  destruct k as [o|i ops h|i Y ops e h|i ops f|i ops value cl|i ops idx h|i ops n h|i ops a mid ops1 ops2 h]; cbn [wide_cmd x_exec exec] in *;
    try contradiction.
  - destruct HO as [HO HM]. apply (x_op_ok HA HC HO); auto.
    destruct o; cbn [machine_op small_op] in *; auto; split; auto; discriminate.
  - apply G. intros t EV Ht HSt. destruct (HO t EV) as (HR & (v & E & HP) & _). now apply (release_each _ h Ht HSt HR E).
  - apply G. intros t EV Ht HSt. destruct (HO t EV) as (HR & (v & E & HP) & _). now apply (release_each _ (edit_set f) Ht HSt HR E).
  - apply G. intros t EV Ht HSt. destruct (HO t EV) as (HR & (v & E & HP) & _). unfold x_fill, tn_fill. cbn [fst snd].
    now rewrite (release_each _ (cl value) Ht HSt HR E HP).
  - apply G. intros t EV Ht HSt. destruct (HO t EV) as (HR & (v & E & HP) & HI). now apply (release_at _ h Ht HSt HR E).
  - apply G. intros t EV Ht HSt. destruct (HO t EV) as (HR & (v & E & HP) & HI). now apply (release_linear _ h Ht HSt HR E).
Qed.
Print Assumptions c76_release_step.

Lemma wide_args v ops : run_wide v ops -> run_args v ops.
Proof. revert v. induction ops as [|o ops IH]; intros v; cbn; auto. intros [[H _] HR]. split; auto. Qed.
Lemma wide_arg {T} (t : tensor T) ops : tensor_ok t -> small false t -> run_wide (whole (tn_ty t) (tn_dims t)) ops -> view_arg t ops.
Proof.
  intros Ht HS HR. destruct (tensor_machine Ht HS) as [HN HM]. split; [exact (sm_dims HS)|].
  split; [unfold isize_max, usize_max in *; unfold zlen in *; lia|now apply wide_args].
Qed.

Lemma wide_cmd_ok {T C} (k : cmd T C) (st : state T C) l :
  consistent st l -> small_state false st -> wide_cmd k st -> cmd_ok k st.
Proof.
  intros HC HS HO. destruct k; cbn [wide_cmd cmd_ok] in *; try contradiction; [exact (proj1 HO)| | | | |];
    intros t EV; destruct (HO t EV) as (HR & (v & E & HP) & HI); (split; [apply wide_arg; auto; [exact (var_ok HC EV)|exact (var_small HS EV)]|]);
    intros v' E'; rewrite E in E'; injection E' as <-; auto; now apply positive_visits.
Qed.

Lemma wide_small {T C} al (k : cmd T C) (st st' : state T C) l :
  al_machine al -> consistent st l -> small_state false st -> wide_cmd k st -> x_exec false al k st = Done tt st' -> small_state false st'.
Proof.
  intros HA HC HS HO.
  assert (G : forall i (m : M (tensor T * world T C) unit),
    (forall t, keeps t (m (t, st_w st))) -> on_var i m st = Done tt st' -> small_state false st').
  { intros i m K. unfold on_var. destruct (var st i) as [t|] eqn:EV; [|now intros [= <-]]. specialize (K t).
    destruct (var_small HS EV) as [S1 S2 S3].
    destruct (m (t, st_w st)) as [a [t' w']|[t' w']| |]; cbn [keeps] in K; try discriminate; intros [= <-]; apply set_small; auto;
      destruct K as [K1 K2]; constructor; rewrite ?K1, ?K2; auto. }
  destruct k as [o|i ops h|i Y ops e h|i ops f|i ops value cl|i ops idx h|i ops n h|i ops a mid ops1 ops2 h]; cbn [wide_cmd x_exec] in *;
    try contradiction.
  - destruct HO as [HO HM]. destruct (@x_op_ok false T C al o st l HA HC HO) as [E HP]; auto.
    + destruct o; cbn [machine_op small_op] in *; auto; split; auto; discriminate.
    + rewrite E. intros E'. now rewrite E' in HP.
  - apply G. intros t. apply x_edit_keeps.
  - apply G. intros t. apply x_edit_keeps.
  - apply G. intros t. apply x_fill_keeps.
  - apply G. intros t. apply x_edit_at_keeps.
  - apply G. intros t. apply x_edit_linear_keeps.
Qed.

(** Without checks a program of such commands does exactly what it does with unbounded integers, panics included. *)
Theorem c76_release : forall T C al (p : list (state T C -> cmd T C)) c,
  al_machine al -> wide_prog al p (start c) -> x_prog false al p (start c) = run_prog al p (start c).
Proof.
  intros T C al p c HA. assert (G : forall (st : state T C) l, consistent st l -> small_state false st -> wide_prog al p st ->
    x_prog false al p st = run_prog al p st).
  { induction p as [|k p IH]; intros st l HC HS HM; [reflexivity|]. destruct HM as [HO HR].
    pose proof (c76_release_step HA HC HS HO) as E. pose proof (exec_ok al HC (wide_cmd_ok HC HS HO)) as H.
    cbn [x_prog run_prog]. unfold seqM. destruct (exec al (k st) st) as [[] st'|st'| |] eqn:EE; rewrite E; auto.
    destruct H as (more & HC' & _). apply (IH st' _ HC'); auto. exact (wide_small HA HC HS HO E). }
  intros HM. apply (G (start c) []); auto using start_consistent. constructor.
Qed.
Print Assumptions c76_release.

(** ** What the checks cost *)

(** With overflow checks a loop over a view that was made without a panic can end half way, in a panic of its own, with
    part of the elements written; the same program without checks writes them all.  (view.rs:375 negates the stride
    [isize::MIN] of a dimension of one element.) *)
Definition t212 : tensor Z := mkTensor (STuple [DDyn; DDyn; DDyn]) [2; 1; 2] [1; 2; 3; 4] 4.
Lemma small_fits dims : forallb (fun d => 0 <? d) dims = true -> (prodZ dims <=? 1000) = true -> fits dims.
Proof.
  intros HP HL k. assert (P : positive dims) by (apply Forall_forall; intros d Hd; rewrite forallb_forall in HP; specialize (HP d Hd); lia).
  assert (E : prodZ (firstn k dims) * prodZ (skipn k dims) = prodZ dims) by (rewrite <- prodZ_app; now rewrite firstn_skipn).
  assert (P1 : 0 < prodZ (firstn k dims)) by (apply prodZ_pos, Forall_firstn'; exact P).
  assert (P2 : 0 < prodZ (skipn k dims)) by (apply prodZ_pos; rewrite <- (firstn_skipn k dims) in P; now apply Forall_app in P).
  unfold usize_max. nia.
Qed.
Lemma t212_ok : tensor_ok t212.
Proof. constructor; wf_tac. Qed.
Lemma t212_small dbg : small dbg t212.
Proof.
  constructor; [apply small_dims; reflexivity| |cbn; unfold isize_max; lia].
  split; [apply small_len; reflexivity|]. intros _. apply small_fits; reflexivity.
Qed.
Definition ex_min : list vop := [OpView [IxFull; IxStep Unbounded Unbounded (- 2 ^ 62); IxFull]].
Lemma ex_min_arg dbg : run_machine dbg (whole (tn_ty t212) (tn_dims t212)) ex_min.
Proof.
  split; [|intros; exact I]. split; [|exact I]. split; [|reflexivity].
  constructor; [exact I|]. constructor; [cbn [ix_arg bound_arg]; repeat split; discriminate|]. constructor; [exact I|constructor].
Qed.
Definition add_ten (x c : Z) : edit Z Z := Edit (Some (x + 10)) c true.
Theorem c76_refuted : exists (t : tensor Z) ops v,
  tensor_ok t /\ small true t /\ run_machine true (whole (tn_ty t) (tn_dims t)) ops /\
  x_run true (whole (tn_ty t) (tn_dims t)) ops = Ok v /\ x_run false (whole (tn_ty t) (tn_dims t)) ops = Ok v /\
  visited v /\ contents (tn_mem t) v [1; 2; 3; 4] /\
  (exists w, x_edit true ops add_ten (t, mkWorld 0 [] [] []) = Unwound (mkTensor (tn_ty t) (tn_dims t) [11; 12; 3; 4] 4, w)) /\
  (exists w, x_edit false ops add_ten (t, mkWorld 0 [] [] []) = Done tt (mkTensor (tn_ty t) (tn_dims t) [11; 12; 13; 14] 4, w)).
Proof.
  exists t212, ex_min. eexists. split; [exact t212_ok|]. split; [apply t212_small|]. split; [apply ex_min_arg|].
  split; [vm_compute; reflexivity|]. split; [vm_compute; reflexivity|]. split; [right; vm_compute; repeat constructor|].
  split; [repeat constructor|]. split; eexists; vm_compute; reflexivity.
Qed.
Print Assumptions c76_refuted.

(** ** Examples *)
Lemma t23_small dbg : small dbg t23.
Proof.
  constructor; [apply small_dims; reflexivity| |cbn; unfold isize_max; lia].
  split; [apply small_len; reflexivity|]. intros _. apply small_fits; reflexivity.
Qed.
Lemma ex_cols_machine dbg : run_machine dbg (whole (tn_ty t23) (tn_dims t23)) ex_cols.
Proof.
  split; [|intros; exact I]. split; [|exact I]. split; [|reflexivity].
  constructor; [exact I|]. constructor; [cbn [ix_arg bound_arg]; repeat split; discriminate|constructor].
Qed.
Example c76_each_example : forall dbg, exists v, tensor_ok t23 /\ small dbg t23 /\
  run_machine dbg (whole (tn_ty t23) (tn_dims t23)) ex_cols /\
  x_run dbg (whole (tn_ty t23) (tn_dims t23)) ex_cols = Ok v /\ walkable dbg 6 v /\ contents (tn_mem t23) v [3; 2; 6; 5] /\
  x_edit dbg ex_cols add_c (t23, mkWorld 0 [] [] []) =
  Unwound (mkTensor ty2 [2; 3] [1; 2; 103; 4; 0; 106] 6, mkWorld 3 [103; 106; 0] [] [3; 6; 5]).
Proof.
  intros dbg. eexists. split; [exact t23_ok|]. split; [apply t23_small|]. split; [apply ex_cols_machine|].
  split; [destruct dbg; vm_compute; reflexivity|].
  pose proof (x_chain_cases t23_ok (t23_small dbg) (ex_cols_machine dbg)) as [E|(v & E & HM)]; [destruct dbg; vm_compute in E; discriminate|].
  assert (EV : v = mkView 2 (StridedM (STuple [DDyn; DDyn]) [2; 2] [3; -1])) by (destruct dbg; vm_compute in E; congruence). subst v.
  split; [|split; [repeat constructor|destruct dbg; vm_compute; reflexivity]].
  apply machine_walkable; auto; [vm_compute; discriminate|repeat constructor|].
  intros _. repeat constructor; vm_compute; discriminate.
Qed.
Example c76_halves_example : forall dbg,
  x_edit_halves dbg [] (AxConst 0) 1 [] [OpAxisAt (AxConst 0) 0] (fun x y c => Edit (Some (x + y)) c true)
    (t23, mkWorld 0 [] [] []) =
  Done tt (mkTensor ty2 [2; 3] [5; 7; 9; 4; 5; 6] 6, mkWorld 0 [5; 7; 9] [] [1; 2; 3]).
Proof. intros []; vm_compute; reflexivity. Qed.
Example c76_at_example : forall dbg,
  x_edit_at dbg ex_cols [1; 0] (fun x c => Edit (Some (10 * x)) c true) (t23, mkWorld 0 [] [] []) =
  Done tt (mkTensor ty2 [2; 3] [1; 2; 3; 4; 5; 60] 6, mkWorld 0 [60] [] [6]) /\
  x_edit_linear dbg ex_cols 2 (fun x c => Edit (Some (10 * x)) c true) (t23, mkWorld 0 [] [] []) =
  Done tt (mkTensor ty2 [2; 3] [1; 2; 3; 4; 5; 60] 6, mkWorld 0 [60] [] [6]) /\
  x_edit_at dbg ex_cols [2; 0] (fun x c => Edit (Some (10 * x)) c true) (t23, mkWorld 0 [] [] []) =
  Unwound (t23, mkWorld 0 [] [] []).
Proof. intros []; vm_all. Qed.
Example c76_zip_example : forall dbg, exists e,
  x_build dbg ex_operand = Ok e /\ t_leaves ex_operand /\ t_machine false (fun _ => 2) ex_operand /\
  x_edit_zip dbg ex_cols e (fun x y c => Edit (Some (x + y)) (c + 1) (c <? 2)) (t23, mkWorld 0 [] [] []) =
  Unwound (mkTensor ty2 [2; 3] [1; 22; 13; 4; 5; 16] 6, mkWorld 3 [13; 22; 16] [] [3; 2; 6]).
Proof.
  intros dbg. assert (V : valid_view 2 (whole ty1 [2])) by (apply whole_valid; [wf_tac|wf_tac|wf_tac|cbn; lia]).
  eexists. split; [reflexivity|]. split; [exact V|].
  split; [|destruct dbg; vm_compute; reflexivity].
  split; [exact V|]. split; [vm_compute; discriminate|]. split; [repeat constructor|].
  repeat constructor; try discriminate; vm_compute; discriminate.
Qed.

(** The program of C72, and one that writes to a view whose stride wraps around without checks. *)
Example c76_program_example : forall dbg, exists st, x_prog dbg al_1000 ex_program (start 0) = Done tt st /\
  st_vars st = [Some (mkTensor ty2 [1; 3] [1; 101; 101] 6)] /\
  w_made (st_w st) = [1; 2; 3; 4; 5; 6; 100; 101; 101] /\ w_used (st_w st) = [4] /\
  w_dropped (st_w st) = [3; 2; 5; 6; 100].
Proof. intros []; eexists; vm_all. Qed.
Definition ex_wide : list (state Z Z -> cmd Z Z) :=
  [fun _ => Own (FromVec [1; 2; 3; 4] 4);
   fun _ => Own (IntoShape 0 (STuple [DDyn; DDyn; DDyn]) [2; 1; 2]);
   fun _ => EachMut 0 [OpView [IxFull; IxStep Unbounded Unbounded (- 2 ^ 62 - 1); IxFull]] add_ten].
Example c76_release_example : wide_prog al_1000 ex_wide (start 0) /\
  (exists st, x_prog false al_1000 ex_wide (start 0) = Done tt st /\
    st_vars st = [Some (mkTensor (STuple [DDyn; DDyn; DDyn]) [2; 1; 2] [11; 12; 13; 14] 4)]) /\
  (exists st, x_prog true al_1000 ex_wide (start 0) = Done tt st /\
    st_vars st = [Some (mkTensor (STuple [DDyn; DDyn; DDyn]) [2; 1; 2] [1; 2; 3; 4] 4)]).
Proof.
  split; [|split; eexists; vm_all]. unfold ex_wide.
  split; [split; vm_compute; discriminate|]. intros st' E. vm_compute in E. injection E as <-.
  split; [split; [split; [wf_tac|split; [reflexivity|wf_tac]]|repeat constructor; vm_compute; discriminate]|].
  intros st' E. vm_compute in E. injection E as <-. split; [|intros; exact I].
  intros t H. vm_compute in H. injection H as <-. split; [|split; [|exact I]].
  - split; [|intros; exact I]. split; [|exact I]. split; [|reflexivity].
    constructor; [exact I|]. constructor; [cbn [ix_arg bound_arg]; repeat split; discriminate|]. constructor; [exact I|constructor].
  - eexists. split; [vm_compute; reflexivity|]. vm_compute. repeat constructor.
Qed.

(** A loop that ends half way with checks, and a write to the tensor it leaves. *)
Definition ex_half : list (state Z Z -> cmd Z Z) :=
  [fun _ => Own (FromVec [1; 2; 3; 4] 4);
   fun _ => Own (IntoShape 0 (STuple [DDyn; DDyn; DDyn]) [2; 1; 2]);
   fun _ => EachMut 0 ex_min add_ten;
   fun _ => SetLinear 0 ex_min 3 (fun x c => Edit (Some (2 * x)) c true)].
Example c76_half_example : forall dbg, al_machine al_1000 /\ x_prog_ok dbg al_1000 ex_half (start 0) /\
  exists st, x_prog dbg al_1000 ex_half (start 0) = Done tt st /\
    st_vars st = [Some (mkTensor (STuple [DDyn; DDyn; DDyn]) [2; 1; 2] (if dbg then [11; 12; 3; 8] else [11; 12; 13; 28]) 4)].
Proof.
  intros dbg. split; [exact al_1000_machine|]. split; [|destruct dbg; eexists; vm_all]. unfold ex_half.
  split; [split; vm_compute; discriminate|]. intros st' E. destruct dbg; vm_compute in E; injection E as <-.
  all: split; [split; [split; [wf_tac|split; [reflexivity|wf_tac]]|repeat constructor; vm_compute; discriminate]|].
  all: intros st' E; vm_compute in E; injection E as <-.
  all: split; [intros t H; vm_compute in H; injection H as <-; split; [apply ex_min_arg|]; intros v EV; vm_compute in EV; injection EV as <-; right; vm_compute; repeat constructor|].
  all: intros st' E; vm_compute in E; injection E as <-.
  all: split; [intros t H; vm_compute in H; injection H as <-; split; [apply ex_min_arg|]; intros v EV; vm_compute; discriminate|].
  all: intros; exact I.
Qed.
