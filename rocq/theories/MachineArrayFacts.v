(** Facts about fixed-size arrays with machine integers. *)
From Verif Require Import Base Spec SpecFacts Shape Mapping Index View Wf MappingFacts MapOps ReshapeFacts.
From Verif Require Import IndexFacts ViewFacts ViewMore Expr ExprSpec ExprFacts IterFacts SourceFacts ExprTree ExprMore.
From Verif Require Import Tensor TraceFacts TensorSpec TensorFacts ResizeFacts TensorOps DrainFacts OwnFacts ZipFacts History HistoryFacts.
From Verif Require Import Ops Serde SerdeSpec SerdeFacts SerdeMore.
From Verif Require Import Machine MachineSpec MachineFacts MachineWrap MachineIter MachineIterFacts MachineTensor MachineTensorFacts MachineTensorMore.
From Verif Require Import MachineTensorRun MachineSerde MachineSerdeFacts MachineArray.
Unset Strict Implicit.

(** ** Two expressions that agree as long as the first is not undefined *)

Definition until {A B} (t t' : list A * outcome B) : Prop := snd t = UB /\ exists ys, fst t' = fst t ++ ys.

Section Unless.
  Context {A S : Type} (init : S) (ty : shty) (dims : list Z) (inner : option nat) (rep : bool).
  Context (g g' : Z -> S -> outcome (A * S)) (r : nat -> Z -> S -> outcome S) (s : nat -> S -> outcome S).
  Context (P : S -> Prop).
  Let e : expression A := mkExpr S init ty dims inner rep g r s.
  Let e' : expression A := mkExpr S init ty dims inner rep g' r s.
  Hypothesis HG : forall i st, P st -> g i st = UB \/ g' i st = g i st.
  Hypothesis PG : forall i st a st', P st -> g i st = Ok (a, st') -> P st'.
  Hypothesis PR : forall d c st st', P st -> r d c st = Ok st' -> P st'.
  Hypothesis PS : forall d st st', P st -> s d st = Ok st' -> P st'.

  Lemma unless_inner n : forall i (st : S), P st ->
    until (inner_trace e n i st) (inner_trace e' n i st) \/
    inner_trace e' n i st = inner_trace e n i st /\ (forall st', snd (inner_trace e n i st) = Ok st' -> P st').
  Proof.
    induction n as [|n IH]; intros i st HP; [right; split; [reflexivity|]; cbn; now intros st' [= <-]|]. cbn [inner_trace].
    change (e_get e' i st) with (g' i st). change (e_get e i st) with (g i st).
    destruct (HG i HP) as [E|E]; [left; rewrite E; split; [reflexivity|eexists; reflexivity]|]. rewrite E.
    destruct (g i st) as [[a st1]| | |] eqn:EG; [|right; split; [reflexivity|cbn; discriminate]..].
    destruct (IH (i + 1) st1 (PG HP EG)) as [H|[H1 H2]].
    - left. destruct (inner_trace e n (i + 1) st1) as [xs o]. destruct (inner_trace e' n (i + 1) st1) as [xs' o'].
      destruct H as [H1 [ys H2]]. cbn [fst snd] in *. split; [exact H1|]. exists ys. cbn [fst]. now rewrite H2.
    - right. rewrite H1. destruct (inner_trace e n (i + 1) st1) as [xs o]. split; [reflexivity|exact H2].
  Qed.

  Lemma keeps_steps n : forall (st : S) olimit outer b st' o, P st -> step_loop e olimit n st outer = Ok (b, st', o) -> P st'.
  Proof.
    clear HG PG. induction n as [|i IH]; intros st olimit outer b st' o HP; cbn [step_loop]; [now intros [= _ <- _]|].
    change (e_step e i st) with (s i st). change (e_reset e i (nth i outer 0) st) with (r i (nth i outer 0) st).
    destruct (_ <? _).
    - destruct (s i st) as [st1| | |] eqn:E; cbn [bind]; try discriminate. intros [= _ <- _]. eauto.
    - destruct (r i _ st) as [st1| | |] eqn:E; cbn [bind]; try discriminate. apply IH. eauto.
  Qed.

  Lemma keeps_outer (it : iter e) b (it' : iter e) : P (it_st it) -> step_outer it = Ok (b, it') -> P (it_st it').
  Proof.
    intros HP.
    change (step_outer it) with
      (let* st := (if (outer_rank e <? length dims)%nat then r (length dims - 1)%nat 0 (it_st it) else Ok (it_st it) : outcome S) in
       let* (b, st, outer) := (step_loop e (it_olimit it) (outer_rank e) st (it_outer it) : outcome (bool * S * list Z)) in
       Ok (b, @mkIter A e st (it_index it) (it_limit it) (if b then outer else map (fun _ => 0) outer) (it_olimit it))).
    assert (H0 : forall st, (if (outer_rank e <? length dims)%nat then r (length dims - 1)%nat 0 (it_st it) else Ok (it_st it) : outcome S) = Ok st -> P st).
    { intros st. destruct (_ <? _)%nat; [intros E; eauto|now intros [= <-]]. }
    destruct (if (outer_rank e <? length dims)%nat then _ else _) as [st| | |]; cbn [bind]; try discriminate.
    destruct (step_loop e _ _ st _) as [[[b1 st1] o1]| | |] eqn:E; cbn [bind]; try discriminate.
    intros [= _ <-]. cbn [it_st]. exact (keeps_steps (H0 _ eq_refl) E).
  Qed.

  Definition as2 (it : iter e) : iter e' := @mkIter A e' (it_st it) (it_index it) (it_limit it) (it_outer it) (it_olimit it).

  Lemma same_steps n : forall (st : S) olimit outer, step_loop e' olimit n st outer = step_loop e olimit n st outer.
  Proof.
    clear HG PG PR PS. induction n as [|i IH]; intros st olimit outer; [reflexivity|]. cbn [step_loop].
    change (e_step e' i st) with (s i st). change (e_step e i st) with (s i st).
    change (e_reset e' i (nth i outer 0) st) with (r i (nth i outer 0) st). change (e_reset e i (nth i outer 0) st) with (r i (nth i outer 0) st).
    destruct (_ <? _); auto. destruct (r i _ st); cbn [bind]; auto.
  Qed.

  Lemma same_outer (it : iter e) : step_outer (as2 it) =
    (let* (b, it) := step_outer it in Ok (b, as2 it)).
  Proof.
    clear HG PG PR PS.
    change (step_outer (as2 it)) with
      (let* st := (if (outer_rank e <? length dims)%nat then r (length dims - 1)%nat 0 (it_st it) else Ok (it_st it) : outcome S) in
       let* (b, st, outer) := (step_loop e' (it_olimit it) (outer_rank e) st (it_outer it) : outcome (bool * S * list Z)) in
       Ok (b, @mkIter A e' st (it_index it) (it_limit it) (if b then outer else map (fun _ => 0) outer) (it_olimit it))).
    change (step_outer it) with
      (let* st := (if (outer_rank e <? length dims)%nat then r (length dims - 1)%nat 0 (it_st it) else Ok (it_st it) : outcome S) in
       let* (b, st, outer) := (step_loop e (it_olimit it) (outer_rank e) st (it_outer it) : outcome (bool * S * list Z)) in
       Ok (b, @mkIter A e st (it_index it) (it_limit it) (if b then outer else map (fun _ => 0) outer) (it_olimit it))).
    destruct (if (outer_rank e <? length dims)%nat then _ else _) as [st| | |]; cbn [bind]; auto.
    rewrite same_steps. destruct (step_loop e _ _ st _) as [[[b st1] o1]| | |]; reflexivity.
  Qed.

  Lemma unless_loop fuel : forall (it : iter e), iter_ok it -> P (it_st it) ->
    until (loop_trace fuel it) (loop_trace fuel (as2 it)) \/ loop_trace fuel (as2 it) = loop_trace fuel it.
  Proof.
    induction fuel as [|k IH]; intros it HI HP; [right; reflexivity|]. cbn [loop_trace].
    set (j := as2 it). change (it_limit j) with (it_limit it). change (it_index j) with (it_index it).
    change (it_st j) with (it_st it). change (it_olimit j) with (it_olimit it). change (it_outer j) with (it_outer it).
    destruct (@unless_inner (Z.to_nat (it_limit it - it_index it)) (it_index it) (it_st it) HP) as [H|[H1 H2]].
    { left. destruct (inner_trace e _ _ _) as [xs o]. destruct (inner_trace e' _ _ _) as [xs' o']. destruct H as [H [ys HY]]. cbn [fst snd] in *. subst o xs'.
      split; [reflexivity|]. destruct o' as [st'| | |]; try (eexists; reflexivity).
      destruct (step_outer _) as [[[] it']| | |]; try (eexists; reflexivity). destruct (loop_trace k _) as [zs o']. cbn [fst]. eexists. rewrite <- app_assoc. reflexivity. }
    rewrite H1. destruct (inner_trace e _ _ _) as [xs o]. cbn [snd] in H2. destruct o as [st| | |]; auto.
    set (it1 := @mkIter A e st (it_index it) (it_limit it) (it_outer it) (it_olimit it)).
    assert (HI1 : iter_ok it1) by (destruct HI; constructor; auto).
    assert (HP1 : P (it_st it1)) by now apply H2.
    change (@mkIter A e' st (it_index it) (it_limit it) (it_outer it) (it_olimit it)) with (as2 it1).
    assert (AO : step_outer (as2 it1) =
                 (let* (b, it) := step_outer it1 in Ok (b, as2 it))).
    { apply same_outer. }
    rewrite AO.
    destruct (x_step_outer_ok true HI1) as [_ HB].
    destruct (step_outer it1) as [[b it2]| | |] eqn:ES; cbn [bind]; auto. destruct (HB _ _ eq_refl) as (OK & E1 & E2).
    pose proof (keeps_outer HP1 ES) as HP2. destruct b; auto.
    set (it3 := @mkIter A e (it_st it2) 0 (it_limit it2) (it_outer it2) (it_olimit it2)).
    assert (HI3 : iter_ok it3). { destruct OK as [O1 O2 O3 O4 O5 O6 O7]. constructor; auto. unfold it3. cbn [it_index it_limit]. lia. }
    destruct (IH it3 HI3 HP2) as [H|H].
    - left. fold it3. change (until (let (ys, o) := loop_trace k it3 in (xs ++ ys, o)) (let (ys, o) := loop_trace k (as2 it3) in (xs ++ ys, o))).
      destruct (loop_trace k it3) as [ys o]. destruct (loop_trace k (as2 it3)) as [ys' o']. destruct H as [H [zs HZ]]. cbn [fst snd] in *. subst ys'.
      split; [exact H|]. exists zs. cbn [fst]. now rewrite app_assoc.
    - right. transitivity (let (ys, o) := loop_trace k (as2 it3) in (xs ++ ys, o)); [reflexivity|].
      rewrite H. reflexivity.
  Qed.

  Lemma unless_trace : P init -> iter_ok (it_new e) -> until (e_trace e) (e_trace e') \/ e_trace e' = e_trace e.
  Proof. intros HP HI. destruct (@unless_loop (it_fuel (it_new e)) (it_new e) HI HP) as [H|H]; [left|right]; exact H. Qed.
End Unless.

(** ** The owned buffer *)

Lemma into_get {A} dbg ty dims (l : list A) i k : nonneg dims -> counted dbg dims -> zlen l = prodZ dims -> prodZ dims <= isize_max -> 0 <= k ->
  e_get (e_into ty dims l) i k = UB \/ e_get (x_into dbg ty dims l) i k = e_get (e_into ty dims l) i k.
Proof.
  intros HN HC HL HB Hk. cbn [e_get x_into e_into]. destruct (nth_error l (Z.to_nat k)) as [a|] eqn:E; [right|now left].
  assert (L : (Z.to_nat k < length l)%nat) by (apply nth_error_Some; congruence). unfold zlen in HL.
  assert (K : k < prodZ dims) by lia. rewrite (counted_len HN HC).
  assert (D : (if dbg then let* n := Ok (prodZ dims) in assert (k <? n) else Ok tt) = Ok tt).
  { destruct dbg; [|reflexivity]. cbn [bind]. destruct (Z.ltb_spec k (prodZ dims)); [reflexivity|lia]. }
  rewrite D. cbn [bind]. unfold isize_max, usize_max in *.
  rewrite u_res_fit by (unfold is_usize, usize_max; lia). cbn [bind]. rewrite u_res_fit by (unfold is_usize, usize_max; lia). cbn [bind].
  replace (k + 1 - 1) with k by lia. now rewrite E.
Qed.

Lemma into_keeps {A} ty dims (l : list A) i k a k' : 0 <= k -> e_get (e_into ty dims l) i k = Ok (a, k') -> 0 <= k'.
Proof. cbn [e_get e_into]. destruct (nth_error _ _); [|discriminate]. intros H [= _ <-]. lia. Qed.

Lemma x_into_trace {A} dbg ty dims (l : list A) : nonneg dims -> machine_dims dims -> counted dbg dims -> zlen l = prodZ dims -> prodZ dims <= isize_max ->
  x_trace dbg (x_into dbg ty dims l) = (l, Ok tt).
Proof.
  intros HN HM HC HL HB.
  assert (HO : machine_operand dbg (x_into dbg ty dims l)) by (split; [exact HM|split; exact HC]).
  rewrite x_trace_ok; auto. pose proof (@into_trace A ty dims l HL) as E. rewrite <- E.
  destruct (@unless_trace A Z 0 ty dims None false (e_get (e_into ty dims l)) (e_get (x_into dbg ty dims l)) (fun _ _ i => Ok i) (fun _ i => Ok i) (fun k => 0 <= k))
    as [H|H].
  - intros i st HP. now apply into_get.
  - intros i st a st' HP. apply into_keeps, HP.
  - intros d c st st' HP [= <-]. exact HP.
  - intros d st st' HP [= <-]. exact HP.
  - lia.
  - apply (@x_new_counted dbg _ (e_into ty dims l)); auto.
  - destruct H as [H _]. change (snd (e_trace (e_into ty dims l)) = UB) in H. rewrite E in H. discriminate.
  - exact H.
Qed.

Section Zipped.
  Context (dbg : bool) {T Y : Type} (ty : shty) (dims : list Z) (l : list T) (e : expression Y).
  Hypothesis HN : nonneg dims.
  Hypothesis HM : machine_dims dims.
  Hypothesis HC : counted dbg dims.
  Hypothesis HL : zlen l = prodZ dims.
  Hypothesis HB : prodZ dims <= isize_max.
  Let a := e_into ty dims l.
  Let a' := x_into dbg ty dims l.

  Lemma into_zip z : e_zip a e = Ok z -> z = zip_expr a e dims /\ e_zip a' e = Ok (zip_expr a' e dims).
  Proof.
    unfold e_zip. change (e_rep a) with false. change (e_rep a') with false. change (e_rank a') with (length dims).
    change (e_rank a) with (length dims). change (e_ty a') with (e_ty a). change (e_dims a') with dims. change (e_dims a) with dims.
    cbn [orb]. destruct (Nat.leb_spec (e_rank e) (length dims)) as [L|L]; cbn [assert bind]; [|discriminate].
    destruct (e_rep e || _); cbn [assert bind]; [|discriminate]. rewrite zip_dims_spec. unfold longer. unfold e_rank in L.
    destruct (Nat.ltb_spec (length dims) (length (e_dims e))) as [L'|_]; [lia|].
    destruct (slice_eqb _ _); [|discriminate]. destruct (accepts _ _); [|discriminate]. cbn [bind]. intros E. injection E as <-. auto.
  Qed.

  Lemma into_zip_refused : e_zip a e = Panic -> e_zip a' e = Panic.
  Proof.
    unfold e_zip. change (e_rep a) with (e_rep a'). change (e_rank a') with (e_rank a).
    change (e_ty a') with (e_ty a). change (e_dims a') with (e_dims a). intros E.
    destruct (assert (_ || (e_rank e <=? _)%nat)); cbn [bind] in *; auto; try discriminate. destruct (assert (e_rep e || _)); cbn [bind] in *; auto; try discriminate.
    destruct (zip_dims _ _ _); cbn [bind] in *; auto; discriminate.
  Qed.

  Lemma into_zip_trace : counted dbg (skipn (outer_rank (zip_expr a e dims)) dims) ->
    until (e_trace (zip_expr a e dims)) (x_trace dbg (zip_expr a' e dims)) \/ x_trace dbg (zip_expr a' e dims) = e_trace (zip_expr a e dims).
  Proof.
    intros HQ.
    assert (HO : machine_operand dbg (zip_expr a' e dims)) by (split; [exact HM|split; [exact HC|exact HQ]]).
    rewrite x_trace_ok; auto. unfold zip_expr.
    apply (@unless_trace (T * Y) (Z * e_st e)) with (P := fun st => 0 <= fst st).
    - intros i [k st] HP. cbn [fst snd] in *. destruct (@into_get T dbg ty dims l i k) as [H|H]; auto.
      + left. change (e_get a i k) with (e_get (e_into ty dims l) i k). rewrite H. reflexivity.
      + right. change (e_get a i k) with (e_get (e_into ty dims l) i k). change (e_get a' i k) with (e_get (x_into dbg ty dims l) i k). now rewrite H.
    - intros i [k st] [x y] [k' st'] HP. cbn [fst snd] in *. destruct (e_get a i k) as [[x1 k1]| | |] eqn:E; cbn [bind]; try discriminate.
      destruct (e_get e i st) as [[y1 st1]| | |]; cbn [bind]; try discriminate. intros [= _ _ <- _]. now apply into_keeps in E.
    - intros d c [k st] [k' st'] HP. cbn [fst snd] in *. destruct (_ <=? _)%nat; cbn [a e_into e_reset bind];
        (destruct (if (_ <=? e_rank e)%nat then _ else _); cbn [bind]; try discriminate; intros [= <- _]; exact HP).
    - intros d [k st] [k' st'] HP. cbn [fst snd] in *. destruct (_ <=? _)%nat; cbn [a e_into e_step bind];
        (destruct (if (_ <=? e_rank e)%nat then _ else _); cbn [bind]; try discriminate; intros [= <- _]; exact HP).
    - cbn. lia.
    - apply (@x_new_counted dbg _ (zip_expr a e dims)); auto.
  Qed.
End Zipped.

(** ** Filling the array *)

Definition with_index {T C A} (r : result (list T * world T C) A) : result (list T * Z * world T C) A :=
  match r with
  | Done a (xs, w) => Done a (xs, zlen xs, w)
  | Unwound (xs, w) => Unwound (xs, zlen xs, w)
  | Aborted => Aborted
  | Fault => Fault
  end.

Lemma x_fill_ok dbg {T Y C} n (take : Y -> M (world T C) T) ys : n <= usize_max -> forall xs w,
  x_fill_array dbg n take ys (xs, zlen xs, w) = with_index (fill_array n take ys (xs, w)).
Proof.
  intros HN. induction ys as [|y ys IH]; intros xs w; cbn [x_fill_array fill_array fst snd]; [reflexivity|].
  destruct (take y w) as [x w1|w1| |]; auto. destruct (Z.ltb_spec (zlen xs) n) as [L|L]; [|reflexivity].
  rewrite Z.eqb_refl. assert (0 <= zlen xs) by (unfold zlen; lia). rewrite u_res_fit by (unfold is_usize; lia).
  assert (E : zlen xs + 1 = zlen (xs ++ [x])) by (unfold zlen; rewrite app_length; cbn; lia). rewrite E. apply IH.
Qed.

Lemma x_array_fill_ok dbg {T Y C} ds dims (take : Y -> M (world T C) T) trace rest w : sh_len (map dim_default ds) <= usize_max ->
  x_array_fill dbg ds dims take trace rest w = array_fill ds dims take trace rest w.
Proof.
  intros HN. unfold x_array_fill, array_fill. destruct (sh_from_dims _ _); auto.
  change 0 with (zlen (@nil T)) at 1. unfold seqM. rewrite x_fill_ok by exact HN.
  destruct (fill_array _ take (fst trace) ([], w)) as [u [xs w1]|[xs w1]| |]; cbn [with_index].
  - unfold lift. destruct (snd trace); auto. unfold zlen at 1. now rewrite Nat2Z.id, firstn_all.
  - unfold zlen. now rewrite Nat2Z.id, firstn_all.
  - reflexivity.
  - reflexivity.
Qed.

Lemma fill_app {T Y C} n (take : Y -> M (world T C) T) ys zs : forall s,
  fill_array n take (ys ++ zs) s = (fill_array n take ys ;;; fill_array n take zs) s.
Proof.
  induction ys as [|y ys IH]; intros [xs w]; cbn [app fill_array fst snd]; [reflexivity|]. unfold seqM in *. cbn [fill_array fst snd].
  destruct (take y w) as [x w1|w1| |]; auto. destruct (_ <? _); auto.
Qed.

Lemma fill_until {T Y C} ds dims (take : Y -> M (world T C) T) t t' rest w : until t t' ->
  array_fill ds dims take t rest w <> Fault -> array_fill ds dims take t' rest w = array_fill ds dims take t rest w.
Proof.
  intros [H [zs HZ]]. unfold array_fill. destruct (sh_from_dims _ _); auto. rewrite H, HZ. unfold seqM. rewrite fill_app. unfold seqM.
  destruct (fill_array _ take (fst t) ([], w)) as [u [xs w1]|[xs w1]| |]; auto. cbn [lift]. congruence.
Qed.

Lemma sh_len_prod dims : sh_len dims = prodZ dims.
Proof. unfold sh_len. rewrite fold_mul_prod. lia. Qed.

(** ** The operations *)
Section Arrays.
  Context (dbg : bool) {T C : Type} (ds : list dimty).
  Let D := map dim_default ds.
  Hypothesis HN : nonneg D.
  Hypothesis HM : machine_dims D.
  Hypothesis HB : prodZ D <= isize_max.

  Lemma size_fits : sh_len D <= usize_max.
  Proof. rewrite sh_len_prod. unfold isize_max, usize_max in *. lia. Qed.

  Lemma fits_counted : fits D -> counted dbg D.
  Proof. intros HF. apply counted_fits. exact HF. Qed.

  Lemma xr_from_expr_ok (e : expression T) (w : world T C) : nonneg (e_dims e) -> machine_operand dbg e ->
    xr_from_expr dbg ds e w = ar_from_expr ds e w.
  Proof. intros HE HO. unfold xr_from_expr, ar_from_expr. rewrite x_trace_ok by auto. apply x_array_fill_ok, size_fits. Qed.

  Lemma xr_map_ok (l : list T) f (w : world T C) : zlen l = prodZ D -> xr_map dbg ds l f w = ar_map ds l f w.
  Proof.
    intros HL. unfold xr_map, ar_map. destruct (ar_length_cases ds) as [HF|HF]; [|now rewrite HF].
    rewrite ar_length_fits by exact HF. fold D. rewrite x_into_trace by (auto using fits_counted).
    rewrite (@into_trace T (STuple ds) D l HL). apply x_array_fill_ok, size_fits.
  Qed.

  Lemma xr_zip_with_ok {Y} (l : list T) (e : expression Y) f (w : world T C) : zlen l = prodZ D ->
    (forall z, e_zip (e_into (STuple ds) D l) e = Ok z -> prodZ D = 0 -> counted dbg (skipn (outer_rank z) D)) ->
    ar_zip_with ds l e f w <> Fault -> xr_zip_with dbg ds l e f w = ar_zip_with ds l e f w.
  Proof.
    intros HL HZ HU. unfold xr_zip_with. unfold ar_zip_with in HU |- *. fold D in HU |- *.
    destruct (ar_length_cases ds) as [HF|HF]; [|now rewrite HF]. rewrite ar_length_fits in * by exact HF. cbn [bind] in *.
    destruct (e_zip (e_into (STuple ds) D l) e) as [z| | |] eqn:EZ; [|now rewrite (@into_zip_refused dbg T Y (STuple ds) D l e EZ)|now destruct HU..].
    destruct (@into_zip dbg T Y (STuple ds) D l e z EZ) as [-> ->].
    assert (HQ : counted dbg (skipn (outer_rank (zip_expr (e_into (STuple ds) D l) e D)) D)).
    { destruct (Z.eq_dec (prodZ D) 0) as [E0|E0]; [now apply (HZ _ eq_refl)|].
      assert (HP : positive D) by (apply prodZ_pos_inv; auto; pose proof (prodZ_nonneg HN); lia).
      apply counted_fits, mx_fits; [now apply nonneg_skipn|]. pose proof (@mx_skipn (outer_rank (zip_expr (e_into (STuple ds) D l) e D)) D).
      rewrite (mx_positive HP) in H. unfold isize_max, usize_max in *. lia. }
    change (e_dims (zip_expr (x_into dbg (STuple ds) D l) e D)) with D. change (e_dims (zip_expr (e_into (STuple ds) D l) e D)) with D in *.
    destruct (@into_zip_trace dbg T Y (STuple ds) D l e HN HM (fits_counted HF) HL HB HQ) as [H|H].
    - rewrite x_array_fill_ok by exact size_fits. now apply fill_until.
    - rewrite H. apply x_array_fill_ok, size_fits.
  Qed.

  Lemma xr_from_tensor_ok (t : tensor T) (w : world T C) : tensor_ok t -> small dbg t -> xr_from_tensor dbg ds t w = ar_from_tensor ds t w.
  Proof.
    intros OK SM. unfold xr_from_tensor, ar_from_tensor, owning.
    rewrite x_into_trace; [|apply OK|apply SM|apply SM|apply OK|rewrite <- (to_len OK); exact (mem_small OK SM)].
    rewrite into_trace by apply OK. now rewrite x_array_fill_ok by exact size_fits.
  Qed.
End Arrays.

Lemma xr_deserialize_ok dbg {T C E} al (de : sdata E -> C -> call (option T) C) ds v (w : world T C) :
  al_machine al -> nonneg (map dim_default ds) -> machine_dims (map dim_default ds) -> const_small (STuple ds) -> ty_wf (STuple ds) ->
  prodZ (map dim_default ds) <= isize_max -> sized (length ds) v -> dbg = true \/ box (length ds) v <= usize_max ->
  xr_deserialize dbg al de ds v w = ar_deserialize al de ds v w.
Proof.
  intros HA HN HM CS W HB HZ HX. destruct ds as [|d ds]; [reflexivity|]. unfold xr_deserialize, ar_deserialize.
  pose proof (@x_de_tensor_post dbg T C E al de (fun _ => None) HA (d :: ds) HN HM CS W v w HZ) as P.
  pose proof (@x_de_tensor_eq dbg T C E al de HA (d :: ds) HN HM CS W v w HZ HX) as X.
  unfold seqM at 1 3. rewrite <- X. destruct (x_de_tensor dbg al de (d :: ds) v w) as [[t|] w1|w1| |]; auto.
  destruct P as (OK & SM & _). unfold seqM. rewrite xr_from_tensor_ok; auto.
Qed.

Lemma xr_deserialize_returns dbg {T C E} al (de : sdata E -> C -> call (option T) C) dec ds v (w : world T C) :
  al_machine al -> consts ds -> nonneg (map dim_default ds) -> machine_dims (map dim_default ds) -> const_small (STuple ds) -> ty_wf (STuple ds) ->
  prodZ (map dim_default ds) <= isize_max -> sized (length ds) v -> decides de dec ->
  match xr_deserialize dbg al de ds v w with
  | Done (Some xs) w' => rect dec (map dim_default ds) v xs /\ exists c, w' = after c xs [] w
  | Done None w' => (forall xs, ~ rect dec (map dim_default ds) v xs) /\ exists c ms dr, w' = after c ms dr w /\ Permutation ms dr
  | Unwound w' => (adequate al (length ds) v -> throws de) /\ exists c ms dr, w' = after c ms dr w /\ Permutation ms dr
  | Aborted | Fault => False
  end.
Proof.
  intros HA HC HN HM CS W HB HZ D. destruct ds as [|d ds].
  - cbn [xr_deserialize]. unfold seqM. pose proof (@de_elem_post T C E de dec v w) as HE.
    destruct (de_elem de v w) as [[x|] w'|w'| |]; try contradiction.
    + destruct HE as [[c ->] HE]. split; [exists x; auto|]. exists c. reflexivity.
    + destruct HE as [[c ->] HE]. split; [intros xs (y & E1 & ->); rewrite HE in E1 by exact D; discriminate|]. exists c, [], []. auto.
    + destruct HE as [[c ->] H]. split; [auto|]. exists c, [], []. auto.
  - unfold xr_deserialize, seqM. pose proof (@x_de_tensor_post dbg T C E al de dec HA (d :: ds) HN HM CS W v w HZ) as H.
    destruct (x_de_tensor dbg al de (d :: ds) v w) as [[t|] w'|w'| |]; cbn [xdpost] in H; try contradiction.
    + destruct H as (OK & SM & TT & _ & _ & _ & [c ->] & RC). specialize (RC D).
      assert (TD : tn_dims t = map dim_default (d :: ds)) by (apply (const_dims HC); rewrite <- TT; apply (to_typed OK)).
      rewrite xr_from_tensor_ok by auto. rewrite ar_from_tensor_done; auto. rewrite <- TD. split; [exact RC|]. exists c. reflexivity.
    + destruct H as [(c & ms & dr & E1 & P) H]. split; [|exists c, ms, dr; auto].
      intros xs R. apply (H D (map dim_default (d :: ds)) xs); auto. apply (default_typed (STuple (d :: ds))).
    + destruct H as [(c & ms & dr & E1 & P) H]. split; [exact H|]. exists c, ms, dr. auto.
Qed.
