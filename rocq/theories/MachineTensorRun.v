(** Facts about [zip_with] and about whole programs on owned arrays with machine integers. *)
From Verif Require Import Base Spec SpecFacts Shape Mapping Index View Wf MappingFacts MapOps ReshapeFacts.
From Verif Require Import IndexFacts ViewFacts ViewMore Expr ExprSpec ExprFacts IterFacts SourceFacts ExprTree ExprMore.
From Verif Require Import Tensor TraceFacts TensorSpec TensorFacts ResizeFacts TensorOps DrainFacts OwnFacts ZipFacts History HistoryFacts.
From Verif Require Import Machine MachineSpec MachineFacts MachineWrap MachineIter MachineIterFacts MachineTensor MachineTensorFacts MachineTensorMore.
Unset Strict Implicit.

(** ** Two expressions that agree where an iteration goes *)
Section Agree.
  Context {A S : Type} (init : S) (ty : shty) (dims : list Z) (inner : option nat) (rep : bool).
  Context (g g' : Z -> S -> outcome (A * S)) (r r' : nat -> Z -> S -> outcome S) (s s' : nat -> S -> outcome S).
  Let e : expression A := mkExpr S init ty dims inner rep g r s.
  Let e' : expression A := mkExpr S init ty dims inner rep g' r' s'.
  Let q := outer_rank e.
  Hypothesis HG : forall i st, 0 <= i < prodZ (skipn q dims) -> g' i st = g i st.
  Hypothesis HR : forall d c st, (d < q)%nat -> 0 <= c < Z.max 1 (nth d dims 0) -> r' d c st = r d c st.
  Hypothesis HL : forall st, (q < length dims)%nat -> r' (length dims - 1)%nat 0 st = r (length dims - 1)%nat 0 st.
  Hypothesis HT : forall d st, (d < q)%nat -> s' d st = s d st.

  Definition as' (it : iter e) : iter e' := @mkIter A e' (it_st it) (it_index it) (it_limit it) (it_outer it) (it_olimit it).

  Lemma agree_inner n : forall i (st : S), 0 <= i -> i + Z.of_nat n <= prodZ (skipn q dims) -> inner_trace e' n i st = inner_trace e n i st.
  Proof.
    clear HR HL HT. induction n as [|n IH]; intros i st Hi Hn; [reflexivity|]. cbn [inner_trace].
    change (e_get e' i st) with (g' i st). change (e_get e i st) with (g i st). rewrite HG by lia.
    destruct (g i st) as [[a st1]| | |]; auto. rewrite IH by lia. reflexivity.
  Qed.

  Lemma agree_steps n : forall (st : S) outer, (n <= q)%nat -> (forall i, 0 <= nth i outer 0 < Z.max 1 (nth i dims 0)) ->
    step_loop e' dims n st outer = step_loop e dims n st outer.
  Proof.
    clear HG HL. induction n as [|i IH]; intros st outer Hn HO; [reflexivity|]. cbn [step_loop].
    change (e_step e' i st) with (s' i st). change (e_step e i st) with (s i st).
    change (e_reset e' i (nth i outer 0) st) with (r' i (nth i outer 0) st). change (e_reset e i (nth i outer 0) st) with (r i (nth i outer 0) st).
    rewrite HT by lia. rewrite (HR st (d := i)) by (auto; lia). destruct (_ <? _); auto.
    destruct (r i _ st) as [st1| | |]; cbn [bind]; auto. apply IH; [lia|].
    intros j. rewrite nth_upd. pose proof (HO j). destruct (_ && _); lia.
  Qed.

  Lemma agree_outer (it : iter e) : iter_ok it ->
    step_outer (as' it) = (let* (b, it) := step_outer it in Ok (b, as' it)).
  Proof.
    intros [H1 H2 H3 H4 H5 H6 H7].
    change (step_outer (as' it)) with
      (let* st := (if (q <? length dims)%nat then r' (length dims - 1)%nat 0 (it_st it) else Ok (it_st it) : outcome S) in
       let* (b, st, outer) := (step_loop e' (it_olimit it) q st (it_outer it) : outcome (bool * S * list Z)) in
       Ok (b, @mkIter A e' st (it_index it) (it_limit it) (if b then outer else map (fun _ => 0) outer) (it_olimit it))).
    change (step_outer it) with
      (let* st := (if (q <? length dims)%nat then r (length dims - 1)%nat 0 (it_st it) else Ok (it_st it) : outcome S) in
       let* (b, st, outer) := (step_loop e (it_olimit it) q st (it_outer it) : outcome (bool * S * list Z)) in
       Ok (b, @mkIter A e st (it_index it) (it_limit it) (if b then outer else map (fun _ => 0) outer) (it_olimit it))).
    assert (E0 : (if (q <? length dims)%nat then r' (length dims - 1)%nat 0 (it_st it) else Ok (it_st it) : outcome S) =
                 (if (q <? length dims)%nat then r (length dims - 1)%nat 0 (it_st it) else Ok (it_st it))).
    { destruct (Nat.ltb_spec q (length dims)); auto. }
    rewrite E0. destruct (if (q <? length dims)%nat then r _ _ _ else _) as [st| | |]; cbn [bind]; auto.
    assert (E1 : step_loop e' (it_olimit it) q st (it_outer it) = step_loop e (it_olimit it) q st (it_outer it)).
    { destruct (Nat.eq_dec q 0) as [Q0|Q0]; [rewrite Q0; reflexivity|].
      assert (EO : it_olimit it = dims).
      { rewrite H5. change (outer_rank e) with q. destruct (Nat.ltb_spec 0 q); [reflexivity|lia]. }
      rewrite EO. apply agree_steps; [lia|]. intros i. rewrite <- EO. apply H1. }
    rewrite E1. destruct (step_loop e _ q st _) as [[[b st1] o1]| | |]; reflexivity.
  Qed.

  Lemma agree_loop fuel : forall (it : iter e), iter_ok it -> loop_trace fuel (as' it) = loop_trace fuel it.
  Proof.
    induction fuel as [|k IH]; intros it HI; [reflexivity|]. cbn [loop_trace].
    change (it_limit (as' it)) with (it_limit it). change (it_index (as' it)) with (it_index it).
    change (it_st (as' it)) with (it_st it). change (it_olimit (as' it)) with (it_olimit it). change (it_outer (as' it)) with (it_outer it).
    pose proof HI as [H1 H2 H3 H4 H5 H6 H7]. change (outer_rank e) with q in H7. change (e_dims e) with dims in H7.
    rewrite agree_inner by lia. destruct (inner_trace e _ _ _) as [xs o]. destruct o as [st| | |]; auto.
    set (it1 := @mkIter A e st (it_index it) (it_limit it) (it_outer it) (it_olimit it)).
    assert (HI1 : iter_ok it1) by (constructor; auto).
    change (@mkIter A e' st (it_index it) (it_limit it) (it_outer it) (it_olimit it)) with (as' it1). rewrite (agree_outer HI1).
    destruct (x_step_outer_ok true HI1) as [_ HB].
    destruct (step_outer it1) as [[b it2]| | |] eqn:ES; cbn [bind]; auto. destruct (HB _ _ eq_refl) as (OK & E1 & E2). destruct b; auto.
    set (it3 := @mkIter A e (it_st it2) 0 (it_limit it2) (it_outer it2) (it_olimit it2)).
    change (@mkIter A e' (it_st (as' it2)) 0 (it_limit (as' it2)) (it_outer (as' it2)) (it_olimit (as' it2))) with (as' it3).
    rewrite IH; auto. destruct OK as [O1 O2 O3 O4 O5 O6 O7]. constructor; auto. unfold it3. cbn [it_index it_limit]. lia.
  Qed.

  Lemma agree_trace : iter_ok (it_new e) -> e_trace e' = e_trace e.
  Proof. intros HI. unfold e_trace. rewrite <- (agree_loop _ HI). reflexivity. Qed.
End Agree.

(** ** The zipped expression *)

Lemma x_prod_nil dbg : x_prod dbg 1 [] = Ok 1. Proof. reflexivity. Qed.

Lemma mx_fits dims : nonneg dims -> mx dims <= usize_max -> fits dims.
Proof. intros HN H k. pose proof (@mx_firstn k dims). pose proof (mx_prod (nonneg_firstn k HN)). lia. Qed.

Lemma mx_split d dims : (d < length dims)%nat -> Z.max 1 (nth d dims 0) * mx (skipn (d + 1) dims) <= mx dims.
Proof.
  revert d. induction dims as [|n dims IH]; intros d Hd; [cbn in Hd; lia|]. rewrite mx_cons. destruct d as [|d]; cbn [nth skipn plus]; [lia|].
  cbn [length] in Hd. specialize (IH d ltac:(lia)). pose proof (@mx_pos dims). pose proof (@mx_pos (skipn (d + 1) dims)). nia.
Qed.

Section Zipped.
  Context (dbg : bool) {T Y : Type} (t : tensor T) (e : expression Y).
  Hypothesis Ht : tensor_ok t.
  Hypothesis HS : small dbg t.

  Let n := zlen (tn_mem t).
  Let a := e_view n false (whole (tn_ty t) (tn_dims t)).
  Let a' := x_e_view dbg n false (whole (tn_ty t) (tn_dims t)).

  Lemma zip_shape z : e_zip a e = Ok z -> z = zip_expr a e (tn_dims t) /\ e_zip a' e = Ok (zip_expr a' e (tn_dims t)).
  Proof.
    unfold e_zip. change (e_rep a) with false. change (e_rep a') with false. change (e_rank a') with (length (tn_dims t)).
    change (e_rank a) with (length (tn_dims t)). change (e_ty a') with (e_ty a). change (e_dims a') with (tn_dims t). change (e_dims a) with (tn_dims t).
    cbn [orb]. destruct (Nat.leb_spec (e_rank e) (length (tn_dims t))) as [L|L]; cbn [assert bind]; [|discriminate].
    destruct (e_rep e || _); cbn [assert bind]; [|discriminate]. rewrite zip_dims_spec. unfold longer. unfold e_rank in L.
    destruct (Nat.ltb_spec (length (tn_dims t)) (length (e_dims e))) as [L'|_]; [lia|].
    destruct (slice_eqb _ _); [|discriminate]. destruct (accepts _ _); [|discriminate]. cbn [bind]. intros E. injection E as <-. auto.
  Qed.

  Lemma zip_refused : e_zip a e = Panic -> e_zip a' e = Panic.
  Proof.
    unfold e_zip. change (e_rep a) with false. change (e_rep a') with false. change (e_rank a') with (e_rank a).
    change (e_ty a') with (e_ty a). change (e_dims a') with (e_dims a). intros E.
    destruct (assert (false || _)); cbn [bind] in *; auto; try discriminate. destruct (assert (e_rep e || _)); cbn [bind] in *; auto; try discriminate.
    destruct (zip_dims _ _ _); cbn [bind] in *; auto; discriminate.
  Qed.

  Lemma zip_trace z : e_zip a e = Ok z -> (prodZ (tn_dims t) = 0 -> outer_rank z = 0%nat \/ mx (tn_dims t) <= isize_max) ->
    x_trace dbg (zip_expr a' e (tn_dims t)) = e_trace z.
  Proof.
    intros EZ HZ. destruct (zip_shape EZ) as [-> _]. clear EZ. set (D := tn_dims t) in *.
    pose proof (to_nonneg Ht) as HN. fold D in HN. pose proof (sm_dims HS) as HM. pose proof (sm_count HS) as HC. fold D in HM, HC.
    assert (HMem : prodZ D <= isize_max) by (unfold D; rewrite <- (to_len Ht); exact (mem_small Ht HS)).
    set (z := zip_expr a e D) in *. set (q := outer_rank z) in *.
    assert (HH : (prodZ D = 0 /\ q = 0%nat) \/ mx D <= isize_max).
    { destruct (Z.eq_dec (prodZ D) 0) as [E0|E0]; [destruct (HZ E0); auto|]. right.
      rewrite mx_positive; auto. apply prodZ_pos_inv; auto. pose proof (prodZ_nonneg HN). lia. }
    assert (HCS : counted dbg (skipn q D)).
    { destruct HH as [[_ ->]|HX]; [exact HC|]. apply counted_fits, mx_fits; [now apply nonneg_skipn|].
      pose proof (@mx_skipn q D). unfold isize_max, usize_max in *. lia. }
    assert (HX1 : x_it_new dbg (zip_expr a' e D) = Ok (it_new (zip_expr a' e D)) /\ iter_ok (it_new (zip_expr a' e D))) by (apply x_new_counted; auto).
    assert (HX2 : iter_ok (it_new z)) by (apply (@x_new_counted dbg _ z); auto).
    unfold x_trace. destruct HX1 as [-> HI]. rewrite (x_loop_trace_ok dbg _ HI).
    change (loop_trace (it_fuel (it_new (zip_expr a' e D))) (it_new (zip_expr a' e D))) with (e_trace (zip_expr a' e D)).
    unfold z, zip_expr. apply agree_trace; [| | | |exact HX2].
    - change (outer_rank _) with q. intros i [p st] Hi. cbn [fst snd].
      assert (EG : e_get a' i p = e_get a i p).
      { unfold a', a, x_e_view, e_view. cbn [e_get v_map whole].
        assert (HI' : 0 <= i <= isize_max).
        { destruct HH as [[E0 Q0]|HX]; [rewrite Q0 in Hi; cbn [skipn] in Hi; lia|].
          pose proof (@mx_skipn q D). pose proof (mx_prod (nonneg_skipn q HN)). lia. }
        cbn [inner_stride]. rewrite i_mul; [reflexivity|lia|]. destruct (sh_rank (tn_ty t)) as [[|k]|]; lia. }
      now rewrite EG.
    - change (outer_rank _) with q. intros d c [p st] Hd Hc. cbn [fst snd].
      destruct HH as [[E0 Q0]|HX]; [lia|].
      assert (HDR : (d < length D)%nat).
      { unfold q, outer_rank in Hd. unfold e_rank in Hd. change (e_dims z) with D in Hd. destruct (e_inner z); lia. }
      change (e_rank a') with (length D). change (e_rank a) with (length D).
      destruct (Nat.leb_spec (length D - d) (length D)); [|lia]. replace (length D - (length D - d))%nat with d by lia.
      assert (EG : e_reset a' d c p = e_reset a d c p).
      { unfold a', a, x_e_view, e_view. cbn [e_reset v_map whole x_stride m_stride]. fold D.
        destruct (Nat.ltb_spec d (length D)); [|lia]. cbn [assert bind].
        pose proof (mx_split HDR) as M1. pose proof (mx_prod (nonneg_skipn (d + 1) HN)) as M2.
        assert (SB : prodZ (skipn (d + 1) D) <= isize_max) by (pose proof (@mx_skipn (d + 1) D); lia).
        rewrite x_prod_fit; [|now apply nonneg_skipn|lia|pose proof (@mx_skipn (d + 1) D); unfold isize_max, usize_max in *; lia].
        cbn [bind]. rewrite !fold_mul_prod. rewrite as_isize_fit by (apply small_isize; lia).
        rewrite Z.mul_1_l || idtac. set (S0 := prodZ (skipn (d + 1) D)) in *.
        rewrite i_abs by lia. cbn [bind]. rewrite i_mul; [reflexivity|lia|]. nia. }
      now rewrite EG.
    - intros [p st] Hd. cbn [fst snd].
      change (e_rank a') with (length D). change (e_rank a) with (length D).
      destruct (Nat.leb_spec (length D - (length D - 1)) (length D)); [|lia].
      replace (length D - (length D - (length D - 1)))%nat with (length D - 1)%nat by lia.
      assert (EG : e_reset a' (length D - 1) 0 p = e_reset a (length D - 1) 0 p).
      { unfold a', a, x_e_view, e_view. cbn [e_reset v_map whole x_stride m_stride]. fold D.
        destruct (Nat.ltb_spec (length D - 1) (length D)); [|lia]. cbn [assert bind]. rewrite skipn_all2 by lia. cbn [x_prod fold_left bind].
        rewrite as_isize_fit by (apply small_isize; unfold isize_max; lia). rewrite i_abs by (unfold isize_max; lia). cbn [bind].
        rewrite i_mul; [reflexivity|lia|unfold isize_max; lia]. }
      now rewrite EG.
    - change (outer_rank _) with q. intros d [p st] Hd. cbn [fst snd].
      destruct HH as [[E0 Q0]|HX]; [lia|].
      assert (HDR : (d < length D)%nat).
      { unfold q, outer_rank in Hd. unfold e_rank in Hd. change (e_dims z) with D in Hd. destruct (e_inner z); lia. }
      change (e_rank a') with (length D). change (e_rank a) with (length D).
      destruct (Nat.leb_spec (length D - d) (length D)); [|lia]. replace (length D - (length D - d))%nat with d by lia.
      assert (EG : e_step a' d p = e_step a d p).
      { unfold a', a, x_e_view, e_view. cbn [e_step v_map whole x_stride m_stride]. fold D.
        destruct (Nat.ltb_spec d (length D)); [|lia]. cbn [assert bind].
        pose proof (mx_prod (nonneg_skipn (d + 1) HN)) as M2.
        assert (SB : prodZ (skipn (d + 1) D) <= isize_max) by (pose proof (@mx_skipn (d + 1) D); lia).
        rewrite x_prod_fit; [|now apply nonneg_skipn|lia|pose proof (@mx_skipn (d + 1) D); unfold isize_max, usize_max in *; lia].
        cbn [bind]. rewrite !fold_mul_prod. rewrite as_isize_fit by (apply small_isize; lia). reflexivity. }
      now rewrite EG.
  Qed.
End Zipped.

(** ** [zip_with] *)

Lemma x_zip_loop_ok dbg {T Y C} (f : T * Y -> C -> call T C) ps : forall (z : zipping T C),
  0 <= z_index z -> z_index z + zlen ps <= usize_max ->
  x_zip_loop dbg f ps z = zip_loop f ps z /\
  match zip_loop f ps z with
  | Done _ z' | Unwound z' => zlen (z_mem z') = zlen (z_mem z) /\ z_index z <= z_index z' <= z_index z + zlen ps
  | _ => True
  end.
Proof.
  induction ps as [|[addr y] pt IH]; intros z H0 HB; cbn [x_zip_loop zip_loop]; [split; [reflexivity|cbn; lia]|].
  unfold zlen in HB. cbn [length] in HB. rewrite u_res_fit by (unfold is_usize; lia).
  destruct (nth_error (z_mem z) (Z.to_nat addr)) as [x|]; auto.
  destruct (f (x, y) (w_clo (w_use x (z_w z)))) as [r c|c].
  - destruct (IH (mkZip (upd (z_mem z) (Z.to_nat addr) r) (z_index z + 1) (w_make c r (w_use x (z_w z))))) as [E H].
    + cbn; lia.
    + cbn [z_index]. unfold zlen. lia.
    + split; [exact E|]. destruct (zip_loop f pt _) as [[] z'|z'| |]; auto; cbn [z_mem z_index] in H; unfold zlen in *; rewrite upd_length in H; cbn [length]; lia.
  - split; [reflexivity|]. cbn [z_mem z_index]. unfold zlen. cbn [length]. lia.
Qed.

Lemma x_zip_guard_ok dbg {T C} dims (z : zipping T C) : nonneg dims -> counted dbg dims -> zlen (z_mem z) = prodZ dims ->
  0 <= z_index z <= zlen (z_mem z) -> x_zip_guard dbg dims z = zip_guard z.
Proof.
  intros HN HC HL HI. unfold x_zip_guard, zip_guard. rewrite (counted_len HN HC). cbn [bind]. pose proof (proj1 HC).
  rewrite u_res_fit by (unfold is_usize; lia). rewrite HL, Z.eqb_refl. destruct (Z.leb_spec 0 (prodZ dims - z_index z)); [reflexivity|lia].
Qed.

Lemma combine_zlen {X Y} (xs : list X) (ys : list Y) : zlen (combine xs ys) <= zlen ys.
Proof. unfold zlen. rewrite combine_length. lia. Qed.

Lemma x_zip_with_ok dbg {T Y C} (e : expression Y) (f : T * Y -> C -> call T C) (t : tensor T) (w : world T C) :
  tensor_ok t -> small dbg t -> zips t e -> zip_small t e ->
  xt_zip_with dbg e f t w = tn_zip_with e f t w /\ osmall dbg (tn_zip_with e f t w).
Proof.
  intros Ht HS HZ HZS. unfold xt_zip_with, tn_zip_with. rewrite (to_vec_ok Ht).
  pose proof (to_nonneg Ht) as HN. pose proof (sm_count HS) as HC. pose proof (mem_small Ht HS) as HM.
  assert (HL : zlen (tn_mem t) = prodZ (tn_dims t)) by exact (to_len Ht). pose proof (@zlen_nonneg _ (tn_mem t)) as H0.
  destruct HZ as [E|z ys o EZ ET HY HO].
  - rewrite E, (@zip_refused dbg _ _ _ _ E). rewrite x_zip_guard_ok; auto; [|cbn [z_index z_mem]; lia]. split; [reflexivity|].
    unfold zip_guard. destruct (0 <=? _); exact I.
  - destruct (@zip_shape dbg _ _ _ _ _ EZ) as [EQ EZ']. rewrite EZ, EZ'.
    rewrite (zip_trace Ht HS EZ) by (intros E0; exact (HZS z EZ E0)).
    assert (HLP : zlen (fst (e_trace z)) <= zlen (tn_mem t)).
    { rewrite ET. cbn [fst]. pose proof (@combine_zlen _ _ (zrange (zlen (tn_mem t))) ys). unfold zlen in *. lia. }
    destruct (@x_zip_loop_ok dbg T Y C f (fst (e_trace z)) (mkZip (tn_mem t) 0 w)) as [EL HI].
    + cbn; lia.
    + cbn [z_index]. pose proof isize_usize. lia.
    + unfold seqM. rewrite EL. destruct (zip_loop f (fst (e_trace z)) _) as [[] z1|z1| |]; cbn [z_mem z_index] in HI.
      * destruct HI as [I1 I2]. destruct (snd (e_trace z)) as [[]| | |]; cbn [lift]; try (split; [reflexivity|exact I]).
        -- unfold from_parts. rewrite sh_len_prod, I1, HL, Z.eqb_refl. split; [reflexivity|]. destruct HS. constructor; auto.
        -- rewrite x_zip_guard_ok; auto; try lia. split; [reflexivity|]. unfold zip_guard. destruct (0 <=? _); exact I.
      * destruct HI as [I1 I2]. rewrite x_zip_guard_ok; auto; try lia. split; [reflexivity|]. unfold zip_guard. destruct (0 <=? _); exact I.
      * split; [reflexivity|exact I].
      * split; [reflexivity|exact I].
Qed.

Lemma fill_small {T Y S} (cl : S -> outcome (Y * S)) (s0 : S) (t : tensor T) : zip_small t (e_fill cl s0).
Proof.
  intros z EZ _. left. unfold e_zip in EZ. apply bind_ok in EZ as (u1 & _ & EZ). apply bind_ok in EZ as (u2 & _ & EZ).
  apply bind_ok in EZ as (dims & ED & EZ). injection EZ as <-. rewrite zip_dims_spec in ED. unfold longer in ED.
  change (e_dims (e_fill cl s0)) with (@nil Z) in ED. change (e_dims (e_view _ _ _)) with (tn_dims t) in ED.
  cbn [length] in ED. destruct (Nat.ltb_spec (length (tn_dims t)) 0) as [L|_]; [lia|].
  destruct (slice_eqb _ _); [|discriminate]. destruct (accepts _ _); [|discriminate]. injection ED as <-.
  unfold outer_rank, zip_expr. cbn [e_inner e_fill e_view v_map whole]. unfold map_inner_rank. cbn [m_layout m_ty].
  unfold e_rank, m_rank. cbn [e_dims m_dims]. destruct (sh_rank (tn_ty t)) as [[|k]|]; cbn [inner_min]; lia.
Qed.

(** ** One operation *)
Section Steps.
  Context (dbg : bool) {T C : Type} (al : allocator).

  Definition sstate (r : result (state T C) unit) : Prop := match r with Done _ st => small_state dbg st | _ => True end.

  Lemma var_small (st : state T C) i t : small_state dbg st -> var st i = Some t -> small dbg t.
  Proof.
    intros HS. unfold var. destruct (nth_error (st_vars st) i) as [[u|]|] eqn:E; try discriminate. intros [= <-].
    apply nth_error_In in E. unfold small_state in HS. rewrite Forall_forall in HS. exact (HS _ E).
  Qed.

  Lemma set_small (st : state T C) i v w : small_state dbg st -> match v with Some t => small dbg t | None => True end ->
    small_state dbg (set_var i v w st).
  Proof. intros HS HV. unfold small_state, set_var. cbn [st_vars]. apply Forall_upd'; auto. Qed.

  Lemma create_same (x m : M (world T C) (tensor T)) st : same_osmall dbg (x (st_w st)) (m (st_w st)) -> small_state dbg st ->
    create m st <> Fault -> create x st = create m st /\ sstate (create m st).
  Proof.
    intros H HS. unfold create, sstate. destruct (m (st_w st)) as [t w|w| |] eqn:E; intros NF; try congruence;
      destruct H as [-> H]; try congruence; (split; [reflexivity|]); cbn in *; auto.
    unfold small_state. cbn [st_vars]. apply Forall_app. split; [exact HS|constructor; [exact H|constructor]].
  Qed.

  Lemma on_var_same {A} (x m : M (tensor T * world T C) A) i st :
    (forall t, var st i = Some t -> same_small dbg (x (t, st_w st)) (m (t, st_w st))) -> small_state dbg st ->
    on_var i m st <> Fault -> on_var i x st = on_var i m st /\ sstate (on_var i m st).
  Proof.
    intros H HS. unfold on_var, sstate. destruct (var st i) as [t|] eqn:EV; [|auto]. specialize (H t eq_refl). unfold same_small in H.
    destruct (m (t, st_w st)) as [u [t' w]|[t' w]| |] eqn:E; intros NF; try congruence;
      destruct H as [-> H]; try congruence; (split; [reflexivity|]); auto; now apply set_small.
  Qed.

  Lemma consume_same (x m : tensor T -> M (world T C) (option (tensor T))) i st :
    (forall t, var st i = Some t -> m t (st_w st) <> Fault -> x t (st_w st) = m t (st_w st) /\
       match m t (st_w st) with Done (Some t') _ => small dbg t' | _ => True end) -> small_state dbg st ->
    consume i m st <> Fault -> consume i x st = consume i m st /\ sstate (consume i m st).
  Proof.
    intros H HS. unfold consume, sstate. destruct (var st i) as [t|] eqn:EV; [|auto]. specialize (H t eq_refl).
    destruct (m t (st_w st)) as [v w|w| |] eqn:E; intros NF; try congruence;
      destruct H as [-> H]; try congruence; (split; [reflexivity|]); auto; apply set_small; auto.
  Qed.

  Lemma kept_same (x m : M (world T C) (tensor T)) w : same_osmall dbg (x w) (m w) -> kept m w <> Fault ->
    kept x w = kept m w /\ match kept m w with Done (Some t') _ => small dbg t' | _ => True end.
  Proof.
    intros H. unfold kept, seqM. destruct (m w) as [t w'|w'| |] eqn:E; intros NF; try congruence; destruct H as [-> H]; try congruence; auto.
  Qed.

  Theorem x_op_ok (o : op T C) (st : state T C) l :
    al_machine al -> consistent st l -> op_ok o st -> small_op dbg o st -> small_state dbg st ->
    x_op dbg al o st = step al o st /\ sstate (step al o st).
  Proof.
    intros HA HC HO HSO HS. assert (NF : step al o st <> Fault).
    { pose proof (step_ok al HC HO) as H. destruct (step al o st); try congruence; contradiction. }
    pose proof (fun i t => @var_ok T C st l i t HC) as HV. pose proof (fun i t => @var_small st i t HS) as HVS.
    destruct o; cbn [x_op step op_ok small_op] in *.
    - apply create_same; auto. intros F. now apply x_with_capacity_ok.
    - apply create_same; auto. intros F. now apply x_from_vec_ok.
    - apply create_same; auto. intros F. apply x_from_expr_ok; auto. apply HO.
    - destruct (var st _) as [t|] eqn:EV; [|auto]. apply create_same; auto. intros F. apply x_clone_ok; eauto.
    - apply on_var_same; auto. intros t EV F. apply x_clear_ok; eauto.
    - apply on_var_same; auto. intros t EV F. apply x_truncate_ok; eauto.
    - apply on_var_same; auto. intros t EV F. apply x_reserve_ok; eauto.
    - apply on_var_same; auto. intros t EV F. apply x_try_reserve_ok; eauto.
    - apply on_var_same; auto. intros t EV F. apply x_shrink_ok; eauto.
    - apply on_var_same; auto. intros t EV F. apply x_expand_ok; eauto. apply HO.
    - apply on_var_same; auto. intros t EV F. apply x_extend_ok; eauto.
    - apply on_var_same; auto. intros t EV F. destruct HSO. apply x_resize_ok; eauto.
    - apply on_var_same; auto. intros t EV F. destruct HSO. apply x_resize_value_ok; eauto.
    - apply on_var_same; auto. intros t EV F. destruct HO as (O1 & O2 & _). apply x_drain_take_ok; eauto.
    - apply on_var_same; auto. intros t EV F. destruct HO as (O1 & O2 & _). apply x_drain_leak_ok; eauto.
    - destruct (var st j) as [src|] eqn:EV; [|auto]. apply on_var_same; auto. intros t EV' F. apply x_clone_from_ok; eauto.
    - destruct (var st i) as [t1|] eqn:E1; [|auto]. destruct (var st j) as [t2|] eqn:E2; [|auto].
      destruct (@x_append_ok dbg T C al t1 t2 (st_w st)) as [EA HP]; eauto.
      { intros F. rewrite F in NF. congruence. }
      rewrite EA. split; [reflexivity|]. destruct (tn_append al (t1, t2, st_w st)) as [u [[s1 s2] w]|[[s1 s2] w]| |]; cbn; auto;
        destruct HP; apply set_small; auto; apply set_small; auto.
    - apply consume_same; auto. intros t EV F. apply kept_same; auto. destruct HO as (O1 & O2 & _). intros F'. apply x_into_shape_ok; eauto.
    - apply consume_same; auto. intros t EV F. apply kept_same; auto. intros F'. apply x_into_mapping_ok; eauto.
    - apply consume_same; auto. intros t EV F. apply kept_same; auto. intros F'. apply x_into_flat_ok; eauto.
    - apply consume_same; auto. intros t EV F. apply kept_same; auto. intros F'. apply x_zip_with_ok; eauto.
    - apply consume_same; auto. intros t EV F. apply kept_same; auto. intros F'. apply x_zip_with_ok; eauto using fill_small. apply zips_map; eauto.
    - apply consume_same; auto. intros t EV F.
      destruct (x_into_nexts (HV _ _ EV) (HVS _ _ EV) k) as (it & it' & E1 & E2 & E3 & E4). rewrite E1, E2.
      pose proof (to_len (HV _ _ EV)) as HL. pose proof (HVS _ _ EV) as HSt.
      rewrite (counted_len (to_nonneg (HV _ _ EV)) (sm_count HSt)). cbn [bind]. pose proof (proj1 (sm_count HSt)).
      assert (HL' : zlen (tn_mem t) = prodZ (tn_dims t)) by exact HL.
      rewrite u_res_fit by (unfold is_usize; lia). rewrite HL', Z.eqb_refl, E3. auto.
    - apply consume_same; auto. intros t EV F. cbn beta in *.
      assert (E : (x <- xt_into_scalar dbg t ;; (fun w : world T C => Done (@None (tensor T)) (w_use x w))) (st_w st) =
                  (x <- tn_into_scalar t ;; (fun w : world T C => Done (@None (tensor T)) (w_use x w))) (st_w st)).
      { unfold seqM. rewrite (x_into_scalar_ok (st_w st) (HV _ _ EV) (HVS _ _ EV)). reflexivity. }
      rewrite E. split; [reflexivity|]. unfold seqM. destruct (tn_into_scalar t (st_w st)); exact I.
    - apply consume_same; auto. intros t EV F. rewrite (x_to_vec_ok (HV _ _ EV) (HVS _ _ EV)). auto.
  Qed.

  Theorem x_ops_ok (ops : list (op T C)) : forall (st : state T C) l,
    al_machine al -> consistent st l -> ops_ok al ops st -> small_ops dbg al ops st -> small_state dbg st ->
    x_ops dbg al ops st = run_ops al ops st /\ sstate (run_ops al ops st).
  Proof.
    induction ops as [|o os IH]; intros st l HA HC HO HSO HS; cbn [x_ops run_ops]; [split; [reflexivity|exact HS]|].
    destruct HO as [HO1 HO2]. destruct HSO as [HS1 HS2].
    destruct (x_op_ok HA HC HO1 HS1 HS) as [E HP]. pose proof (step_ok al HC HO1) as H. unfold seqM. rewrite E.
    destruct (step al o st) as [[] st'|st'| |]; auto. destruct H as (more & HC' & _). eapply IH; eauto.
  Qed.
End Steps.

(** ** Resizing, whatever the strides *)

Lemma stride_cases dims : nonneg dims -> stride_overflow dims \/ ~ stride_overflow dims.
Proof.
  unfold stride_overflow. induction dims as [|d dims IH]; intros HN.
  - right. intros (a & b & E & _). destruct a; discriminate.
  - inversion HN as [|? ? Hd HN']; subst. destruct (Z.eq_dec d 0) as [->|NZ].
    + destruct (checked_len_cases dims) as [F|E].
      * right. intros (a & b & E & HP & HF). destruct a as [|x a]; cbn [app] in E; inversion E; subst; [contradiction|]. inversion HP; lia.
      * left. exists [], dims. split; [reflexivity|]. split; [constructor|]. intros F. rewrite (checked_len_fits F) in E. discriminate.
    + destruct (IH HN') as [(a & b & E & HP & HF)|NO].
      * left. exists (d :: a), b. cbn [app]. rewrite <- E. split; [reflexivity|]. split; [constructor; auto; lia|exact HF].
      * right. intros (a & b & E & HP & HF). destruct a as [|x a]; cbn [app] in E; inversion E; subst; [congruence|]. apply NO. exists a, b.
        inversion HP; auto.
Qed.

Section AnyResize.
  Context (dbg : bool) {T C : Type} (al : allocator) (t : tensor T) (w : world T C) (dims : list Z).
  Hypothesis HA : al_machine al.
  Hypothesis Ht : tensor_ok t.
  Hypothesis HS : small dbg t.
  Hypothesis HN : nonneg dims.
  Hypothesis HM : machine_dims dims.

  Lemma resize_any f : tn_resize_with al dims f (t, w) <> Fault ->
    (xt_resize_with dbg al dims f (t, w) = tn_resize_with al dims f (t, w) /\ small_res dbg (tn_resize_with al dims f (t, w))) \/
    xt_resize_with dbg al dims f (t, w) = Unwound (t, w).
  Proof.
    intros NF. destruct (Nat.eqb_spec (length dims) (length (tn_dims t))) as [EL|NL].
    2:{ right. unfold xt_resize_with. cbn [fst]. destruct (Nat.eqb_spec (length dims) (length (tn_dims t))); [congruence|].
        unfold seqM, check, ret. reflexivity. }
    destruct (stride_cases (to_nonneg Ht)) as [SO|NS]; [|left; now apply x_resize_ok].
    destruct (Z_lt_dec 0 (prodZ dims)) as [HP|HP]; [|left; now apply x_resize_ok].
    assert (HD : dbg = true \/ dbg = false) by (destruct (bool_dec dbg true); auto; right; now apply Bool.not_true_is_false).
    destruct HD as [HD|HD]; [|left; apply x_resize_ok; auto; intros E; congruence].
    right. subst dbg. now apply x_resize_panics.
  Qed.

  Lemma resize_value_any v cl : tn_resize al dims v cl (t, w) <> Fault ->
    (xt_resize dbg al dims v cl (t, w) = tn_resize al dims v cl (t, w) /\ small_res dbg (tn_resize al dims v cl (t, w))) \/
    xt_resize dbg al dims v cl (t, w) = Unwound (t, mkWorld (w_clo w) (w_made w ++ [v]) (w_used w) (w_dropped w ++ [v])).
  Proof.
    intros NF. destruct (Nat.eqb_spec (length dims) (length (tn_dims t))) as [EL|NL].
    2:{ right. unfold xt_resize, xt_resize_with. cbn [fst snd]. destruct (Nat.eqb_spec (length dims) (length (tn_dims t))); [congruence|].
        unfold seqM, check, ret. reflexivity. }
    destruct (stride_cases (to_nonneg Ht)) as [SO|NS]; [|left; now apply x_resize_value_ok].
    destruct (Z_lt_dec 0 (prodZ dims)) as [HP|HP]; [|left; now apply x_resize_value_ok].
    assert (HD : dbg = true \/ dbg = false) by (destruct (bool_dec dbg true); auto; right; now apply Bool.not_true_is_false).
    destruct HD as [HD|HD]; [|left; apply x_resize_value_ok; auto; intros E; congruence].
    right. subst dbg. unfold xt_resize. cbn [fst snd]. rewrite x_resize_panics; auto.
  Qed.
End AnyResize.

Section Safe.
  Context (dbg : bool) {T C : Type} (al : allocator).

  Definition safe_res (o : option nat) (l : list T) (abort : Prop) (r : result (state T C) unit) : Prop :=
    match r with
    | Done _ st => small_state dbg st /\ exists more, consistent st (l ++ more) /\ within more o
    | Aborted => abort
    | _ => False
    end.

  Lemma set_same (st : state T C) i t : var st i = Some t -> set_var i (Some t) (st_w st) st = st.
  Proof.
    unfold var, set_var. destruct (nth_error (st_vars st) i) as [[u|]|] eqn:E; try discriminate. intros [= <-].
    destruct st as [vs w]. cbn [st_vars st_w] in *. f_equal. revert i E. induction vs as [|v vs IH]; intros [|i] E; cbn in *; try discriminate.
    - now injection E as ->.
    - now rewrite IH.
  Qed.

  Lemma safe_exact (o : op T C) (st : state T C) l x : consistent st l -> op_ok o st ->
    x = step al o st -> sstate dbg (step al o st) -> safe_res (leak_limit o) l (bad_default st) x.
  Proof.
    intros HC HO -> HP. pose proof (step_ok al HC HO) as H. unfold safe_res. destruct (step al o st); auto.
  Qed.

  Theorem x_op_safe (o : op T C) (st : state T C) l :
    al_machine al -> consistent st l -> op_ok o st -> machine_op dbg o st -> small_state dbg st ->
    safe_res (leak_limit o) l (bad_default st) (x_op dbg al o st).
  Proof.
    intros HA HC HO HSO HS.
    assert (NF : step al o st <> Fault).
    { pose proof (step_ok al HC HO) as H. destruct (step al o st); try congruence; contradiction. }
    destruct o; cbn [machine_op] in HSO; try (destruct (x_op_ok HA HC HO HSO HS) as [E HP]; now apply (safe_exact HC HO)).
    - cbn [x_op step op_ok] in *. destruct (var st i) as [t|] eqn:EV.
      2:{ unfold on_var. rewrite EV. split; auto. exists []. rewrite app_nil_r. split; auto. cbn. lia. }
      pose proof (var_ok HC EV) as Ht. pose proof (var_small HS EV) as HSt.
      destruct (@resize_any dbg T C al t (st_w st) dims HA Ht HSt HO HSO f) as [[E HP]|E].
      + intros F. apply NF. unfold on_var. now rewrite EV, F.
      + apply (safe_exact HC (o := ResizeWith i dims f) HO); cbn [step]; unfold on_var; rewrite EV; [now rewrite E|].
        unfold sstate. destruct (tn_resize_with al dims f _) as [u [t' w']|[t' w']| |]; auto; now apply set_small.
      + unfold on_var. rewrite EV, E, (set_same EV). split; auto. exists []. rewrite app_nil_r. split; auto. cbn. lia.
    - cbn [x_op step op_ok] in *. destruct (var st i) as [t|] eqn:EV.
      2:{ unfold on_var. rewrite EV. split; auto. exists []. rewrite app_nil_r. split; auto. cbn. lia. }
      pose proof (var_ok HC EV) as Ht. pose proof (var_small HS EV) as HSt.
      destruct (@resize_value_any dbg T C al t (st_w st) dims HA Ht HSt HO HSO value clone) as [[E HP]|E].
      + intros F. apply NF. unfold on_var. now rewrite EV, F.
      + apply (safe_exact HC (o := Resize i dims value clone) HO); cbn [step]; unfold on_var; rewrite EV; [now rewrite E|].
        unfold sstate. destruct (tn_resize al dims value clone _) as [u [t' w']|[t' w']| |]; auto; now apply set_small.
      + unfold on_var. rewrite EV, E. split; [now apply set_small|]. exists []. rewrite app_nil_r. split; [|cbn; lia].
        pose proof (set_same EV) as ES. unfold set_var in *. destruct HC as [HC1 HC2]. split; cbn [st_vars st_w w_made w_used w_dropped].
        * replace (upd (st_vars st) i (Some t)) with (st_vars st) by (rewrite <- ES at 1; reflexivity). exact HC1.
        * replace (upd (st_vars st) i (Some t)) with (st_vars st) by (rewrite <- ES at 1; reflexivity).
          rewrite HC2. rewrite <- !app_assoc. reflexivity.
  Qed.

  Lemma within_app a b m n : within a m -> within b n ->
    @within T (a ++ b) (match m, n with Some x, Some y => Some (x + y)%nat | _, _ => None end).
  Proof. destruct m, n; cbn; auto. rewrite app_length. lia. Qed.

  Theorem x_ops_safe (ops : list (op T C)) : forall (st : state T C) l,
    al_machine al -> consistent st l -> machine_ops dbg al ops st -> small_state dbg st ->
    safe_res (leak_limits ops) l
      (exists ops1 ops2 st1, ops = ops1 ++ ops2 /\ x_ops dbg al ops1 st = Done tt st1 /\ bad_default st1) (x_ops dbg al ops st).
  Proof.
    induction ops as [|o os IH]; intros st l HA HC HO HS.
    - cbn. split; auto. exists []. rewrite app_nil_r. split; auto.
    - destruct HO as (HO & HM & HR). pose proof (x_op_safe HA HC HO HM HS) as H. cbn [x_ops].
      destruct (x_op dbg al o st) as [[] st'|st'| |] eqn:E; cbn [safe_res] in H; try contradiction.
      + destruct H as [HS' (m1 & HC1 & HW1)]. specialize (IH st' (l ++ m1) HA HC1 (HR _ eq_refl) HS').
        rewrite (seq_done _ E). destruct (x_ops dbg al os st') as [[] st2|st2| |] eqn:E2; cbn [safe_res] in *; auto.
        * destruct IH as [HS2 (m2 & HC2 & HW2)]. split; auto. exists (m1 ++ m2). rewrite app_assoc. split; auto.
          exact (within_app HW1 HW2).
        * destruct IH as (o1 & o2 & st1 & -> & E1 & HB). exists (o :: o1), o2, st1. split; [reflexivity|]. split; auto.
          cbn [x_ops]. now rewrite (seq_done _ E).
      + unfold seqM. rewrite E. cbn [safe_res]. exists [], (o :: os), st. split; [reflexivity|]. split; [reflexivity|exact H].
  Qed.
End Safe.
