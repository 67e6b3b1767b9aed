(** Facts about equality, [contains], debug output and serialization with machine integers. *)
From Verif Require Import Base Spec SpecFacts Shape Mapping Index View Wf MappingFacts MapOps ReshapeFacts IndexFacts ViewFacts.
From Verif Require Import Expr ExprSpec ExprFacts IterFacts SourceFacts ExprTree ExprMore Tensor Ops OpsFacts Serde.
From Verif Require Import Machine MachineSpec MachineFacts MachineViews MachineRun MachineIter MachineIterFacts MachineTensorRun MachineRows.
Unset Strict Implicit.
Set Implicit Arguments.

(** ** Loops over iterators *)

Section Loops.
  Context (dbg : bool).

  Lemma x_iter_entries_eq {A D} {e : expression A} (f : A -> outcome D) fuel : forall it : iter e,
    iter_ok it -> outer_rank e = 0%nat -> x_iter_entries dbg f fuel it = iter_entries f fuel it.
  Proof.
    induction fuel as [|fuel IH]; intros it HI H0; [reflexivity|]. cbn [x_iter_entries iter_entries].
    destruct (x_next_ok dbg HI (or_introl H0)) as [-> HN]. destruct (it_next it) as [[x it']| | |]; try reflexivity. cbn [bind].
    destruct x as [x|]; [|reflexivity]. destruct (f x); try reflexivity. cbn [bind]. rewrite IH; auto. apply (HN _ _ eq_refl).
  Qed.

  Lemma x_iter_any_eq {A} {e : expression A} (p : A -> outcome bool) fuel : forall it : iter e,
    iter_ok it -> outer_rank e = 0%nat -> x_iter_any dbg p fuel it = iter_any p fuel it.
  Proof.
    induction fuel as [|fuel IH]; intros it HI H0; [reflexivity|]. cbn [x_iter_any iter_any].
    destruct (x_next_ok dbg HI (or_introl H0)) as [-> HN]. destruct (it_next it) as [[x it']| | |]; try reflexivity. cbn [bind].
    destruct x as [x|]; [|reflexivity]. destruct (p x) as [[|]| | |]; try reflexivity. cbn [bind]. apply IH; auto. apply (HN _ _ eq_refl).
  Qed.

  Lemma x_iter_eq_eq {A B} {a : expression A} {b : expression B} (eq : A -> B -> outcome bool) fuel : forall (l : iter a) (r : iter b),
    iter_ok l -> iter_ok r -> outer_rank a = 0%nat -> outer_rank b = 0%nat -> x_iter_eq dbg eq fuel l r = iter_eq eq fuel l r.
  Proof.
    induction fuel as [|fuel IH]; intros l r HL HR H0 H1; [reflexivity|]. cbn [x_iter_eq iter_eq].
    destruct (x_next_ok dbg HL (or_introl H0)) as [-> NL]. destruct (x_next_ok dbg HR (or_introl H1)) as [-> NR].
    destruct (it_next l) as [[x l']| | |]; try reflexivity. cbn [bind]. destruct x as [x|]; [|reflexivity].
    destruct (it_next r) as [[y r']| | |]; try reflexivity. cbn [bind]. destruct y as [y|]; [|reflexivity].
    destruct (eq x y) as [[|]| | |]; try reflexivity. cbn [bind]. apply IH; auto; [apply (NL _ _ eq_refl)|apply (NR _ _ eq_refl)].
  Qed.
End Loops.

Lemma list_eq_ext {A B} (f g : A -> B -> outcome bool) l : forall r, (forall x y, In x l -> In y r -> f x y = g x y) ->
  list_eq f l r = list_eq g l r.
Proof.
  induction l as [|x l IH]; intros [|y r] H; auto. cbn [list_eq]. rewrite (H x y) by now left.
  destruct (g x y) as [[|]| | |]; auto. cbn [bind]. apply IH. intros; apply H; now right.
Qed.
Lemma list_any_ext {A} (f g : A -> outcome bool) l : (forall x, In x l -> f x = g x) -> list_any f l = list_any g l.
Proof.
  induction l as [|x l IH]; intros H; auto. cbn [list_any]. rewrite (H x) by now left.
  destruct (g x) as [[|]| | |]; auto. cbn [bind]. apply IH. intros; apply H; now right.
Qed.
Lemma mapM_ext {A D} (f g : A -> outcome D) l : (forall x, In x l -> f x = g x) -> mapM f l = mapM g l.
Proof.
  induction l as [|x l IH]; intros H; auto. cbn [mapM]. rewrite (H x) by now left.
  destruct (g x); auto. cbn [bind]. rewrite IH; auto. intros; apply H; now right.
Qed.

(** An expression iterated in one run whose state does not change gives its items in order. *)
Lemma lists_yield {A} (e : expression A) ws :
  outer_rank e = 0%nat -> prodZ (e_dims e) = Z.of_nat (length ws) ->
  (forall k x, nth_error ws k = Some x -> e_get e (Z.of_nat k) (e_init e) = Ok (x, e_init e)) ->
  ((0 < e_rank e)%nat -> exists st, e_reset e (e_rank e - 1) 0 (e_init e) = Ok st) ->
  yields (it_new e) ws.
Proof.
  intros H0 HL HG HR.
  assert (G : forall m k, (k + m = length ws)%nat ->
    yields (mkIter (e_init e) (Z.of_nat k) (Z.of_nat (length ws)) [] [] : iter e) (skipn k ws)).
  { induction m as [|m IH]; intros k Hk.
    - rewrite skipn_all2 by lia.
      match goal with |- yields ?it _ => assert (Q : exists it', it_next it = Ok (None, it')) end.
      2:{ destruct Q as [it' Q]. exact (yields_nil Q). }
      unfold it_next. cbn [it_index it_limit]. cbv zeta.
      replace (Z.of_nat k =? Z.of_nat (length ws)) with true by lia. unfold step_outer. cbn [it_st it_outer it_olimit it_index it_limit].
      rewrite H0. destruct (Nat.ltb_spec 0 (e_rank e)) as [L|L].
      + destruct (HR L) as (st & ->). cbn [bind step_loop]. eauto.
      + cbn [bind step_loop]. eauto.
    - destruct (nth_error ws k) as [x|] eqn:E; [|apply nth_error_None in E; lia].
      assert (skipn k ws = x :: skipn (S k) ws) as ->.
      { clear - E. revert k E. induction ws as [|w ws IH]; intros [|k] E; try discriminate; cbn in *; [now injection E as ->|now apply IH]. }
      eapply yields_cons; [|apply (IH (S k)); lia]. unfold it_next. cbv zeta. cbn [it_index it_limit it_st it_outer it_olimit].
      replace (Z.of_nat k =? Z.of_nat (length ws)) with false by lia.
      replace (Z.of_nat k + 1 - 1) with (Z.of_nat k) by lia. rewrite (HG _ _ E). cbn [bind].
      replace (Z.of_nat k + 1) with (Z.of_nat (S k)) by lia. reflexivity. }
  specialize (G (length ws) O eq_refl). cbn [skipn] in G. change (Z.of_nat 0) with 0 in G.
  assert (E : it_new e = mkIter (e_init e) 0 (Z.of_nat (length ws)) [] []).
  { unfold it_new. rewrite H0. cbn [Nat.ltb Nat.leb skipn]. rewrite fold_mul_prod, HL. f_equal. lia. }
  rewrite E. exact G.
Qed.

(** ** Rows *)

Lemma modest_rows dbg n v d ds : modest dbg n v -> v_dims v = d :: ds ->
  exists ex ee ws, x_axis dbg true v (AxConst 0) = Ok ex /\ e_axis true v (AxConst 0) = Ok ee /\
    yields (it_new ex) ws /\ yields (it_new ee) ws /\ (length ws < next_fuel ex)%nat /\ (length ws < next_fuel ee)%nat /\
    x_it_new dbg ex = Ok (it_new ex) /\ iter_ok (it_new ex) /\ outer_rank ex = 0%nat /\ Z.of_nat (length ws) = d /\
    Forall (fun w => modest dbg n w /\ v_dims w = ds) ws.
Proof.
  intros (HV & HN & HR & HS) HD. pose proof (vv_wf HV) as HW. pose proof (wf_nonneg HW) as NN. fold (v_dims v) in NN.
  assert (RD : roomy ds).
  { rewrite HD in HR. unfold roomy in *. rewrite mx_cons in HR. pose proof (@mx_pos ds). nia. }
  rewrite HD in NN. inversion NN as [|? ? Hd Nds]; subst.
  assert (FD : fits ds) by (apply mx_fits; auto; now apply roomy_usize).
  destruct (rows_when HV HD (fun _ => FD)) as (ee & ws & E1 & Y & F & _ & L & FW & AT & _).
  assert (HI : is_axis (AxConst 0) (length (v_dims v)) 0) by (rewrite HD; split; cbn; auto; lia).
  assert (HIL : (0 < length (v_dims v))%nat) by (rewrite HD; cbn; lia).
  assert (HM : Forall (fun w => modest dbg n w /\ v_dims w = ds) ws).
  { apply Forall_forall. intros w Hw. rewrite Forall_forall in FW. destruct (FW _ Hw) as (D1 & D2 & _). split; [|exact D1].
    split; [exact D2|]. split; [exact HN|]. split; [rewrite D1; exact RD|].
    apply In_nth_error in Hw. destruct Hw as [k Hk]. assert (Hlt : (k < length ws)%nat) by (apply nth_error_Some; congruence).
    destruct (AT (Z.of_nat k)) as (w' & H1 & H2); [lia|]. rewrite Nat2Z.id, Hk in H1. injection H1 as <-.
    assert (SW : m_strides (v_map w) = remove_at 0 (m_strides (v_map v))).
    { unfold v_at, v_axis_at in H2. destruct (ax_remove_map_ok HW HI) as (m' & Em & _ & Hs & _).
      destruct (ax_index _ _); try discriminate. cbn [bind] in H2. destruct (m_dim _ _); try discriminate. cbn [bind] in H2.
      destruct (assert _); try discriminate. cbn [bind] in H2. rewrite Em in H2. cbn [bind] in H2.
      destruct (m_stride _ _); try discriminate. cbn [bind] in H2. injection H2 as <-. exact Hs. }
    intros i Hi. rewrite D1 in Hi. specialize (HS (S i)). rewrite HD in HS. cbn [length nth] in HS. specialize (HS ltac:(lia)).
    assert (EN : nth i (m_strides (v_map w)) 0 = nth (S i) (m_strides (v_map v)) 0).
    { rewrite SW. destruct (m_strides (v_map v)) as [|s ss]; [destruct i; reflexivity|reflexivity]. }
    rewrite EN, D1. exact HS. }
  unfold x_axis. rewrite x_ax_get_fit by auto.
  destruct (ax_get_ok HW HI) as (m & Em & Hd1 & Hs & Hty & Hl & Hwm). rewrite Em. cbn [bind].
  assert (ED : m_dims m = [d]).
  { rewrite Hd1. change (m_dims (v_map v)) with (v_dims v). rewrite HD. reflexivity. }
  set (s := nth 0 (m_strides (v_map v)) 0) in *.
  assert (ES : inner_stride m = s).
  { apply inner_stride_one; auto. unfold m_rank. rewrite ED. reflexivity. }
  eexists _, ee, ws. split; [reflexivity|]. split; [exact E1|].
  assert (O0 : forall st get rs stp, outer_rank (mkExpr Z st (STuple [ax_dim (AxConst 0) (v_ty v)]) (m_dims m) (Some 1%nat) true get rs stp
      : expression view) = 0%nat).
  { intros. unfold outer_rank, e_rank. cbn [e_inner e_dims]. rewrite ED. reflexivity. }
  split; [|split; [exact Y|split; [|split; [exact F|split; [|split; [|split; [apply O0|split; [exact L|exact HM]]]]]]]].
  - apply lists_yield.
    + apply O0.
    + cbn [e_dims]. rewrite ED, prodZ_cons. replace (prodZ []) with 1 by reflexivity. lia.
    + intros k w Hk. assert (Hlt : (k < length ws)%nat) by (apply nth_error_Some; congruence).
      destruct (AT (Z.of_nat k)) as (w' & H1 & H2); [lia|]. rewrite Nat2Z.id, Hk in H1. injection H1 as <-.
      cbn [e_get e_init]. rewrite ES. destruct (HS O HIL) as [_ SB]. rewrite HD in SB. cbn [nth] in SB. fold s in SB.
      specialize (SB (Z.of_nat k) ltac:(lia)). rewrite i_mul by lia. cbn [bind]. rewrite Z.add_0_l, i_abs by lia. cbn [bind].
      rewrite x_ax_remove_fit by auto.
      unfold v_at, v_axis_at in H2. assert (HA' : is_axis (AxConst 0) (m_rank (v_map v)) 0) by exact HI.
      rewrite (ax_index_ok HA') in H2. cbn [bind] in H2. unfold v_dims in *. rewrite m_dim_ok in H2 by auto. cbn [bind] in H2.
      rewrite HD in H2. cbn [nth] in H2. rewrite assert_true in H2 by lia. cbn [bind] in H2.
      destruct (ax_remove_map_ok HW HI) as (m' & Em' & Hd' & _). rewrite Em' in *. cbn [bind] in *.
      rewrite m_stride_ok in H2 by (auto; apply (wf_strides HW)). cbn [bind] in H2. injection H2 as <-.
      rewrite Hd', HD. cbn [remove_at firstn skipn app]. change (remove_at 0 (d :: ds)) with ds. rewrite checked_len_fits by exact FD.
      rewrite m_is_empty_spec, Hd', HD. change (remove_at 0 (d :: ds)) with ds. reflexivity.
    + intros _. eexists. reflexivity.
  - unfold next_fuel. cbn [e_dims]. rewrite ED, sh_len_prod, prodZ_cons. replace (prodZ []) with 1 by reflexivity. lia.
  - apply x_new_ok; [cbn [e_dims]; rewrite ED|cbn [e_dims]; rewrite ED|rewrite O0; cbn [skipn e_dims]; rewrite ED].
    + constructor; [exact Hd|constructor].
    + constructor; [|constructor]. pose proof (@mx_nth 0 (v_dims v)) as M. rewrite HD in M. cbn [nth] in M. pose proof (roomy_usize HR). rewrite HD in *. lia.
    + rewrite mx_cons. replace (mx []) with 1 by reflexivity.
      pose proof (roomy_usize HR) as M. rewrite HD, mx_cons in M. pose proof (@mx_pos ds). nia.
  - match goal with |- iter_ok (it_new ?e) => refine (proj2 (@x_new_ok dbg _ e _ _ _)) end; [cbn [e_dims]; rewrite ED|cbn [e_dims]; rewrite ED|rewrite O0; cbn [skipn e_dims]; rewrite ED].
    + constructor; [exact Hd|constructor].
    + constructor; [|constructor]. pose proof (@mx_nth 0 (v_dims v)) as M. rewrite HD in M. cbn [nth] in M. pose proof (roomy_usize HR). rewrite HD in *. lia.
    + rewrite mx_cons. replace (mx []) with 1 by reflexivity.
      pose proof (roomy_usize HR) as M. rewrite HD, mx_cons in M. pose proof (@mx_pos ds). nia.
Qed.

(** ** Elements of views with at most one dimension *)

Lemma modest_cells dbg n v : modest dbg n v -> (length (v_dims v) < 2)%nat ->
  let ex := x_e_view dbg n true v in
  yields (it_new ex) (map (v_addr v) (indices (v_dims v))) /\ (length (indices (v_dims v)) < next_fuel ex)%nat /\
  x_it_new dbg ex = Ok (it_new ex) /\ iter_ok (it_new ex) /\ outer_rank ex = 0%nat.
Proof.
  intros (HV & HN & HR & HS) HL ex. pose proof (vv_wf HV) as HW. pose proof (wf_nonneg HW) as NN. fold (v_dims v) in NN.
  assert (O0 : outer_rank ex = 0%nat).
  { unfold outer_rank, e_rank, ex. cbn [x_e_view e_inner e_dims]. unfold map_inner_rank, m_rank. change (m_dims (v_map v)) with (v_dims v).
    destruct (m_layout (v_map v)).
    - destruct (sh_rank (m_ty (v_map v))) as [[|]|]; try reflexivity; lia.
    - destruct (0 <? length (v_dims v))%nat; lia. }
  assert (XN : x_it_new dbg ex = Ok (it_new ex) /\ iter_ok (it_new ex)).
  { apply x_new_ok; unfold ex; cbn [x_e_view e_dims]; auto.
    - apply Forall_forall. intros d Hd. apply (In_nth _ _ 0) in Hd. destruct Hd as (i & _ & <-). pose proof (@mx_nth i (v_dims v)). pose proof (roomy_usize HR). lia.
    - fold ex. rewrite O0. cbn [skipn]. now apply roomy_usize. }
  destruct XN as [XN XI].
  split; [|split; [|auto]].
  - apply lists_yield; auto.
    + unfold ex. cbn [x_e_view e_dims]. rewrite map_length, indices_length by exact NN. rewrite Z2Nat.id by now apply prodZ_nonneg. reflexivity.
    + intros k x Hk. assert (Hlt : (k < length (indices (v_dims v)))%nat).
      { assert (H : (k < length (map (v_addr v) (indices (v_dims v))))%nat) by (apply nth_error_Some; congruence). now rewrite map_length in H. }
      rewrite indices_length in Hlt by exact NN.
      assert (EX : x = v_addr v (unflat (v_dims v) (Z.of_nat k))).
      { rewrite nth_error_map, (nth_error_nth' _ []) in Hk by (rewrite indices_length by exact NN; exact Hlt). cbn in Hk. injection Hk as <-.
        now rewrite indices_nth. }
      assert (B : in_bounds (v_dims v) (unflat (v_dims v) (Z.of_nat k))).
      { apply unflat_in_bounds; auto. lia. }
      pose proof (vv_range HV B) as RG. rewrite <- EX in RG.
      assert (EA : x = v_ptr v + inner_stride (v_map v) * Z.of_nat k /\ Z.abs (inner_stride (v_map v) * Z.of_nat k) <= isize_max).
      { rewrite EX. unfold v_addr. pose proof (wf_strides HW) as LS. change (m_dims (v_map v)) with (v_dims v) in LS.
        destruct (v_dims v) as [|d [|]] eqn:ED; [| |cbn in HL; lia].
        - assert (k = 0%nat) as ->.
          { replace (prodZ []) with 1 in Hlt by reflexivity. lia. }
          split; [|cbn; rewrite Z.mul_0_r; unfold isize_max; lia].
          rewrite m_offset_dot by first [apply (wf_strides HW)|unfold v_dims in ED; now rewrite ED]. cbn [unflat]. rewrite Z.mul_0_r. destruct (m_strides (v_map v)); [|discriminate]. cbn. lia.
        - rewrite unflat_one. destruct (m_strides (v_map v)) as [|s [|]] eqn:Es; try discriminate.
          assert (EI : inner_stride (v_map v) = s).
          { apply inner_stride_one; auto. unfold m_rank. change (m_dims (v_map v)) with (v_dims v). now rewrite ED. }
          rewrite EI. rewrite m_offset_dot by first [apply (wf_strides HW)|unfold v_dims in ED; now rewrite ED]. rewrite Es. cbn [dot].
          split; [lia|]. destruct (HS O ltac:(cbn; lia)) as [_ SB]. cbn [nth] in SB. apply SB.
          rewrite prodZ_cons in Hlt. replace (prodZ []) with 1 in Hlt by reflexivity. lia. }
      destruct EA as [EA AB]. unfold ex. cbn [x_e_view e_get e_init]. rewrite i_mul by (auto; lia). cbn [bind]. rewrite <- EA.
      unfold e_ref. destruct RG as [G1 G2]. apply Z.leb_le in G1. apply Z.ltb_lt in G2. rewrite G1, G2. reflexivity.
    + unfold e_rank. unfold ex. cbn [x_e_view e_dims e_reset e_init]. change (m_dims (v_map v)) with (v_dims v). intros H1.
      rewrite x_stride_fit by auto. rewrite m_stride_ok; [|apply (wf_strides HW)|unfold m_rank, v_dims in *; lia]. cbn [bind].
      destruct (HS (length (v_dims v) - 1)%nat ltac:(lia)) as [HA _]. fold (v_dims v).
      set (s := nth (length (v_dims v) - 1) (m_strides (v_map v)) 0) in *.
      assert (EN : exists t, i_res dbg (- s) = Ok t).
      { destruct dbg.
        - exists (- s). apply i_abs. specialize (HA eq_refl). lia.
        - unfold i_res. destruct (i_fits (- s)); eauto. }
      destruct EN as [t ->]. cbn [bind]. rewrite i_mul by (rewrite ?Z.mul_0_r; unfold isize_max; lia). cbn [bind]. eauto.
  - unfold next_fuel, ex. cbn [x_e_view e_dims]. rewrite sh_len_prod, indices_length by exact NN. lia.
Qed.

(** ** Slices *)

Lemma x_v_slice_fit dbg {T} n (mem : list T) v : modest dbg n v -> is_dense v = true -> x_v_slice dbg mem v = v_slice mem v.
Proof.
  intros (HV & _ & HR & _) HL. pose proof (vv_wf HV) as HW. pose proof (wf_nonneg HW) as NN.
  unfold x_v_slice, v_slice. rewrite x_v_remap_fit by auto. destruct v as [p [ty dims|]]; [|discriminate HL].
  unfold v_remap. rewrite m_remap_dense. destruct (_ && _); [|reflexivity]. cbn [bind v_map m_dims v_ptr].
  unfold v_dims in HR. cbn in HR, NN. unfold x_flatten, v_flatten, v_dims. cbn [v_map m_dims].
  rewrite x_len_fit by (auto; now apply roomy_usize). cbn [bind]. unfold m_len. cbn [m_dims]. rewrite sh_len_prod.
  unfold x_v_reshape, v_reshape. cbn [v_map x_reshape m_reshape]. rewrite x_sh_reshape_fit by (auto; now apply roomy_usize).
  rewrite flatten_dims; auto.
  2:{ pose proof (mx_prod NN). pose proof (roomy_usize HR). lia. }
  cbn [bind v_map m_dims v_ptr]. rewrite x_len_fit; [|constructor; [apply (mx_prod NN)|constructor]|].
  - cbn [bind]. rewrite sh_len_prod. reflexivity.
  - rewrite mx_cons. replace (mx []) with 1 by reflexivity. pose proof (mx_prod NN). pose proof (roomy_usize HR). pose proof usize_pos. lia.
Qed.

(** ** The operations *)

Lemma x_eq_fit dbg {T U} (eq : T -> U -> outcome bool) am bm rank : forall a b,
  modest dbg (Z.of_nat (length am)) a -> modest dbg (Z.of_nat (length bm)) b ->
  x_eq_loop dbg eq am bm rank a b = eq_loop eq am bm rank a b.
Proof.
  induction rank as [|rank IH]; intros a b HA HB; cbn [x_eq_loop eq_loop].
  all: destruct (slice_eqb (v_dims a) (v_dims b)) eqn:ED; [|reflexivity]; apply slice_eqb_iff in ED.
  all: destruct (is_dense a && is_dense b) eqn:EB;
    [apply andb_true_iff in EB; rewrite (@x_v_slice_fit dbg T _ am a HA) by apply EB; destruct (v_slice am a); try reflexivity; cbn [bind];
     now rewrite (@x_v_slice_fit dbg U _ bm b HB) by apply EB|].
  all: destruct (Nat.ltb_spec (length (v_dims a)) 2) as [L|L].
  1,3: assert (L' : (length (v_dims b) < 2)%nat) by (rewrite <- ED; exact L);
    destruct (modest_cells HA L) as (Y1 & F1 & N1 & I1 & O1); destruct (modest_cells HB L') as (Y2 & F2 & N2 & I2 & O2);
    destruct (view_yields (proj1 HA) L) as [Y3 F3]; destruct (view_yields (proj1 HB) L') as [Y4 F4];
    cbv zeta; rewrite N1, N2; cbn [bind]; rewrite x_iter_eq_eq by auto;
    erewrite iter_eq_list; [|exact Y1|exact Y2|rewrite !map_length; now rewrite ED|rewrite map_length; exact F1];
    erewrite iter_eq_list; [|exact Y3|exact Y4|rewrite !map_length; now rewrite ED|rewrite map_length; exact F3]; reflexivity.
  - reflexivity.
  - destruct (v_dims a) as [|d ds] eqn:Ea; [cbn in L; lia|]. symmetry in ED.
    destruct (modest_rows HA Ea) as (xa & ea & wa & E1 & E2 & Y1 & Y2 & F1 & F2 & N1 & I1 & O1 & L1 & W1).
    destruct (modest_rows HB ED) as (xb & eb & wb & E3 & E4 & Y3 & Y4 & F3 & F4 & N2 & I2 & O2 & L2 & W2).
    rewrite E1, E2. cbn [bind]. rewrite E3, E4. cbn [bind]. rewrite N1, N2. cbn [bind]. rewrite x_iter_eq_eq by auto.
    erewrite iter_eq_list; [|exact Y1|exact Y3|lia|exact F1]. erewrite iter_eq_list; [|exact Y2|exact Y4|lia|exact F2].
    apply list_eq_ext. intros x y Hx Hy. rewrite Forall_forall in W1, W2. apply IH; [apply W1, Hx|apply W2, Hy].
Qed.

Lemma x_contains_fit dbg {T} (eq : T -> T -> outcome bool) mem value rank : forall v, modest dbg (Z.of_nat (length mem)) v ->
  x_contains_loop dbg eq mem value rank v = contains_loop eq mem value rank v.
Proof.
  induction rank as [|rank IH]; intros v HA; cbn [x_contains_loop contains_loop].
  all: destruct (is_dense v) eqn:EB; [now rewrite (@x_v_slice_fit dbg T _ mem v HA)|].
  all: destruct (Nat.ltb_spec (length (v_dims v)) 2) as [L|L].
  1,3: destruct (modest_cells HA L) as (Y1 & F1 & N1 & I1 & O1); destruct (view_yields (proj1 HA) L) as [Y3 F3];
    cbv zeta; rewrite N1; cbn [bind]; rewrite x_iter_any_eq by auto;
    erewrite iter_any_list; [|exact Y1|rewrite map_length; exact F1]; erewrite iter_any_list; [|exact Y3|rewrite map_length; exact F3]; reflexivity.
  - reflexivity.
  - destruct (v_dims v) as [|d ds] eqn:Ea; [cbn in L; lia|].
    destruct (modest_rows HA Ea) as (xa & ea & wa & E1 & E2 & Y1 & Y2 & F1 & F2 & N1 & I1 & O1 & L1 & W1).
    rewrite E1, E2. cbn [bind]. rewrite N1. cbn [bind]. rewrite x_iter_any_eq by auto.
    erewrite iter_any_list; [|exact Y1|exact F1]. erewrite iter_any_list; [|exact Y2|exact F2].
    apply list_any_ext. intros x Hx. rewrite Forall_forall in W1. apply IH, W1, Hx.
Qed.

Lemma x_debug_fit dbg {T D} (fmt : T -> outcome D) mem rank : forall v, modest dbg (Z.of_nat (length mem)) v ->
  x_debug_loop dbg fmt mem rank v = debug_loop fmt mem rank v.
Proof.
  induction rank as [|rank IH]; intros v HA; cbn [x_debug_loop debug_loop]; pose proof HA as (HV & HN & _).
  all: rewrite (@x_get_fit T dbg mem v [] _ HV HN) by constructor.
  all: destruct (Nat.eqb_spec (length (v_dims v)) 0) as [L|L]; [reflexivity|].
  - reflexivity.
  - destruct (v_dims v) as [|d ds] eqn:Ea; [cbn in L; lia|].
    destruct (modest_rows HA Ea) as (xa & ea & wa & E1 & E2 & Y1 & Y2 & F1 & F2 & N1 & I1 & O1 & L1 & W1).
    rewrite E1, E2. cbn [bind]. rewrite N1. cbn [bind]. rewrite x_iter_entries_eq by auto.
    erewrite iter_entries_list; [|exact Y1|exact F1]. erewrite iter_entries_list; [|exact Y2|exact F2].
    erewrite mapM_ext; [reflexivity|]. intros x Hx. rewrite Forall_forall in W1. apply IH, W1, Hx.
Qed.

Lemma x_ser_fit dbg {T E} (ser : T -> outcome (sdata E)) mem rank : forall v, modest dbg (Z.of_nat (length mem)) v ->
  x_ser_loop dbg ser mem rank v = ser_loop ser mem rank v.
Proof.
  induction rank as [|rank IH]; intros v HA; cbn [x_ser_loop ser_loop]; pose proof HA as (HV & HN & _).
  all: rewrite (@x_get_fit T dbg mem v [] _ HV HN) by constructor.
  all: destruct (Nat.eqb_spec (length (v_dims v)) 0) as [L|L]; [reflexivity|].
  - reflexivity.
  - destruct (v_dims v) as [|d ds] eqn:Ea; [cbn in L; lia|].
    destruct (modest_rows HA Ea) as (xa & ea & wa & E1 & E2 & Y1 & Y2 & F1 & F2 & N1 & I1 & O1 & L1 & W1).
    rewrite E1, E2. cbn [bind]. rewrite N1. cbn [bind]. rewrite x_iter_entries_eq by auto.
    erewrite iter_entries_list; [|exact Y1|exact F1]. erewrite iter_entries_list; [|exact Y2|exact F2].
    erewrite mapM_ext; [reflexivity|]. intros x Hx. rewrite Forall_forall in W1. apply IH, W1, Hx.
Qed.

(** ** Modest views *)

Lemma walkable_modest dbg n v : walkable dbg n v -> modest dbg n v.
Proof.
  intros HK. pose proof HK as (HV & HN & HP & _). split; [exact HV|]. split; [exact HN|]. split; [apply (wk_roomy HK)|].
  intros i Hi. destruct (wk_strides HK Hi) as [HS HM]. split.
  - intros E. specialize (HM E). unfold isize_min, isize_max in *. lia.
  - intros k Hk. pose proof (term_bound HV HP Hi Hk). lia.
Qed.

Lemma dense_modest dbg n v : valid_view n v -> n <= isize_max -> v_layout v = Dense -> roomy (v_dims v) -> modest dbg n v.
Proof.
  intros HV HN HL HR. split; [exact HV|]. split; [exact HN|]. split; [exact HR|].
  pose proof (wf_nonneg (vv_wf HV)) as NN. destruct v as [p [ty dims|]]; [|discriminate HL]. cbn in NN.
  destruct (@gentle_dense ty dims NN HR) as [_ G]. intros i Hi. specialize (G i Hi). cbn [v_map m_strides m_dims] in *. unfold v_dims in *. cbn [v_map m_dims] in *.
  set (s := nth i (row_major dims) 0) in *. set (d := nth i dims 0) in *.
  split; [intros _; nia|]. intros k Hk. rewrite Z.abs_mul. nia.
Qed.
