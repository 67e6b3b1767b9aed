(** Facts about the macros and about iterators in use. *)
From Verif Require Import Base Spec SpecFacts Shape Mapping Index View Wf MappingFacts MapOps ReshapeFacts ViewFacts.
From Verif Require Import Expr ExprSpec ExprFacts IterFacts SourceFacts ExprTree ExprMore.
From Verif Require Import Tensor TraceFacts TensorSpec TensorFacts OwnFacts ZipFacts OwnMore.
From Verif Require Import Ops SerdeMore Nested NestedSpec NestedFacts DrainFacts Consume ConsumeSpec ConsumeFacts.
From Verif Require Import Macros MacroSpec.
Unset Strict Implicit.

(** ** Lists *)

Lemma arm_list_deep {T} k : forall cs (l : list (tok T)), written cs (Lst l) -> positive (removelast cs) ->
  (length cs <= k)%nat -> arm_list k l = None.
Proof.
  induction k as [|k IH]; intros cs l HW HP HL.
  - destruct cs as [|c cs]; [now destruct (HW l)|cbn in HL; lia].
  - destruct cs as [|c cs]; [now destruct (HW l)|]. destruct HW as (l' & E & HC & HF). injection E as <-.
    cbn [arm_list]. destruct l as [|x l]; [reflexivity|]. inversion HF as [|? ? Hx Hl]; subst.
    destruct x as [v|m|t n]; try reflexivity.
    rewrite (IH cs m); [reflexivity|exact Hx| |cbn in HL; lia].
    destruct cs as [|c' cs]; [constructor|]. cbn [removelast] in HP. now inversion HP.
Qed.

Definition cut_ok {T} (k : nat) (cs : list Z) (l : list (tok T)) (n : nested (nested T)) : Prop :=
  shaped (firstn (S k) cs) n /\ lens (S k) n = firstn (S k) cs /\
  forall idx, in_bounds (firstn (S k) cs) idx -> exists t, t_at (Lst l) idx = Some t /\ n_at n idx = Some (value t).

Lemma arm_list_ok {T} k : forall cs (l : list (tok T)), written cs (Lst l) -> positive (firstn k cs) ->
  (k < length cs)%nat -> exists n, arm_list k l = Some n /\ cut_ok k cs l n.
Proof.
  induction k as [|k IH]; intros cs l HW HP HL.
  - destruct cs as [|c cs]; [cbn in HL; lia|]. destruct HW as (l' & E & HC & HF). injection E as <-.
    eexists. split; [reflexivity|]. cbn [firstn]. split; [|split].
    + eexists. split; [reflexivity|]. split; [unfold zlen in *; now rewrite map_length|].
      apply Forall_forall. intros x Hx. apply in_map_iff in Hx. destruct Hx as (t & <- & _). eexists. reflexivity.
    + cbn [lens]. unfold zlen in *. rewrite map_length, HC. destruct l; reflexivity.
    + intros idx HI. inversion HI as [|? i ? idx' Hi HI']; subst. inversion HI'; subst. cbn [t_at n_at].
      rewrite nth_error_map. destruct (nth_error l (Z.to_nat i)) as [t|] eqn:E.
      * exists t. split; reflexivity.
      * apply nth_error_None in E. unfold zlen in Hi. lia.
  - destruct cs as [|c cs]; [cbn in HL; lia|]. destruct HW as (l' & E & HC & HF). injection E as <-.
    cbn [firstn] in HP. inversion HP as [|? ? Hc HP']; subst.
    set (go := fix go (l : list (tok T)) : option (list (nested (nested T))) :=
               match l with
               | [] => Some []
               | Lst m :: l' =>
                   match arm_list k m, go l' with
                   | Some a, Some r => Some (a :: r)
                   | _, _ => None
                   end
               | _ :: _ => None
               end).
    assert (G : exists r, go l = Some r /\
       Forall2 (fun t n => exists m, t = Lst m /\ cut_ok k cs m n) l r).
    { assert (HL' : (k < length cs)%nat) by (cbn in HL; lia). clear HP Hc HL. induction HF as [|x l Hx HF IHF].
      - exists []. split; [reflexivity|constructor].
      - destruct IHF as (r & E & HR). destruct cs as [|c' cs']; [cbn in HL'; lia|].
        destruct Hx as (m & -> & Hm).
        destruct (IH (c' :: cs') m) as (n & En & Hn); [exists m; auto|exact HP'|exact HL'|].
        exists (n :: r). cbn [go]. fold go. rewrite En, E. split; [reflexivity|]. constructor; [exists m; auto|exact HR]. }
    destruct G as (r & E & HR). exists (NArr r). cbn [arm_list]. fold go. rewrite E.
    assert (LR : zlen r = zlen l) by (unfold zlen; f_equal; clear - HR; induction HR; cbn; congruence).
    split; [destruct l; [cbn in Hc; lia|reflexivity]|].
    assert (HS : Forall (shaped (firstn (S k) cs)) r).
    { clear - HR. induction HR as [|t n l r (m & _ & H & _) _ IH]; constructor; auto. }
    split; [|split].
    + change (firstn (S (S k)) (zlen l :: cs)) with (zlen l :: firstn (S k) cs). exists r. auto.
    + change (firstn (S (S k)) (zlen l :: cs)) with (zlen l :: firstn (S k) cs).
      cbn [lens]. fold (@lens (nested T)). rewrite LR. f_equal. destruct HR as [|t n l r (m & _ & _ & H & _) _]; [cbn in Hc; lia|exact H].
    + intros idx HI. change (firstn (S (S k)) (zlen l :: cs)) with (zlen l :: firstn (S k) cs) in HI.
      inversion HI as [|? i ? idx' Hi HI']; subst. cbn [t_at n_at].
      assert (K : exists t n, nth_error l (Z.to_nat i) = Some t /\ nth_error r (Z.to_nat i) = Some n /\ exists m, t = Lst m /\ cut_ok k cs m n).
      { destruct (nth_error l (Z.to_nat i)) as [t|] eqn:Et; [|apply nth_error_None in Et; unfold zlen in Hi; lia].
        destruct (nth_error r (Z.to_nat i)) as [n|] eqn:En; [|apply nth_error_None in En; unfold zlen in *; lia].
        exists t, n. split; [reflexivity|]. split; [reflexivity|]. clear - HR Et En. revert t n Et En. generalize (Z.to_nat i) as j.
        induction HR as [|t0 n0 l r H0 _ IH]; intros [|j] t n Et En; try discriminate.
        - injection Et as <-. injection En as <-. exact H0.
        - eapply IH; eauto. }
      destruct K as (t & n & -> & -> & m & -> & _ & _ & H). exact (H idx' HI').
Qed.

Lemma first_arm_at {A} (arm : nat -> option A) j a : forall k, (j <= k)%nat ->
  (forall i, (j < i <= k)%nat -> arm i = None) -> arm j = Some a -> first_arm arm k = Some (S j, a).
Proof.
  induction k as [|k IH]; intros HJ HN HA.
  - assert (j = 0)%nat as -> by lia. cbn [first_arm]. now rewrite HA.
  - cbn [first_arm]. destruct (Nat.eq_dec j (S k)) as [->|N]; [now rewrite HA|].
    rewrite HN by lia. apply IH; auto; [lia|]. intros i Hi. apply HN. lia.
Qed.

Lemma positive_firstn k : forall cs, positive (removelast cs) -> (k < length cs)%nat -> positive (firstn k cs).
Proof.
  induction k as [|k IH]; intros [|c cs] HP HL; cbn in HL; try lia; [apply Forall_nil|].
  destruct cs as [|c' cs]; [cbn in HL; lia|]. change (removelast (c :: c' :: cs)) with (c :: removelast (c' :: cs)) in HP.
  inversion HP; subst. cbn [firstn]. constructor; auto. apply IH; auto. cbn [length] in *. lia.
Qed.

Lemma list_arms_ok {T} cs (l : list (tok T)) : written cs (Lst l) -> positive (removelast cs) ->
  exists n, list_arms l = Some (Nat.min 6 (length cs), n) /\
    shaped (firstn 6 cs) n /\ lens (Nat.min 6 (length cs)) n = firstn 6 cs /\
    forall idx, in_bounds (firstn 6 cs) idx -> exists t, t_at (Lst l) idx = Some t /\ n_at n idx = Some (value t).
Proof.
  intros HW HP. assert (HL : (0 < length cs)%nat) by (destruct cs; [now destruct (HW l)|cbn; lia]).
  set (j := (Nat.min 6 (length cs) - 1)%nat).
  assert (EJ : S j = Nat.min 6 (length cs)) by lia.
  assert (EF : firstn (S j) cs = firstn 6 cs).
  { rewrite EJ. destruct (Nat.le_ge_cases 6 (length cs)) as [H|H].
    - now rewrite Nat.min_l by lia.
    - rewrite Nat.min_r by lia. now rewrite !firstn_all2 by lia. }
  destruct (@arm_list_ok T j cs l HW) as (n & EN & H1 & H2 & H3); [apply positive_firstn; [auto|lia]|lia|].
  exists n. split.
  - unfold list_arms. rewrite <- EJ. apply first_arm_at; auto; [lia|].
    intros i Hi. apply (@arm_list_deep T i cs l HW HP). lia.
  - rewrite EF in *. rewrite <- EJ. auto.
Qed.

(** ** Repetitions *)

Lemma arm_rep_ok {T} (x : tok T) : forall k n dims, (k <= length dims)%nat ->
  arm_rep k (reps dims x) n = Some (reps (skipn k dims) x, n :: firstn k dims).
Proof.
  induction k as [|k IH]; intros n dims HL; [reflexivity|].
  destruct dims as [|m dims]; [cbn in HL; lia|]. cbn [reps arm_rep skipn firstn].
  rewrite IH by (cbn in HL; lia). reflexivity.
Qed.

Lemma arm_rep_deep {T} (x : tok T) : (forall t n, x <> Rep t n) -> forall k n dims, (length dims < k)%nat ->
  arm_rep k (reps dims x) n = None.
Proof.
  intros HX. induction k as [|k IH]; intros n dims HL; [lia|].
  destruct dims as [|m dims]; cbn [reps arm_rep].
  - destruct x; auto. now destruct (HX x n0).
  - rewrite IH by (cbn in HL; lia). reflexivity.
Qed.

Lemma rep_arms_ok {T} (x : tok T) n dims : (forall t m, x <> Rep t m) ->
  rep_arms (reps dims x) n = Some (Nat.min 6 (S (length dims)), (reps (skipn 5 dims) x, firstn 6 (n :: dims))).
Proof.
  intros HX. unfold rep_arms. set (j := Nat.min 5 (length dims)).
  assert (EJ : Nat.min 6 (S (length dims)) = S j) by lia. rewrite EJ.
  apply first_arm_at; [lia| |].
  - intros i Hi. apply arm_rep_deep; auto. lia.
  - rewrite arm_rep_ok by lia. subst j. clear. destruct (Nat.le_ge_cases 5 (length dims)) as [H|H].
    + rewrite Nat.min_l by lia. reflexivity.
    + rewrite Nat.min_r by lia. change (firstn 6 (n :: dims)) with (n :: firstn 5 dims).
      rewrite (@firstn_all2 _ (length dims) dims), (@firstn_all2 _ 5 dims), (@skipn_all2 _ (length dims) dims), (@skipn_all2 _ 5 dims) by lia. reflexivity.
Qed.

Lemma repeat_nth {A} (x : A) k i : (i < k)%nat -> nth_error (repeat x k) i = Some x.
Proof. revert i. induction k as [|k IH]; intros [|i] H; cbn; try lia; auto. apply IH. lia. Qed.

Lemma rep_nested_ok {T} (x : T) : forall dims, nonneg dims ->
  shaped dims (rep_nested dims x) /\ forall idx, in_bounds dims idx -> n_at (rep_nested dims x) idx = Some x.
Proof.
  induction dims as [|n dims IH]; intros HN.
  - split; [now exists x|]. intros idx HI. inversion HI; subst. reflexivity.
  - inversion HN as [|? ? Hn HN']; subst. destruct (IH HN') as [H1 H2]. cbn [rep_nested shaped n_at]. split.
    + eexists. split; [reflexivity|]. split; [unfold zlen; rewrite repeat_length; lia|].
      apply Forall_forall. intros y Hy. apply repeat_spec in Hy. now subst.
    + intros idx HI. inversion HI as [|? i ? idx' Hi HI']; subst. cbn [n_at]. rewrite repeat_nth by lia. auto.
Qed.

Lemma rep_nested_flat {T} (x : T) : forall dims, nonneg dims -> flatten (rep_nested dims x) = repeat x (Z.to_nat (prodZ dims)).
Proof.
  assert (FM : forall (k m : nat), flat_map (fun l : list T => l) (repeat (repeat x m) k) = repeat x (k * m)).
  { intros k m. induction k as [|k IH]; [reflexivity|]. cbn [repeat flat_map Nat.mul]. rewrite IH. now rewrite repeat_app. }
  induction dims as [|n dims IH]; intros HN.
  - reflexivity.
  - inversion HN as [|? ? Hn HN']; subst. cbn [rep_nested flatten].
    assert (E : forall k, flat_map flatten (repeat (rep_nested dims x) k) = repeat x (k * Z.to_nat (prodZ dims))).
    { intros k. rewrite <- FM. induction k as [|k IHk]; [reflexivity|]. cbn [repeat flat_map]. now rewrite IHk, IH. }
    rewrite E, prodZ_cons. f_equal. pose proof (prodZ_nonneg HN'). now rewrite Z2Nat.inj_mul.
Qed.

Lemma rep_value {T} (x : tok T) : forall dims, nonneg dims -> value (reps dims x) = value (lists dims x).
Proof.
  induction dims as [|n dims IH]; intros HN; [reflexivity|]. inversion HN; subst. cbn [reps lists value].
  rewrite IH by auto. f_equal. clear. induction (Z.to_nat n) as [|k IH]; [reflexivity|]. cbn [repeat map]. now f_equal.
Qed.

Lemma lists_written {T} (x : tok T) : (forall l, x <> Lst l) -> forall dims, nonneg dims -> written dims (lists dims x).
Proof.
  intros HX. induction dims as [|n dims IH]; intros HN; [exact HX|]. inversion HN; subst. cbn [lists written].
  eexists. split; [reflexivity|]. split; [unfold zlen; rewrite repeat_length; lia|].
  apply Forall_forall. intros y Hy. apply repeat_spec in Hy. subst. auto.
Qed.

Lemma lists_at {T} (x : tok T) : forall dims k idx, nonneg dims -> in_bounds (firstn k dims) idx ->
  t_at (lists dims x) idx = Some (lists (skipn (length idx) dims) x).
Proof.
  induction dims as [|n dims IH]; intros k idx HN HI.
  - rewrite firstn_nil in HI. inversion HI; subst. reflexivity.
  - destruct k as [|k]; [inversion HI; subst; reflexivity|]. cbn [firstn] in HI.
    inversion HI as [|? i ? idx' Hi HI']; subst. inversion HN; subst. cbn [lists t_at length skipn].
    rewrite repeat_nth by lia. eapply IH; eauto.
Qed.

(** The whole array at an index. *)
Lemma flatten_get {T} ds cs (n : nested T) idx : typed (STuple ds) cs -> nonneg cs -> ty_wf (STuple ds) -> shaped cs n -> fits cs ->
  in_bounds cs idx -> exists x, n_at n idx = Some x /\ v_get (flatten n) (whole (STuple ds) cs) idx = Ok x.
Proof. intros H1 H2 H3 H4 H5 H6. destruct (@v_from_nested_ok T ds cs n H1 H2 H3 H4 H5) as (_ & _ & K). exact (K idx H6). Qed.

Lemma shaped_nonneg {T} cs : forall n : nested T, shaped cs n -> nonneg cs \/ prodZ cs = 0.
Proof.
  induction cs as [|c cs IH]; intros n H; [left; constructor|]. destruct H as (l & -> & <- & HF).
  destruct l as [|x l]; [right; rewrite prodZ_cons; unfold zlen; cbn; lia|]. inversion HF; subst.
  destruct (IH x) as [K|K]; auto; [left; constructor; auto; unfold zlen; lia|right; rewrite prodZ_cons, K; lia].
Qed.

(** ** Iterators in use *)

Section InUse.
  Context {A : Type} {e : expression A}.

  Lemma next_index (it it' : iter e) x : it_next it = Ok (x, it') -> 0 <= it_index it ->
    match x with Some _ => 1 <= it_index it' | None => it_index it' = it_index it end.
  Proof.
    unfold it_next. intros H HI.
    assert (TK : forall it1 : iter e, 0 <= it_index it1 ->
      (let* (a, st) := e_get e (it_index it1 + 1 - 1) (it_st it1) in
       Ok (Some a, mkIter st (it_index it1 + 1) (it_limit it1) (it_outer it1) (it_olimit it1))) = Ok (x, it') ->
      match x with Some _ => 1 <= it_index it' | None => it_index it' = it_index it end).
    { intros it1 H1 H2. destruct (e_get e (it_index it1 + 1 - 1) (it_st it1)) as [[a st]| | |] eqn:E; try discriminate. cbn [bind] in H2. injection H2 as <- <-. cbn [it_index]. lia. }
    destruct (it_index it =? it_limit it); [|exact (TK it HI H)].
    unfold step_outer in H.
    destruct (if (outer_rank e <? e_rank e)%nat then e_reset e (e_rank e - 1) 0 (it_st it) else Ok (it_st it)) as [s| | |]; try discriminate.
    cbn [bind] in H. destruct (step_loop e _ _ _ _) as [[[b st] o]| | |]; try discriminate. cbn [bind] in H. destruct b.
    - eapply TK; [|exact H]. cbn [it_index]. lia.
    - injection H as <- <-. reflexivity.
  Qed.

  Lemma nexts_index n : forall (it it' : iter e) xs, it_nexts n it = Ok (xs, it') -> 0 <= it_index it ->
    (it_index it' = it_index it /\ somes xs = []) \/ (1 <= it_index it' /\ somes xs <> []) \/ (1 <= it_index it /\ 1 <= it_index it').
  Proof.
    induction n as [|n IH]; intros it it' xs H HI; cbn [it_nexts] in H.
    - injection H as <- <-. left. auto.
    - destruct (it_next it) as [[x it1]| | |] eqn:E; try discriminate. cbn [bind] in H.
      destruct (it_nexts n it1) as [[ys it2]| | |] eqn:E2; try discriminate. cbn [bind] in H. injection H as <- <-.
      pose proof (next_index E HI) as N. destruct x as [a|]; cbn [somes].
      + destruct (IH _ _ _ E2) as [[H1 H2]|[[H1 H2]|[H1 H2]]]; [lia| | |]; right; left; split; try lia; discriminate.
      + destruct (IH _ _ _ E2) as [[H1 H2]|[[H1 H2]|[H1 H2]]]; [lia| | |]; rewrite ?N in *; auto.
  Qed.

  Lemma nexts_new n (it : iter e) xs : it_nexts n (it_new e) = Ok (xs, it) ->
    (it_index it = 0 <-> somes xs = []) /\ 0 <= it_index it.
  Proof.
    intros H. destruct (nexts_index H) as [[H1 H2]|[[H1 H2]|[H1 H2]]]; cbn [it_new it_index] in *; try lia.
    - split; [tauto|lia].
    - split; [split; [lia|contradiction]|lia].
  Qed.
End InUse.

(** ** Results *)

Lemma lens_nonneg {T} d : forall n : nested T, nonneg (lens d n).
Proof.
  induction d as [|d IH]; intros n; [constructor|]. destruct n as [x|l]; [constructor|]. cbn [lens].
  constructor; [unfold zlen; lia|]. destruct l as [|x l]; [|apply IH].
  apply Forall_forall. intros z Hz. apply repeat_spec in Hz. lia.
Qed.

Lemma dyns_typed cs : typed (STuple (repeat DDyn (length cs))) cs.
Proof. cbn [typed]. induction cs as [|c cs IH]; constructor; auto. exact I. Qed.
Lemma dyns_wf d : (d <= 6)%nat -> ty_wf (STuple (repeat DDyn d)).
Proof. intros H. cbn [ty_wf]. now rewrite repeat_length. Qed.
Lemma firstn6_len {A} (cs : list A) : length (firstn 6 cs) = Nat.min 6 (length cs).
Proof. apply firstn_length. Qed.

Lemma dyn_store cs : sh_from_dims (STuple (repeat DDyn (length cs))) cs = Ok cs.
Proof.
  unfold sh_from_dims, sh_new. rewrite repeat_length, Nat.eqb_refl. cbn [assert bind].
  apply sh_store_typed. apply dyns_typed.
Qed.

Lemma from_elem_tensor {T F C} al ty dims (cl : F -> outcome (T * F)) f0 (w : world T C) xs o :
  (forall n, al_ok al n = true) -> nonneg dims -> typed ty dims -> fits dims -> (forall s, proper (cl s)) ->
  produce (call_action cl) (indices dims) f0 = (xs, o) ->
  exists e, e_from_elem ty dims cl f0 = Ok e /\
  match o with
  | Ok _ => exists cap, zlen xs = prodZ dims /\ zlen xs <= cap /\
      tn_from_expr al e w = Done (mkTensor ty dims xs cap) (after (w_clo w) xs [] w)
  | _ => tn_from_expr al e w = Unwound (after (w_clo w) xs xs w)
  end.
Proof.
  intros HA HN HT HF HC HP. destruct (from_elem_ok ty cl f0 HN HF) as (e & E & Ety & _). exists e. split; [exact E|].
  pose proof (@eval_tree _ (TFromElem ty dims cl f0) e (conj HN (conj HT HF)) E) as K.
  specialize (K ltac:(split; [cbn; lia|left; constructor]) ltac:(intros idx s _; apply HC) C al w xs o HA HP).
  destruct o; auto. destruct K as (cap & K1 & K2 & _ & K4). exists cap. rewrite Ety in K4. auto.
Qed.
