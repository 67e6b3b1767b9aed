(** Every history of operations keeps all tensors consistent and all elements accounted for. *)
From Verif Require Import Base Spec SpecFacts Shape Mapping Index View Wf MappingFacts MapOps ReshapeFacts.
From Verif Require Import IndexFacts ViewFacts ViewMore Expr ExprSpec ExprFacts IterFacts SourceFacts ExprTree ExprMore.
From Verif Require Import Tensor TraceFacts TensorSpec TensorFacts ResizeFacts TensorOps DrainFacts OwnFacts ZipFacts History.
Unset Strict Implicit.

Lemma held_upd {T} (vars : list (option (tensor T))) i v : (i < length vars)%nat ->
  Permutation (held (upd vars i v)) (held (upd vars i None) ++ match v with Some t => tn_mem t | None => [] end).
Proof.
  revert i. induction vars as [|u vars IH]; intros [|i] H; cbn in *; try lia.
  - unfold held. cbn. apply Permutation_app_comm.
  - unfold held in *. cbn. rewrite <- app_assoc. apply Permutation_app_head. apply IH. lia.
Qed.

Lemma upd_self {T} (vars : list T) i v : nth_error vars i = Some v -> upd vars i v = vars.
Proof. revert i. induction vars as [|u vars IH]; intros [|i] H; cbn in *; try discriminate; [congruence|]. f_equal. auto. Qed.

Lemma var_nth {T C} (st : state T C) i t : var st i = Some t -> nth_error (st_vars st) i = Some (Some t).
Proof. unfold var. destruct (nth_error (st_vars st) i) as [[u|]|]; congruence. Qed.

Lemma var_lt {T C} (st : state T C) i t : var st i = Some t -> (i < length (st_vars st))%nat.
Proof. intros H. apply var_nth in H. apply nth_error_Some. congruence. Qed.

Lemma Forall_upd' {A} (P : A -> Prop) l i x : Forall P l -> P x -> Forall P (upd l i x).
Proof. intros H. revert i. induction H as [|y l Hy H IH]; intros [|i] Hx; cbn; constructor; auto. Qed.

Lemma var_ok {T C} (st : state T C) l i t : consistent st l -> var st i = Some t -> tensor_ok t.
Proof.
  intros [H _] HV. apply var_nth in HV. apply nth_error_In in HV. rewrite Forall_forall in H. exact (H _ HV).
Qed.

(** The rest of the program while the tensor in variable [i] is being worked on. *)
Definition others {T C} (st : state T C) (i : nat) : list T := held (upd (st_vars st) i None).

Lemma open_var {T C} (st : state T C) l i t :
  consistent st l -> var st i = Some t -> balanced [] ((l ++ others st i) ++ tn_mem t) (st_w st).
Proof.
  intros [_ H] HV. unfold balanced. cbn [app]. rewrite H.
  pose proof (@held_upd T (st_vars st) i (Some t) (var_lt HV)) as P. rewrite (upd_self (var_nth HV)) in P.
  rewrite P. unfold others. perm.
Qed.

Lemma close_var {T C} (st : state T C) l more i t v w :
  consistent st l -> var st i = Some t ->
  match v with Some t' => tensor_ok t' | None => True end ->
  balanced [] ((l ++ others st i) ++ more ++ match v with Some t' => tn_mem t' | None => [] end) w ->
  consistent (set_var i v w st) (l ++ more).
Proof.
  intros [HF H] HV Hv HB. unfold balanced in HB. cbn [app] in HB. split; cbn [set_var st_vars st_w].
  - apply Forall_upd'; auto.
  - rewrite HB. rewrite (@held_upd T (st_vars st) i v (var_lt HV)). unfold others. perm.
Qed.

Lemma on_var_ok {T C A} (m : M (tensor T * world T C) A) (st : state T C) l i :
  consistent st l ->
  (forall t R, var st i = Some t -> tensor_ok t -> balanced [] (R ++ tn_mem t) (st_w st) ->
     tpost (tn_ty t) [] R (m (t, st_w st))) ->
  match on_var i m st with
  | Done _ st' => consistent st' (l ++ [])
  | Aborted => exists t, var st i = Some t /\ prodZ (sh_default (tn_ty t)) <> 0
  | _ => False
  end.
Proof.
  intros HC HM. unfold on_var. destruct (var st i) as [t|] eqn:HV; [|now rewrite app_nil_r].
  specialize (HM t _ eq_refl (var_ok HC HV) (open_var HC HV)).
  destruct (m (t, st_w st)) as [a [t' w']|[t' w']| |]; cbn [tpost] in HM; auto.
  - destruct HM as (H1 & H2 & H3). apply (close_var (v := Some t') (more := []) HC HV H1 H3).
  - destruct HM as (H1 & H2 & H3). apply (close_var (v := Some t') (more := []) HC HV H1 H3).
  - exists t. auto.
Qed.

Lemma consume_ok {T C} (m : tensor T -> M (world T C) (option (tensor T))) (st : state T C) l i n :
  consistent st l ->
  (forall t R, var st i = Some t -> tensor_ok t -> balanced [] (R ++ tn_mem t) (st_w st) ->
     exists more, (length more <= n)%nat /\
     match m t (st_w st) with
     | Done v w => match v with Some t' => tensor_ok t' | None => True end /\
                   balanced [] (R ++ more ++ match v with Some t' => tn_mem t' | None => [] end) w
     | Unwound w => balanced [] (R ++ more) w
     | _ => False
     end) ->
  exists more, (length more <= n)%nat /\
  match consume i m st with
  | Done _ st' => consistent st' (l ++ more)
  | _ => False
  end.
Proof.
  intros HC HM. unfold consume. destruct (var st i) as [t|] eqn:HV.
  2:{ exists []. split; [cbn; lia|]. now rewrite app_nil_r. }
  destruct (HM t _ eq_refl (var_ok HC HV) (open_var HC HV)) as (more & HL & H). exists more. split; auto.
  destruct (m t (st_w st)) as [v w|w| |]; auto.
  - destruct H as [H1 H2]. apply (close_var (v := v) HC HV H1 H2).
  - apply (close_var (v := None) HC HV I). now rewrite app_nil_r.
Qed.

Lemma create_ok {T C} (m : M (world T C) (tensor T)) (st : state T C) l :
  consistent st l -> (forall R, balanced [] R (st_w st) -> opost [] R (m (st_w st))) ->
  match create m st with
  | Done _ st' => consistent st' (l ++ [])
  | _ => False
  end.
Proof.
  intros [HF HP] HM. rewrite app_nil_r. unfold create.
  assert (HB : balanced [] (l ++ held (st_vars st)) (st_w st)).
  { unfold balanced. cbn [app]. rewrite HP. perm. }
  specialize (HM _ HB). destruct (m (st_w st)) as [t w|w| |]; cbn [opost] in HM; auto.
  - destruct HM as [H1 H2]. unfold balanced in H2. cbn [app] in H2. split; cbn [st_vars st_w].
    + apply Forall_app. split; auto.
    + rewrite H2. unfold held. rewrite flat_map_app. cbn [flat_map]. rewrite app_nil_r. perm.
  - unfold balanced in HM. cbn [app] in HM. split; cbn [st_vars st_w]; auto. rewrite HM. perm.
Qed.

Lemma resize_value_post {T C} al new v (cl : T -> C -> call T C) t w S0 R :
  tensor_ok t -> nonneg new -> balanced S0 (R ++ tn_mem t) w ->
  tpost (tn_ty t) S0 R (tn_resize al new v cl (t, w)).
Proof.
  intros Ht Hn HB. unfold tn_resize. cbn [fst snd].
  set (w0 := mkWorld (w_clo w) (w_made w ++ [v]) (w_used w) (w_dropped w)).
  assert (HB0 : balanced S0 ((R ++ [v]) ++ tn_mem t) w0).
  { unfold balanced in *. unfold w0. cbn [w_made w_used w_dropped]. rewrite app_assoc, HB. perm. }
  pose proof (@resize_post T C al new (cl v) t w0 S0 (R ++ [v]) Ht Hn HB0) as H.
  destruct (tn_resize_with al new (cl v) (t, w0)) as [a [t' w']|[t' w']| |]; cbn [tpost] in *; auto.
  - destruct H as (H1 & H2 & H3). split; auto. split; auto. eapply balanced_drop; [exact H3|]. perm.
  - destruct H as (H1 & H2 & H3). split; auto. split; auto. eapply balanced_drop; [exact H3|]. perm.
Qed.

Lemma somes_firstn {T} (l : list T) k :
  flat_map (fun x : option T => match x with Some x => [x] | None => [] end)
    (map Some (firstn k l) ++ repeat None (k - length l)) = firstn k l.
Proof.
  rewrite flat_map_app.
  assert (E1 : forall n, flat_map (fun x : option T => match x with Some x => [x] | None => [] end) (repeat None n) = []).
  { induction n; cbn; auto. }
  rewrite E1, app_nil_r. generalize (firstn k l). intros l'. induction l'; cbn; congruence.
Qed.

(** Draining, and dropping or forgetting the drain. *)
Lemma drained_by_cases {T C} lo hi k close (t : tensor T) (w : world T C) :
  tensor_ok t -> bound_arg lo -> bound_arg hi -> nth 0 (tn_dims t) 0 <= usize_max ->
  drained_by lo hi k close (t, w) = Unwound (t, w) \/
  (exists a b, outer_ok t = true /\ 0 <= a <= b /\ b <= nth 0 (tn_dims t) 0 /\
    drained_by lo hi k close (t, w) =
    close (drain_at (Nat.min k (length (rows t a b))) (drained t a b)) (w_uses (firstn k (rows t a b)) w)).
Proof.
  intros Ht Hl Hh Hd. unfold drained_by. cbn [fst snd]. rewrite drain_ok_eq by auto.
  destruct (outer_ok t) eqn:HO; cbn [andb]; auto.
  destruct (Z.leb_spec (range_lo lo) (range_hi (nth 0 (tn_dims t) 0) hi)); cbn [andb]; auto.
  destruct (Z.leb_spec (range_hi (nth 0 (tn_dims t) 0) hi) (nth 0 (tn_dims t) 0)); auto.
  right. set (a := range_lo lo) in *. set (b := range_hi (nth 0 (tn_dims t) 0) hi) in *.
  assert (Ha : 0 <= a <= b) by (split; auto; unfold a; destruct lo; unfold bound_arg, usize, range_lo in *; lia).
  exists a, b. split; auto. split; auto. split; auto.
  destruct (drain_nexts Ht HO Ha H0 k) as (it & E & ES). rewrite E, ES, somes_firstn. reflexivity.
Qed.

Lemma drain_take_post {T C} lo hi k (t : tensor T) (w : world T C) S0 R :
  tensor_ok t -> bound_arg lo -> bound_arg hi -> nth 0 (tn_dims t) 0 <= usize_max ->
  balanced S0 (R ++ tn_mem t) w ->
  tpost (tn_ty t) S0 R (drained_by lo hi k drain_drop (t, w)).
Proof.
  intros Ht Hl Hh Hd HB. destruct (drained_by_cases k drain_drop w Ht Hl Hh Hd) as [->|(a & b & HO & Ha & Hb & ->)].
  - cbn [tpost]. auto.
  - rewrite drain_drop_eq by (auto; lia). cbn [tpost]. split; [now apply remaining_ok|]. split; [reflexivity|].
    cbn [remaining tn_mem]. unfold balanced, w_drop, w_uses in *. cbn [w_made w_used w_dropped]. rewrite HB.
    rewrite (rows_split Ht HO Ha) at 1.
    rewrite <- (firstn_skipn k (rows t a b)) at 1.
    assert (ES : skipn (Nat.min k (length (rows t a b))) (rows t a b) = skipn k (rows t a b)).
    { destruct (Nat.le_ge_cases k (length (rows t a b))); [now rewrite Nat.min_l|]. rewrite Nat.min_r, !skipn_all2 by lia. reflexivity. }
    rewrite ES. set (n := nth 0 (tn_dims t) 0). perm.
Qed.

Lemma drain_leak_post {T C} lo hi k (t : tensor T) (w : world T C) S0 R :
  tensor_ok t -> bound_arg lo -> bound_arg hi -> nth 0 (tn_dims t) 0 <= usize_max ->
  balanced S0 (R ++ tn_mem t) w ->
  exists more,
  match drained_by lo hi k (fun d w => match drain_leak d with Some t => Done tt (t, w) | None => Fault end) (t, w) with
  | Done _ (t', w') | Unwound (t', w') => tensor_ok t' /\ balanced S0 (R ++ more ++ tn_mem t') w'
  | _ => False
  end.
Proof.
  intros Ht Hl Hh Hd HB.
  destruct (drained_by_cases k (fun d w => match drain_leak d with Some t => Done tt (t, w) | None => Fault end) w Ht Hl Hh Hd)
    as [->|(a & b & HO & Ha & Hb & ->)].
  - exists []. auto.
  - exists (skipn k (rows t a b) ++ rows t b (nth 0 (tn_dims t) 0)).
    rewrite (drain_leak_eq Ht HO Ha Hb). split; [apply (leaked_ok Ht HO Ha Hb)|]. cbn [tn_mem].
    unfold balanced, w_uses in *. cbn [w_made w_used w_dropped]. rewrite HB.
    rewrite (rows_split Ht HO Ha) at 1. rewrite <- (firstn_skipn k (rows t a b)) at 1. perm.
Qed.

Lemma kept_post {T C} (r : M (world T C) (tensor T)) (w : world T C) (R : list T) :
  opost [] R (r w) ->
  match kept r w with
  | Done v w => match v with Some t' => tensor_ok t' | None => True end /\
                balanced [] (R ++ [] ++ match v with Some t' => tn_mem t' | None => [] end) w
  | Unwound w => balanced [] (R ++ []) w
  | _ => False
  end.
Proof.
  unfold kept, seqM. destruct (r w) as [t w'|w'| |]; cbn [opost]; auto. now rewrite app_nil_r.
Qed.

(** ** One step *)

Definition bad_default {T C} (st : state T C) : Prop :=
  exists i t, var st i = Some t /\ prodZ (sh_default (tn_ty t)) <> 0.

Lemma on_var_step {T C A} (m : M (tensor T * world T C) A) (st : state T C) l i n :
  consistent st l ->
  (forall t R, var st i = Some t -> tensor_ok t -> balanced [] (R ++ tn_mem t) (st_w st) ->
     tpost (tn_ty t) [] R (m (t, st_w st))) ->
  match on_var i m st with
  | Done _ st' => exists more, consistent st' (l ++ more) /\ within more (Some n)
  | Aborted => bad_default st
  | _ => False
  end.
Proof.
  intros HC HM. pose proof (on_var_ok HC HM) as H. destruct (on_var i m st); auto.
  - exists []. split; auto. cbn. lia.
  - destruct H as (t & H). exists i, t. exact H.
Qed.

Lemma create_step {T C} (m : M (world T C) (tensor T)) (st : state T C) l :
  consistent st l -> (forall R, balanced [] R (st_w st) -> opost [] R (m (st_w st))) ->
  match create m st with
  | Done _ st' => exists more, consistent st' (l ++ more) /\ within more (Some 0%nat)
  | Aborted => bad_default st
  | _ => False
  end.
Proof.
  intros HC HM. pose proof (create_ok HC HM) as H. destruct (create m st); auto; [|contradiction].
  exists []. split; auto. cbn. lia.
Qed.

Lemma consume_step {T C} (m : tensor T -> M (world T C) (option (tensor T))) (st : state T C) l i n :
  consistent st l ->
  (forall t R, var st i = Some t -> tensor_ok t -> balanced [] (R ++ tn_mem t) (st_w st) ->
     exists more, (length more <= n)%nat /\
     match m t (st_w st) with
     | Done v w => match v with Some t' => tensor_ok t' | None => True end /\
                   balanced [] (R ++ more ++ match v with Some t' => tn_mem t' | None => [] end) w
     | Unwound w => balanced [] (R ++ more) w
     | _ => False
     end) ->
  match consume i m st with
  | Done _ st' => exists more, consistent st' (l ++ more) /\ within more (Some n)
  | Aborted => bad_default st
  | _ => False
  end.
Proof.
  intros HC HM. destruct (consume_ok HC HM) as (more & HL & H). destruct (consume i m st); auto; [|contradiction].
  exists more. auto.
Qed.

Lemma keep_step {T C} (r : tensor T -> M (world T C) (tensor T)) (st : state T C) l i :
  consistent st l ->
  (forall t R, var st i = Some t -> tensor_ok t -> balanced [] (R ++ tn_mem t) (st_w st) -> opost [] R (r t (st_w st))) ->
  match consume i (fun t => kept (r t)) st with
  | Done _ st' => exists more, consistent st' (l ++ more) /\ within more (Some 0%nat)
  | Aborted => bad_default st
  | _ => False
  end.
Proof.
  intros HC HM. apply consume_step; auto. intros t R HV Ht HB. exists []. split; [cbn; lia|].
  apply kept_post. auto.
Qed.

Lemma zips_map {T} (t : tensor T) : tensor_ok t -> zips t (e_fill (fun s : unit => Ok (tt, s)) tt).
Proof.
  intros Ht. apply (@tree_zips _ _ t (TFill (fun s : unit => Ok (tt, s)) tt) _ Ht I eq_refl).
  - intros idx s _. exact I.
  - intros _. now apply map_fine.
Qed.

Lemma map_post {T C} (f : T -> C -> call T C) (t : tensor T) w S0 R :
  tensor_ok t -> balanced S0 (R ++ tn_mem t) w -> opost S0 R (tn_map f t w).
Proof.
  intros Ht HB. destruct (@zip_with_post _ _ _ _ (fun p => f (fst p)) t w S0 R Ht (zips_map Ht) HB) as (more & HL & H).
  fold (tn_map f t w) in H. unfold opost. rewrite map_done in * by auto.
  destruct (gives (map f (tn_mem t)) (w_clo w)) as [[rs c] b] eqn:EG. destruct b.
  - destruct H as (H1 & _ & _ & H2 & _). exact (conj H1 H2).
  - clear H HL more. cbv zeta. unfold balanced in *. unfold w_drop. cbn [w_made w_used w_dropped].
    rewrite app_assoc, HB. rewrite <- (firstn_skipn (S (length rs)) (tn_mem t)) at 1. perm.
Qed.

Theorem step_ok {T C} al (o : op T C) (st : state T C) l :
  consistent st l -> op_ok o st ->
  match step al o st with
  | Done _ st' => exists more, consistent st' (l ++ more) /\ within more (leak_limit o)
  | Aborted => bad_default st
  | _ => False
  end.
Proof.
  intros HC HO. destruct o; cbn [step op_ok leak_limit] in *.
  - apply create_step; auto. intros R HB. now apply with_capacity_post.
  - apply create_step; auto. intros R HB. rewrite from_vec_done. cbn [opost tn_mem].
    split; [now apply from_vec_ok|]. unfold balanced in *. cbn [w_made w_used w_dropped]. rewrite app_assoc, HB. perm.
  - apply create_step; auto. intros R HB. now apply from_expr_post.
  - destruct (var st i) as [t|] eqn:HV.
    + apply create_step; auto. intros R HB. apply clone_post; auto. exact (var_ok HC HV).
    + exists []. rewrite app_nil_r. cbn. auto.
  - apply on_var_step; auto. intros t R HV Ht HB. now apply clear_post.
  - apply on_var_step; auto. intros t R HV Ht HB. now apply truncate_post.
  - apply on_var_step; auto. intros t R HV Ht HB. now apply reserve_post.
  - apply on_var_step; auto. intros t R HV Ht HB. now apply try_reserve_post.
  - apply on_var_step; auto. intros t R HV Ht HB. now apply shrink_post.
  - apply on_var_step; auto. intros t R HV Ht HB. now apply expand_post.
  - apply on_var_step; auto. intros t R HV Ht HB. apply extend_post; auto.
  - apply on_var_step; auto. intros t R HV Ht HB. now apply resize_post.
  - apply on_var_step; auto. intros t R HV Ht HB. now apply resize_value_post.
  - apply on_var_step; auto. intros t R HV Ht HB. destruct HO as (H1 & H2 & H3). apply drain_take_post; auto.
  - destruct HO as (H1 & H2 & H3). unfold on_var. destruct (var st i) as [t|] eqn:HV.
    2:{ exists []. rewrite app_nil_r. cbn. auto. }
    destruct (drain_leak_post k (var_ok HC HV) H1 H2 (H3 t eq_refl) (open_var HC HV)) as (more & H).
    destruct (drained_by lo hi k _ (t, st_w st)) as [a [t' w']|[t' w']| |]; try contradiction;
      destruct H as [K1 K2]; exists more; (split; [|exact I]); apply (close_var (v := Some t') HC HV K1 K2).
  - destruct HO as [NE HT]. destruct (var st j) as [u|] eqn:HU; [|exists []; rewrite app_nil_r; cbn; auto].
    apply on_var_step; auto. intros t R HV Ht HB. pose proof (var_ok HC HU) as Hu. apply clone_from_post; auto.
    + apply Hu.
    + rewrite (HT t u HV eq_refl). apply Hu.
    + exact (to_len Hu).
  - destruct (var st i) as [t|] eqn:HV; [|exists []; rewrite app_nil_r; cbn; auto].
    destruct (var st j) as [u|] eqn:HU; [|exists []; rewrite app_nil_r; cbn; auto].
    pose proof (var_ok HC HV) as Ht. pose proof (var_ok HC HU) as Hu.
    (* the program without the two tensors *)
    set (st1 := set_var i None (st_w st) st).
    assert (HU1 : var st1 j = Some u).
    { unfold var, st1, set_var. cbn [st_vars]. rewrite nth_error_upd_other by auto. now rewrite (var_nth HU). }
    assert (HB : balanced [] ((l ++ others st1 j) ++ tn_mem t ++ tn_mem u) (st_w st)).
    { pose proof (open_var HC HV) as H. unfold balanced in *. rewrite H. unfold others at 1.
      pose proof (@held_upd T (st_vars st1) j (Some u) (var_lt HU1)) as P. rewrite (upd_self (var_nth HU1)) in P.
      change (held (upd (st_vars st) i None)) with (held (st_vars st1)). rewrite P. unfold others. perm. }
    pose proof (@append_post T C al t u (st_w st) [] (l ++ others st1 j) Ht Hu HB) as H.
    assert (G : forall t' u' w', tensor_ok t' -> tensor_ok u' ->
      balanced [] ((l ++ others st1 j) ++ tn_mem t' ++ tn_mem u') w' ->
      consistent (set_var j (Some u') w' (set_var i (Some t') w' st)) (l ++ [])).
    { intros t' u' w' Ht' Hu' HB'. split.
      - cbn [set_var st_vars]. apply Forall_upd'; auto. apply Forall_upd'; auto. apply HC.
      - unfold balanced in HB'. cbn [app] in HB'. cbn [set_var st_vars st_w]. rewrite HB'.
        assert (LJ : (j < length (upd (st_vars st) i (Some t')))%nat) by (rewrite upd_length; apply (var_lt HU)).
        rewrite (@held_upd T (upd (st_vars st) i (Some t')) j (Some u') LJ).
        assert (EX : upd (upd (st_vars st) i (Some t')) j None = upd (upd (st_vars st) j None) i (Some t')).
        { clear -HO. generalize (st_vars st). intros vs. revert i j HO. induction vs as [|v vs IH]; intros [|i] [|j] NE; cbn; auto; try congruence.
          f_equal. apply IH. congruence. }
        assert (EX' : upd (st_vars st1) j None = upd (upd (st_vars st) j None) i None).
        { unfold st1. cbn [set_var st_vars]. clear -HO. generalize (st_vars st). intros vs. revert i j HO. induction vs as [|v vs IH]; intros [|i] [|j] NE; cbn; auto; try congruence.
          f_equal. apply IH. congruence. }
        assert (LI : (i < length (upd (st_vars st) j None))%nat) by (rewrite upd_length; apply (var_lt HV)).
        rewrite EX. rewrite (@held_upd T _ i (Some t') LI). unfold others. rewrite EX'. rewrite app_nil_r. perm. }
    destruct (tn_append al (t, u, st_w st)) as [a [[t' u'] w']|[[t' u'] w']| |]; try contradiction;
      destruct H as (K1 & K2 & _ & _ & K3); exists []; (split; [|cbn; lia]); auto.
  - apply keep_step; auto. intros t R HV Ht HB. destruct HO as (H1 & H2 & H3). now apply into_shape_post.
  - apply keep_step; auto. intros t R HV Ht HB. now apply into_mapping_post.
  - apply keep_step; auto. intros t R HV Ht HB. rewrite into_flat_done by auto. cbn [opost tn_mem]. split; auto.
    apply from_vec_ok. apply (to_cap Ht).
  - apply consume_step; auto. intros t R HV Ht HB.
    destruct (@zip_with_post _ _ _ e f t (st_w st) [] R Ht (HO t HV) HB) as (more & HL & H). exists more. split; auto.
    unfold kept, seqM. destruct (tn_zip_with e f t (st_w st)) as [t' w'|w'| |]; auto. cbn [ret].
    destruct H as (K1 & _ & _ & K2 & ->). auto.
  - apply keep_step; auto. intros t R HV Ht HB. now apply map_post.
  - apply consume_step; auto. intros t R HV Ht HB. exists []. split; [cbn; lia|].
    destruct (@into_nexts T (tn_ty t) (tn_dims t) (tn_mem t) k (to_len Ht)) as (it & E & ED). rewrite E, ED, somes_firstn.
    split; auto. unfold balanced, w_drop, w_uses in *. cbn [w_made w_used w_dropped]. rewrite HB.
    rewrite <- (firstn_skipn k (tn_mem t)) at 1. cbn [app]. rewrite app_nil_r. perm.
  - apply consume_step; auto. intros t R HV Ht HB. exists []. split; [cbn; lia|].
    destruct (into_scalar_done (st_w st) Ht) as [H1 H2]. unfold seqM. destruct (Z.eq_dec (prodZ (tn_dims t)) 1) as [E|E].
    + destruct (H1 E) as (x & EX & ->). split; auto. rewrite EX in HB. unfold balanced, w_use in *.
      cbn [w_made w_used w_dropped]. rewrite HB. cbn [app]. rewrite app_nil_r. perm.
    + rewrite (H2 E). rewrite app_nil_r. eapply balanced_drop; [exact HB|reflexivity].
  - apply consume_step; auto. intros t R HV Ht HB. exists []. split; [cbn; lia|]. split; auto. cbn [app]. rewrite app_nil_r.
    eapply balanced_drop; [exact HB|reflexivity].
Qed.

(** ** Any number of steps *)

Theorem run_ok {T C} al (ops : list (op T C)) (st : state T C) l :
  consistent st l -> ops_ok al ops st ->
  match run_ops al ops st with
  | Done _ st' => exists more, consistent st' (l ++ more) /\ within more (leak_limits ops)
  | Aborted => exists ops1 ops2 st1, ops = ops1 ++ ops2 /\ run_ops al ops1 st = Done tt st1 /\ bad_default st1
  | _ => False
  end.
Proof.
  revert st l. induction ops as [|o ops IH]; intros st l HC HO; cbn [run_ops leak_limits].
  - exists []. rewrite app_nil_r. cbn. auto.
  - destruct HO as [HO HS]. pose proof (step_ok al HC HO) as H. unfold seqM.
    destruct (step al o st) as [[] st'|st'| |] eqn:E; auto.
    + destruct H as (more & HC' & HW). specialize (IH st' _ HC' (HS st' eq_refl)).
      destruct (run_ops al ops st') as [[] st2|st2| |]; auto.
      * destruct IH as (more2 & HC2 & HW2). exists (more ++ more2). rewrite app_assoc. split; auto.
        unfold within in *. destruct (leak_limit o), (leak_limits ops); auto. rewrite app_length. lia.
      * destruct IH as (ops1 & ops2 & st1 & -> & ER & HB). exists (o :: ops1), ops2, st1.
        split; auto. split; auto. cbn [run_ops]. unfold seqM. now rewrite E.
    + exists [], (o :: ops), st. split; auto.
Qed.
