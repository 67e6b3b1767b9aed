(** Iteration with and without overflow checks: the checks only add panics. *)
From Verif Require Import Base Spec SpecFacts Shape Mapping Index View Wf MappingFacts MapOps ReshapeFacts.
From Verif Require Import IndexFacts ViewFacts ViewMore Expr ExprSpec ExprFacts IterFacts SourceFacts ExprTree.
From Verif Require Import Machine MachineSpec MachineFacts MachineViews MachineSteps MachineIter MachineIterFacts MachineSources.
Unset Strict Implicit.

(** The first outcome is a panic, or both are the same up to [P]. *)
Definition ole {A B} (P : A -> B -> Prop) (x : outcome A) (y : outcome B) : Prop :=
  match x, y with
  | Panic, _ => True
  | Ok a, Ok b => P a b
  | UB, UB => True
  | NoFuel, NoFuel => True
  | _, _ => False
  end.

Lemma ole_bind {A B A' B'} (P : A -> A' -> Prop) (Q : B -> B' -> Prop) x y (f : A -> outcome B) (g : A' -> outcome B') :
  ole P x y -> (forall a b, P a b -> ole Q (f a) (g b)) -> ole Q (bind x f) (bind y g).
Proof. intros H HF. destruct x, y; cbn in *; auto; contradiction. Qed.

Lemma ole_refl {A} (x : outcome A) : ole eq x x. Proof. destruct x; cbn; auto. Qed.
Lemma ole_le {A} (x y : outcome A) : le x y -> ole eq x y.
Proof. intros [->|(a & -> & ->)]; cbn; auto. Qed.
Lemma ole_u x : ole eq (u_res true x) (u_res false x). Proof. apply ole_le, le_u. Qed.
Lemma ole_i x : ole eq (i_res true x) (i_res false x). Proof. apply ole_le, le_i. Qed.
Lemma ole_weaken {A B} (P Q : A -> B -> Prop) x y : ole P x y -> (forall a b, P a b -> Q a b) -> ole Q x y.
Proof. intros H HF. destruct x, y; cbn in *; auto. Qed.

(** The first expression does what the second does, or panics. *)
Record e_le {A} (a b : expression A) (R : e_st a -> e_st b -> Prop) : Prop := {
  el_init : R (e_init a) (e_init b);
  el_ty : e_ty a = e_ty b;
  el_dims : e_dims a = e_dims b;
  el_inner : e_inner a = e_inner b;
  el_rep : e_rep a = e_rep b;
  el_get : forall i s t, R s t -> ole (fun x y => fst x = fst y /\ R (snd x) (snd y)) (e_get a i s) (e_get b i t);
  el_reset : forall d c s t, R s t -> ole R (e_reset a d c s) (e_reset b d c t);
  el_step : forall d s t, R s t -> ole R (e_step a d s) (e_step b d t)
}.

(** Step through two computations at once. *)
Ltac ole_step := match goal with
  | |- ole _ (bind ?x _) (bind ?x _) => eapply ole_bind; [apply ole_refl|intros ? ? <-]
  | |- ole _ (bind (u_res true ?x) _) (bind (u_res false ?x) _) => eapply ole_bind; [apply ole_u|intros ? ? <-]
  | |- ole _ (bind (i_res true ?x) _) (bind (i_res false ?x) _) => eapply ole_bind; [apply ole_i|intros ? ? <-]
  | |- ole _ (bind (x_stride true _ _) _) (bind (x_stride false _ _) _) => eapply ole_bind; [apply ole_le, le_stride|intros ? ? <-]
  end.

Section Sim.
  Context {A : Type} {a b : expression A} {R : e_st a -> e_st b -> Prop}.
  Hypothesis H : e_le R.

  Lemma sim_outer : outer_rank a = outer_rank b.
  Proof. unfold outer_rank, e_rank. now rewrite (el_inner H), (el_dims H). Qed.

  (** Iterators in step. *)
  Definition it_le (i : iter a) (j : iter b) : Prop :=
    R (it_st i) (it_st j) /\ it_index i = it_index j /\ it_limit i = it_limit j /\ it_outer i = it_outer j /\ it_olimit i = it_olimit j.

  Lemma sim_step_loop ol n : forall s t o, R s t ->
    ole (fun x y => fst (fst x) = fst (fst y) /\ R (snd (fst x)) (snd (fst y)) /\ snd x = snd y)
      (x_step_loop true a ol n s o) (x_step_loop false b ol n t o).
  Proof.
    induction n as [|n IH]; intros s t o HR; cbn [x_step_loop]; [cbn; auto|].
    ole_step. destruct (_ <? _).
    - eapply ole_bind; [apply (el_step H), HR|]. intros s1 t1 HR1. ole_step. cbn. auto.
    - eapply ole_bind; [apply (el_reset H), HR|]. intros s1 t1 HR1. now apply IH.
  Qed.

  Lemma sim_step_outer i j : it_le i j -> ole (fun x y => fst x = fst y /\ it_le (snd x) (snd y)) (x_step_outer true i) (x_step_outer false j).
  Proof.
    intros (HR & EI & EL & EO & EM). unfold x_step_outer. rewrite sim_outer. unfold e_rank. rewrite (el_dims H).
    eapply ole_bind with (P := R).
    { destruct (_ <? _)%nat; [apply (el_reset H), HR|exact HR]. }
    intros s t HR1. rewrite EO, EM. eapply ole_bind; [apply sim_step_loop, HR1|].
    intros [[x s1] o1] [[y t1] o2] (E1 & HR2 & E2). cbn [fst snd] in *. subst y o2. cbn. split; auto.
    unfold it_le. cbn. auto.
  Qed.

  Lemma sim_new : ole it_le (x_it_new true a) (x_it_new false b).
  Proof.
    unfold x_it_new. rewrite sim_outer, (el_dims H). unfold e_rank. rewrite (el_dims H).
    eapply ole_bind; [apply ole_le, le_prod|]. intros l ? <-. cbn. unfold it_le. cbn. pose proof (el_init H). auto.
  Qed.

  Lemma sim_inner T (f : T -> A -> outcome T) n : forall i s t acc, R s t ->
    ole (fun x y => R (fst x) (fst y) /\ snd x = snd y) (inner_loop a f n i s acc) (inner_loop b f n i t acc).
  Proof.
    induction n as [|n IH]; intros i s t acc HR; cbn [inner_loop]; [cbn; auto|].
    eapply ole_bind; [apply (el_get H), HR|]. intros [x s1] [y t1] [E HR1]. cbn [fst snd] in *. subst y.
    ole_step. now apply IH.
  Qed.

  Lemma sim_fold_loop T (f : T -> A -> outcome T) k : forall i j acc, it_le i j ->
    ole eq (x_fold_loop true f k i acc) (x_fold_loop false f k j acc).
  Proof.
    induction k as [|k IH]; intros i j acc HI; cbn [x_fold_loop]; [cbn; auto|].
    pose proof HI as (HR & EI & EL & EO & EM). rewrite EI, EL.
    eapply ole_bind; [apply sim_inner, HR|]. intros [s1 a1] [t1 a2] [HR1 E]. cbn [fst snd] in *. subst a2.
    eapply ole_bind; [apply sim_step_outer|].
    { unfold it_le. cbn. auto. }
    intros [x i1] [y j1] [E HI1]. cbn [fst snd] in *. subst y. destruct x; [|apply ole_refl].
    apply IH. destruct HI1 as (? & ? & ? & ? & ?). unfold it_le. cbn. auto.
  Qed.

  Lemma sim_it_fold T (f : T -> A -> outcome T) i j acc : it_le i j -> ole eq (x_it_fold true f i acc) (x_it_fold false f j acc).
  Proof.
    intros HI. unfold x_it_fold. replace (it_fuel i) with (it_fuel j).
    2:{ unfold it_fuel. rewrite sim_outer. destruct HI as (_ & _ & _ & _ & ->). reflexivity. }
    now apply sim_fold_loop.
  Qed.

  Lemma sim_fold T (f : T -> A -> outcome T) acc : ole eq (x_fold true a f acc) (x_fold false b f acc).
  Proof. unfold x_fold. eapply ole_bind; [apply sim_new|]. intros i j HI. now apply sim_it_fold. Qed.

  Lemma sim_next i j : it_le i j -> ole (fun x y => fst x = fst y /\ it_le (snd x) (snd y)) (x_next true i) (x_next false j).
  Proof.
    intros HI. unfold x_next.
    assert (TK : forall i j, it_le i j -> ole (fun x y => fst x = fst y /\ it_le (snd x) (snd y))
      (let* i0 := u_res true (it_index i + 1) in let* k := u_res true (i0 - 1) in
       let* (x, st) := e_get a k (it_st i) in Ok (Some x, mkIter st i0 (it_limit i) (it_outer i) (it_olimit i)))
      (let* i0 := u_res false (it_index j + 1) in let* k := u_res false (i0 - 1) in
       let* (x, st) := e_get b k (it_st j) in Ok (Some x, mkIter st i0 (it_limit j) (it_outer j) (it_olimit j)))).
    { intros i1 j1 (HR & EI & EL & EO & EM). rewrite EI. ole_step. ole_step.
      eapply ole_bind; [apply (el_get H), HR|]. intros [x s1] [y t1] [E HR1]. cbn [fst snd] in *. subst y.
      cbn. split; auto. unfold it_le. cbn. auto. }
    replace (it_index i =? it_limit i) with (it_index j =? it_limit j) by (destruct HI as (_ & -> & -> & _); reflexivity).
    destruct (_ =? _).
    - eapply ole_bind; [apply sim_step_outer, HI|]. intros [x i1] [y j1] [E HI1]. cbn [fst snd] in *. subst y.
      destruct x; [|cbn; auto]. apply TK. destruct HI1 as (? & ? & ? & ? & ?). unfold it_le. cbn. auto.
    - apply TK. exact HI.
  Qed.

  Lemma sim_nexts n : forall i j, it_le i j -> ole (fun x y => fst x = fst y /\ it_le (snd x) (snd y)) (x_nexts true n i) (x_nexts false n j).
  Proof.
    induction n as [|n IH]; intros i j HI; cbn [x_nexts]; [cbn; auto|].
    eapply ole_bind; [apply sim_next, HI|]. intros [x i1] [y j1] [E HI1]. cbn [fst snd] in *. subst y.
    eapply ole_bind; [apply IH, HI1|]. intros [l i2] [l' j2] [E HI2]. cbn [fst snd] in *. subst l'. cbn. auto.
  Qed.

  Lemma sim_size i j : it_le i j -> ole eq (x_size true i) (x_size false j).
  Proof.
    intros (HR & EI & EL & EO & EM). unfold x_size. rewrite sim_outer, EO, EM, EL, EI.
    assert (SL : forall n l o k, ole eq (x_size_loop true n l o k) (x_size_loop false n l o k)).
    { induction n as [|n IH]; intros [|x l] [|y o] k; cbn [x_size_loop]; try apply ole_refl. ole_step. ole_step. apply IH. }
    eapply ole_bind; [apply SL|]. intros k ? <-. ole_step. apply ole_u.
  Qed.
End Sim.

(** ** The expressions *)
Lemma le_ax_get a m : le (x_ax_get true a m) (x_ax_get false a m).
Proof.
  unfold x_ax_get. apply le_bind; [apply le_fine, fine_ax_index|]. intros i.
  apply le_bind; [apply le_fine, fine_m_dim|]. intros d.
  apply le_bind; [apply le_stride|]. intros s. apply le_prepend.
Qed.

Lemma sim_view n rep v : e_le (a := x_e_view true n rep v) (b := x_e_view false n rep v) eq.
Proof.
  constructor; auto; cbn [x_e_view e_get e_reset e_step].
  - intros i s ? <-. ole_step. eapply ole_bind; [apply ole_refl|]. intros r ? <-. cbn. auto.
  - intros d c s ? <-. ole_step. ole_step. ole_step. reflexivity.
  - intros d s ? <-. ole_step. reflexivity.
Qed.

Lemma build_le {A} (t : tree A) : ole (fun a b => exists R, e_le (a := a) (b := b) R) (x_build true t) (x_build false t).
Proof.
  induction t as [n rep v|rep v a|rep v a|A ty dims l|A F cl f0|A F f f0|A F ty dims cl f0|A F ty dims f f0
                 |A B F f f0 t IH|A B F f f0 t IH|A B rd t IH|A t IH|A B a IHa b IHb]; cbn [x_build].
  - exists eq. apply sim_view.
  - unfold x_axis. eapply ole_bind; [apply ole_le, le_ax_get|]. intros m ? <-. exists eq.
    constructor; auto; cbn [e_get e_reset e_step].
    + intros i s ? <-. ole_step. ole_step. eapply ole_bind; [apply ole_le, le_ax_remove|]. intros m' ? <-.
      destruct (sh_checked_len _); cbn; auto.
    + intros d c s ? <-. reflexivity.
    + intros d s ? <-. apply ole_i.
  - unfold x_lanes. eapply ole_bind; [apply ole_le, le_ax_remove|]. intros m ? <-.
    destruct (sh_checked_len _); [|exact I]. exists eq. constructor; auto; cbn [e_get e_reset e_step].
    + intros i s ? <-. ole_step. eapply ole_bind; [apply ole_le, le_ax_get|]. intros m' ? <-.
      eapply ole_bind; [apply ole_le, le_is_empty|]. intros x ? <-. cbn. auto.
    + intros d c s ? <-. ole_step. ole_step. apply ole_i.
    + intros d s ? <-. ole_step. apply ole_i.
  - exists eq. constructor; auto; cbn [x_into e_get e_reset e_step]; try (intros; subst; reflexivity).
    intros i s ? <-.
    match goal with |- ole _ ?x _ => change x with
      (bind (let* n := x_len true dims in assert (s <? n)) (fun _ : unit =>
        let* k := u_res true (s + 1) in let* j := u_res true (k - 1) in
        match nth_error l (Z.to_nat j) with Some a => Ok (a, k) | None => UB end)) end.
    match goal with |- ole _ _ ?y => change y with
      (bind (Ok tt) (fun _ : unit =>
        let* k := u_res false (s + 1) in let* j := u_res false (k - 1) in
        match nth_error l (Z.to_nat j) with Some a => Ok (a, k) | None => UB end)) end.
    eapply ole_bind with (P := fun _ _ => True).
    + pose proof (le_len true dims) as [->|(x & -> & _)]; cbn; auto. destruct (s <? x); exact I.
    + intros _ _ _. ole_step. ole_step. destruct (nth_error _ _); cbn; auto.
  - exists eq. constructor; auto; cbn; intros; subst; try reflexivity.
    eapply ole_weaken; [apply ole_refl|]. intros x ? <-. auto.
  - exists eq. constructor; auto; cbn; intros; subst; try reflexivity.
    eapply ole_weaken; [apply ole_refl|]. intros x ? <-. auto.
  - unfold e_from_elem. destruct (sh_checked_len _); [|exact I]. exists eq. constructor; auto; cbn; intros; subst; try reflexivity.
    eapply ole_weaken; [apply ole_refl|]. intros x ? <-. auto.
  - unfold x_from_fn. destruct (sh_checked_len _); [|exact I]. exists eq.
    assert (XI : forall l i, ole eq (x_incr true l i) (x_incr false l i)) by (intros; unfold x_incr; ole_step; ole_step; reflexivity).
    constructor; auto; cbn [e_get e_reset e_step].
    + intros i s ? <-. eapply ole_bind; [apply ole_refl|]. intros [x fs] ? <-. eapply ole_bind with (P := eq).
      { destruct (0 <? length dims)%nat; [apply XI|reflexivity]. }
      intros l ? <-. cbn. auto.
    + intros d c s ? <-. apply ole_refl.
    + intros d s ? <-. destruct (d + 1 <? length dims)%nat; [|apply ole_refl]. eapply ole_bind; [apply XI|]. intros l ? <-. apply ole_refl.
  - eapply ole_bind; [exact IH|]. intros x y [R HR]. exists (fun s t => R (fst s) (fst t) /\ snd s = snd t).
    constructor; try apply HR; cbn [e_map e_init e_get e_reset e_step fst snd].
    + split; auto. apply HR.
    + intros i s u [H1 H2]. eapply ole_bind; [apply HR, H1|]. intros [p s1] [q u1] [E H3]. cbn [fst snd] in *. subst q. rewrite H2.
      eapply ole_bind; [apply ole_refl|]. intros [z fs] ? <-. cbn. auto.
    + intros d c s u [H1 H2]. eapply ole_bind; [apply HR, H1|]. intros s1 u1 H3. cbn. auto.
    + intros d s u [H1 H2]. eapply ole_bind; [apply HR, H1|]. intros s1 u1 H3. cbn. auto.
  - eapply ole_bind; [exact IH|]. intros x y [R HR]. exists (fun s t => R (fst s) (fst t) /\ snd s = snd t).
    constructor; try apply HR; cbn [e_cloned e_init e_get e_reset e_step fst snd].
    + split; auto. apply HR.
    + intros i s u [H1 H2]. eapply ole_bind; [apply HR, H1|]. intros [p s1] [q u1] [E H3]. cbn [fst snd] in *. subst q. rewrite H2.
      eapply ole_bind; [apply ole_refl|]. intros [z fs] ? <-. cbn. auto.
    + intros d c s u [H1 H2]. eapply ole_bind; [apply HR, H1|]. intros s1 u1 H3. cbn. auto.
    + intros d s u [H1 H2]. eapply ole_bind; [apply HR, H1|]. intros s1 u1 H3. cbn. auto.
  - eapply ole_bind; [exact IH|]. intros x y [R HR]. exists R.
    constructor; try apply HR; cbn [e_copied e_init e_get e_reset e_step].
    intros i s u H1. eapply ole_bind; [apply HR, H1|]. intros [p s1] [q u1] [E H3]. cbn [fst snd] in *. subst q.
    eapply ole_bind; [apply ole_refl|]. intros z ? <-. cbn. auto.
  - eapply ole_bind; [exact IH|]. intros x y [R HR]. exists (fun s t => R (fst s) (fst t) /\ snd s = snd t).
    constructor; try apply HR; cbn [x_enumerate e_init e_get e_reset e_step fst snd].
    + split; auto. apply HR.
    + intros i s u [H1 H2]. rewrite H2. ole_step. ole_step.
      eapply ole_bind; [apply HR, H1|]. intros [p s1] [q u1] [E H3]. cbn [fst snd] in *. subst q. cbn. auto.
    + intros d c s u [H1 H2]. eapply ole_bind; [apply HR, H1|]. intros s1 u1 H3. cbn. auto.
    + intros d s u [H1 H2]. eapply ole_bind; [apply HR, H1|]. intros s1 u1 H3. cbn. auto.
  - eapply ole_bind; [exact IHa|]. intros xa ya [Ra Ha]. eapply ole_bind; [exact IHb|]. intros xb yb [Rb Hb].
    unfold e_zip, e_rank. rewrite (el_rep Ha), (el_rep Hb), (el_ty Ha), (el_ty Hb), (el_dims Ha), (el_dims Hb).
    ole_step. ole_step. ole_step.
    exists (fun s t => Ra (fst s) (fst t) /\ Rb (snd s) (snd t)).
    constructor; cbn [zip_expr e_init e_ty e_dims e_inner e_rep e_get e_reset e_step fst snd].
    + split; [apply Ha|apply Hb].
    + now rewrite (el_ty Ha), (el_ty Hb).
    + reflexivity.
    + now rewrite (el_inner Ha), (el_inner Hb).
    + now rewrite (el_rep Ha), (el_rep Hb).
    + intros i s t [H1 H2]. eapply ole_bind; [apply Ha, H1|]. intros [p s1] [q u1] [E H3]. cbn [fst snd] in *. subst q.
      eapply ole_bind; [apply Hb, H2|]. intros [p' s2] [q u2] [E H4]. cbn [fst snd] in *. subst q. cbn. auto.
    + intros d c s t [H1 H2]. unfold e_rank. rewrite (el_dims Ha), (el_dims Hb). eapply ole_bind with (P := Ra).
      { destruct (_ <=? _)%nat; [apply Ha, H1|exact H1]. }
      intros s1 t1 H3. eapply ole_bind with (P := Rb).
      { destruct (_ <=? _)%nat; [apply Hb, H2|exact H2]. }
      intros s2 t2 H4. cbn. auto.
    + intros d s t [H1 H2]. unfold e_rank. rewrite (el_dims Ha), (el_dims Hb). eapply ole_bind with (P := Ra).
      { destruct (_ <=? _)%nat; [apply Ha, H1|exact H1]. }
      intros s1 t1 H3. eapply ole_bind with (P := Rb).
      { destruct (_ <=? _)%nat; [apply Hb, H2|exact H2]. }
      intros s2 t2 H4. cbn. auto.
Qed.

(** ** When the checks fail *)

(** A fold that ends has reset every dimension. *)
Lemma step_loop_resets dbg {A} (e : expression A) ol n : forall s o s' o',
  x_step_loop dbg e ol n s o = Ok (false, s', o') ->
  forall i, (i < n)%nat -> exists c st st', e_reset e i c st = Ok st'.
Proof.
  induction n as [|n IH]; intros s o s' o' E i Hi; [lia|]. cbn [x_step_loop] in E.
  destruct (u_res dbg (nth n o 0 + 1)) as [k| | |]; cbn [bind] in E; try discriminate.
  destruct (k <? nth n ol 0).
  - destruct (e_step e n s); cbn [bind] in E; try discriminate.
  - destruct (e_reset e n (nth n o 0) s) as [st| | |] eqn:ER; cbn [bind] in E; try discriminate.
    destruct (Nat.eq_dec i n) as [->|NE]; [eauto|]. apply (IH _ _ _ _ E). lia.
Qed.

Lemma fold_resets dbg {A T} {e : expression A} (f : T -> A -> outcome T) k : forall (it : iter e) acc r,
  x_fold_loop dbg f k it acc = Ok r ->
  forall i, (i < outer_rank e)%nat \/ (outer_rank e < e_rank e)%nat /\ i = (e_rank e - 1)%nat ->
  exists c st st', e_reset e i c st = Ok st'.
Proof.
  induction k as [|k IH]; intros it acc r E i Hi; cbn [x_fold_loop] in E; [discriminate|].
  destruct (inner_loop e f _ _ _ acc) as [[st acc1]| | |]; cbn [bind] in E; try discriminate.
  unfold x_step_outer in E. cbn [it_st it_index it_limit it_outer it_olimit] in E.
  destruct (if (outer_rank e <? e_rank e)%nat then _ else _) as [st1| | |] eqn:E1; cbn [bind] in E; try discriminate.
  destruct (x_step_loop dbg e (it_olimit it) (outer_rank e) st1 (it_outer it)) as [[[b st2] o2]| | |] eqn:E2;
    cbn [bind] in E; try discriminate.
  destruct b; [eapply IH; eauto|]. destruct Hi as [Hi|[Hi ->]].
  - exact (step_loop_resets E2 Hi).
  - destruct (Nat.ltb_spec (outer_rank e) (e_rank e)); [|lia]. eauto.
Qed.

(** A stride of [isize::MIN] cannot be negated. *)
Lemma reset_overflows n rep v d c p : m_layout (v_map v) = Strided -> nth d (m_strides (v_map v)) 0 = isize_min ->
  (d < length (v_dims v))%nat -> (d < length (m_strides (v_map v)))%nat -> e_reset (x_e_view true n rep v) d c p = Panic.
Proof.
  intros HS HD HR HL. unfold v_dims in HR. cbn [x_e_view e_reset]. unfold x_stride. destruct (v_map v) as [ty dims|ty dims st]; [discriminate|].
  cbn in HD, HL, HR. destruct (Nat.ltb_spec d (length dims)); [|lia]. cbn [assert bind]. unfold get_nth. rewrite (nth_error_nth' st 0 HL), HD. reflexivity.
Qed.
