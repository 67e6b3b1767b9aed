(** C73: owned arrays with machine integers.

    [x_ops dbg] runs a program of operations on owned arrays with 64-bit integers, with overflow checks
    ([dbg = true]) or without; [run_ops] runs it with unbounded integers.  What is asked of the program is what Rust
    gives it: dimensions and capacities are machine integers and no vector has more than [isize::MAX] elements. *)
From Coq Require Import Permutation.
From Verif Require Import Base Spec SpecFacts Shape Mapping Index View Wf ReshapeFacts Expr Tensor TensorSpec TensorFacts History HistoryFacts OwnFacts OwnProps.
From Verif Require Import Machine MachineSpec MachineTensor MachineTensorFacts MachineTensorMore MachineTensorRun.
Unset Strict Implicit.

(** Every program gives what it gives with unbounded integers, in both kinds of build: the same tensors, the same calls
    of user code, the same drops, the same panics.  (With overflow checks, [small_ops] excludes the resizes of
    [c73_resize_checked] below; in other builds it asks nothing of a resize but machine dimensions.) *)
Theorem c73_programs_exact : forall dbg T C al (ops : list (op T C)) c,
  al_machine al -> ops_ok al ops (start c) -> small_ops dbg al ops (start c) ->
  x_ops dbg al ops (start c) = run_ops al ops (start c).
Proof.
  intros dbg T C al ops c HA HO HS. eapply x_ops_ok; eauto using start_consistent. constructor.
Qed.
Print Assumptions c73_programs_exact.

(** From any state, and the sizes stay machine sizes. *)
Theorem c73_step_exact : forall dbg T C al (o : op T C) (st : state T C) l,
  al_machine al -> consistent st l -> op_ok o st -> small_op dbg o st -> small_state dbg st ->
  x_op dbg al o st = step al o st /\
  forall st', step al o st = Done tt st' -> small_state dbg st'.
Proof.
  intros dbg T C al o st l HA HC HO HSO HS. destruct (x_op_ok HA HC HO HSO HS) as [E H]. split; auto. intros st' E'. now rewrite E' in H.
Qed.
Print Assumptions c73_step_exact.

(** Whatever the strides: nothing undefined happens, no panic escapes, every tensor keeps as many elements as its
    dimensions ask for - and their number fits - and every element is in exactly one place. *)
Theorem c73_programs_safe : forall dbg T C al (ops : list (op T C)) c,
  al_machine al -> machine_ops dbg al ops (start c) ->
  match x_ops dbg al ops (start c) with
  | Done _ st =>
      (forall i t, var st i = Some t ->
         nonneg (tn_dims t) /\ zlen (tn_mem t) = prodZ (tn_dims t) /\ zlen (tn_mem t) <= tn_cap t <= isize_max /\
         x_len dbg (tn_dims t) = Ok (zlen (tn_mem t))) /\
      exists leaked, within leaked (leak_limits ops) /\
        Permutation (w_made (st_w st)) (held (st_vars st) ++ leaked ++ w_used (st_w st) ++ w_dropped (st_w st))
  | Aborted => exists ops1 ops2 st i t, ops = ops1 ++ ops2 /\ x_ops dbg al ops1 (start c) = Done tt st /\
      var st i = Some t /\ prodZ (sh_default (tn_ty t)) <> 0
  | _ => False
  end.
Proof.
  intros dbg T C al ops c HA HM.
  pose proof (x_ops_safe HA (start_consistent c) HM (Forall_nil _)) as H. unfold safe_res in H.
  destruct (x_ops dbg al ops (start c)) as [[] st|st| |]; auto.
  - destruct H as [HS (more & HC & HW)]. split.
    + intros i t EV. pose proof (var_ok HC EV) as Ht. pose proof (var_small HS EV) as HSt.
      assert (HL : zlen (tn_mem t) = prodZ (tn_dims t)) by exact (to_len Ht).
      split; [apply Ht|]. split; [exact HL|]. split; [pose proof (to_cap Ht); pose proof (sm_cap HSt); unfold zlen; lia|].
      rewrite HL. apply counted_len; [apply Ht|apply HSt].
    + exists more. split; [exact HW|apply HC].
  - destruct H as (ops1 & ops2 & st1 & E1 & E2 & i & t & E3 & E4). exists ops1, ops2, st1, i, t. auto.
Qed.
Print Assumptions c73_programs_safe.

Lemma behind_zero_spec dims :
  match behind_zero dims with
  | Some b => exists a, dims = a ++ 0 :: b /\ (forall x, In x a -> x <> 0)
  | None => forall x, In x dims -> x <> 0
  end.
Proof.
  induction dims as [|d dims IH]; cbn [behind_zero]; [intros x []|]. destruct (Z.eqb_spec d 0) as [->|NE].
  - exists []. split; [reflexivity|intros x []].
  - destruct (behind_zero dims) as [b|].
    + destruct IH as (a & -> & HA). exists (d :: a). split; [reflexivity|]. intros x [<-|H]; auto.
    + intros x [<-|H]; auto.
Qed.

(** [resize] and [resize_with] exactly, with overflow checks: a non-empty result asked of an empty tensor whose
    dimensions behind the first empty one do not fit panics, and leaves everything as it was. *)
Theorem c73_resize_checked : forall T C al (t : tensor T) (w : world T C) dims f,
  al_machine al -> tensor_ok t -> small true t -> nonneg dims -> machine_dims dims ->
  tn_resize_with al dims f (t, w) <> Fault ->
  xt_resize_with true al dims f (t, w) =
    if (length dims =? length (tn_dims t))%nat then
      match behind_zero (tn_dims t) with
      | Some b => if (0 <? prodZ dims) && negb (match sh_checked_len b with Some _ => true | None => false end)
                  then Unwound (t, w) else tn_resize_with al dims f (t, w)
      | None => tn_resize_with al dims f (t, w)
      end
    else Unwound (t, w).
Proof.
  intros T C al t w dims f HA Ht HS HN HM NF. destruct (Nat.eqb_spec (length dims) (length (tn_dims t))) as [EL|NL].
  2:{ unfold xt_resize_with. cbn [fst]. destruct (Nat.eqb_spec (length dims) (length (tn_dims t))); [congruence|reflexivity]. }
  destruct (Z.ltb_spec 0 (prodZ dims)) as [HP|HP].
  2:{ cbn [andb]. destruct (behind_zero _); apply x_resize_ok; auto; lia. }
  cbn [andb]. pose proof (behind_zero_spec (tn_dims t)) as HB. destruct (behind_zero (tn_dims t)) as [b|].
  - destruct HB as (a & ED & HA'). assert (PA : positive a).
    { pose proof (to_nonneg Ht) as H. rewrite ED in H. apply Forall_app in H as [H _]. unfold positive. rewrite Forall_forall in *.
      intros x Hx. specialize (H x Hx). specialize (HA' x Hx). lia. }
    destruct (sh_checked_len b) as [n|] eqn:EC; cbn [negb].
    + destruct (checked_len_inv _ EC) as [_ FB]. apply x_resize_ok; auto. intros _ _ (a' & b' & ED' & PA' & HF). apply HF.
      rewrite ED in ED'. revert ED'. clear - PA PA' FB. revert a' PA'. induction PA as [|x a Hx PA IH]; intros [|y a'] PA'; cbn [app]; intros E; inversion E; subst; auto.
      * inversion PA'; lia.
      * lia.
      * inversion PA'. eapply IH; eauto.
    + apply x_resize_panics; auto. exists a, b. split; [exact ED|]. split; [exact PA|]. intros F. rewrite (checked_len_fits F) in EC. discriminate.
  - apply x_resize_ok; auto. intros _ _ (a' & b' & ED' & _). apply (HB 0); [|reflexivity]. rewrite ED'. apply in_or_app. right. now left.
Qed.
Print Assumptions c73_resize_checked.

(** Without overflow checks there is no exception: machine dimensions are enough. *)
Theorem c73_release_exact : forall T C al (ops : list (op T C)) c,
  al_machine al -> machine_ops false al ops (start c) ->
  x_ops false al ops (start c) = run_ops al ops (start c).
Proof.
  intros T C al ops c HA. assert (G : forall (st : state T C) l, consistent st l -> small_state false st -> machine_ops false al ops st ->
    x_ops false al ops st = run_ops al ops st).
  { induction ops as [|o os IH]; intros st l HC HS HM; [reflexivity|]. destruct HM as (HO & HM & HR).
    assert (HSO : small_op false o st) by (destruct o; cbn [machine_op small_op] in *; auto; split; auto; discriminate).
    destruct (x_op_ok HA HC HO HSO HS) as [E HP]. pose proof (step_ok al HC HO) as H. cbn [x_ops run_ops]. unfold seqM. rewrite E in *.
    destruct (step al o st) as [[] st'|st'| |] eqn:ES; auto. destruct H as (more & HC' & _). apply (IH st' _ HC' HP). now apply HR. }
  intros HM. apply (G (start c) []); auto using start_consistent. constructor.
Qed.
Print Assumptions c73_release_exact.

(** The exception is real: an empty tensor of huge rows made by [into_shape], then resized.  Without overflow checks the
    result is right; with them the resize panics. *)
Definition ty3 : shty := STuple [DDyn; DDyn; DDyn].
Definition al_1000 : allocator := mkAlloc (fun n => n <=? 1000) (fun c n => Z.min 2000 (Z.max (2 * c) n)).
Lemma al_1000_machine : al_machine al_1000.
Proof. intros n H. apply Z.leb_le in H. split; [unfold isize_max; lia|]. intros c. cbn. unfold isize_max. lia. Qed.
Definition tick (c : Z) : call Z Z := Gives c (c + 1).
Definition ex_stride : list (op Z Z) :=
  [FromVec [] 0; IntoShape 0 ty3 [0; 2 ^ 40; 2 ^ 40]; ResizeWith 0 [1; 1; 2] tick].
Theorem c73_resize_checked_refuted :
  exists T C al (ops : list (op T C)) c,
    al_machine al /\ machine_ops true al ops (start c) /\
    x_ops true al ops (start c) <> run_ops al ops (start c).
Proof.
  exists Z, Z, al_1000, ex_stride, 5. split; [exact al_1000_machine|]. split.
  - unfold ex_stride. split; [vm_compute; discriminate|]. split; [vm_compute; discriminate|]. intros st' E. vm_compute in E. injection E as <-.
    split; [split; [repeat constructor; lia|split; [reflexivity|repeat constructor]]|]. split; [repeat constructor; simpl; unfold usize_max; lia|].
    intros st' E. vm_compute in E. injection E as <-.
    split; [repeat constructor; lia|]. split; [repeat constructor; simpl; unfold usize_max; lia|]. intros; exact I.
  - vm_compute. discriminate.
Qed.
Print Assumptions c73_resize_checked_refuted.
Example c73_example_stride :
  (exists st, x_ops true al_1000 ex_stride (start 5) = Done tt st /\ st_vars st = [Some (mkTensor ty3 [0; 2 ^ 40; 2 ^ 40] [] 0)]) /\
  (exists st, x_ops false al_1000 ex_stride (start 5) = Done tt st /\ st_vars st = [Some (mkTensor ty3 [1; 1; 2] [5; 6] 2)]) /\
  xt_resize_with true al_1000 [1; 1; 2] tick (mkTensor ty3 [0; 2 ^ 40; 2 ^ 40] [] 0, mkWorld 5 [] [] []) =
    Unwound (mkTensor ty3 [0; 2 ^ 40; 2 ^ 40] [] 0, mkWorld 5 [] [] []).
Proof. split; [eexists; split; vm_compute; reflexivity|]. split; [eexists; split; vm_compute; reflexivity|reflexivity]. Qed.

(** A program with overflow checks: shapes, a resize that moves rows, a drain, a map that panics half way, a clone. *)
Definition ty2 : shty := STuple [DDyn; DDyn].
Definition upto8 (x c : Z) : call Z Z := if x <? 8 then Gives (10 * x) (c + 1) else Throws c.
Definition ex_machine : list (op Z Z) :=
  [FromVec [1; 2; 3; 4; 5; 6] 6; IntoShape 0 ty2 [2; usize_max]; ResizeWith 0 [3; 2] tick;
   Clone 0 (fun x c => Gives x (c + 1)); DrainTake 0 (Included 1) (Excluded 2) 1; Map 0 upto8; IntoFlat 1].
Example c73_example_ok : al_machine al_1000 /\ machine_ops true al_1000 ex_machine (start 8) /\
  ops_ok al_1000 ex_machine (start 8) /\ small_ops true al_1000 ex_machine (start 8).
Proof.
  split; [exact al_1000_machine|].
  assert (NS : ~ stride_overflow [2; 3]).
  { intros (a & b & E & _). destruct a as [|x [|y [|z a]]]; discriminate. }
  unfold ex_machine. split; [|split].
  - split; [vm_compute; discriminate|]. split; [vm_compute; discriminate|]. intros st' E. vm_compute in E. injection E as <-.
    split; [split; [repeat constructor; unfold usize_max; lia|split; [reflexivity|repeat constructor]]|]. split; [repeat constructor; simpl; unfold usize_max; lia|].
    intros st' E. vm_compute in E. injection E as <-.
    split; [repeat constructor; lia|]. split; [repeat constructor; simpl; unfold usize_max; lia|]. intros st' E. vm_compute in E. injection E as <-.
    split; [exact I|]. split; [exact I|]. intros st' E. vm_compute in E. injection E as <-.
    split; [split; [cbn; unfold usize, usize_max; lia|split; [cbn; unfold usize, usize_max; lia|]]|].
    { intros t H. vm_compute in H. injection H as <-. vm_compute. discriminate. }
    split; [exact I|]. intros st' E. vm_compute in E. injection E as <-. split; [exact I|]. split; [exact I|].
    intros st' E. vm_compute in E. injection E as <-. split; [exact I|]. split; [exact I|]. intros; exact I.
  - split; [vm_compute; discriminate|]. intros st' E. vm_compute in E. injection E as <-.
    split; [split; [repeat constructor; unfold usize_max; lia|split; [reflexivity|repeat constructor]]|].
    intros st' E. vm_compute in E. injection E as <-.
    split; [repeat constructor; lia|]. intros st' E. vm_compute in E. injection E as <-.
    split; [exact I|]. intros st' E. vm_compute in E. injection E as <-.
    split; [split; [cbn; unfold usize, usize_max; lia|split; [cbn; unfold usize, usize_max; lia|]]|].
    { intros t H. vm_compute in H. injection H as <-. vm_compute. discriminate. }
    intros st' E. vm_compute in E. injection E as <-. split; [exact I|].
    intros st' E. vm_compute in E. injection E as <-. split; [exact I|]. intros; exact I.
  - split; [vm_compute; discriminate|]. intros st' E. vm_compute in E. injection E as <-.
    split; [repeat constructor; simpl; unfold usize_max; lia|]. intros st' E. vm_compute in E. injection E as <-.
    split; [split; [repeat constructor; simpl; unfold usize_max; lia|]|].
    { intros _ _ t H. vm_compute in H. injection H as <-. exact NS. }
    intros st' E. vm_compute in E. injection E as <-. split; [exact I|].
    intros st' E. vm_compute in E. injection E as <-. split; [exact I|].
    intros st' E. vm_compute in E. injection E as <-. split; [exact I|].
    intros st' E. vm_compute in E. injection E as <-. split; [exact I|]. intros; exact I.
Qed.
Example c73_example : exists st, x_ops true al_1000 ex_machine (start 8) = Done tt st /\
  st_vars st = [None; Some (mkTensor (STuple [DDyn]) [6] [1; 2; 4; 5; 8; 9] 6)] /\
  w_made (st_w st) = [1; 2; 3; 4; 5; 6; 8; 9; 1; 2; 4; 5; 8; 9; 10; 20] /\
  w_used (st_w st) = [4; 1; 2; 8] /\ w_dropped (st_w st) = [3; 6; 5; 10; 20; 9].
Proof. eexists. split; [vm_compute; reflexivity|]. vm_compute. auto. Qed.

(** A drain hands out each element once, so it is not repeatable: zipping refuses to repeat it. *)
Theorem c73_drain_once : forall dbg T (d : drain T),
  let e := x_e_drain dbg d in e_rep e = false /\ e_inner e = None /\ e_dims e = d_view d /\ e_ty e = d_ty d /\
  forall i s, e_get e i s = xt_drain_take dbg s.
Proof. intros. repeat split. Qed.
Print Assumptions c73_drain_once.
