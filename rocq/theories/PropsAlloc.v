(** C74: with the [nightly] feature every tensor owns an allocator value, and no operation loses one, drops one twice or
    gives memory back to another allocator; what happens to the elements is what happens on stable. *)
From Verif Require Import Base Spec SpecFacts Shape Mapping Index View Wf Expr ExprSpec.
From Verif Require Import Tensor TensorSpec History HistoryFacts Alloc AllocFacts AllocRun.
Unset Strict Implicit.

(** The beginning of a program: no variables, and no allocator has been seen. *)
Definition a_start {T C A I K} (c : C) (k : K) : nstate T C A I K :=
  mkNs [] (mkWorld c [] [] []) (mkHeap k [] [] [] [] [] []).

(** ** One operation *)

(** [st] is any state in which all is accounted for.  Elements and [A::clone] may panic.  When [A::clone] never panics the
    elements end up exactly as on stable. *)
Theorem c74_step {T C A I K} (code : acode A I K) al (o : nop T C A) (st : nstate T C A I K) l :
  clone_same code -> clone_pure code \/ clones o = false ->
  accounted code st -> consistent (plain st) l -> nop_ok al o st ->
  exists st' more, n_step code al o st = Done tt st' /\ accounted code st' /\
    consistent (plain st') (l ++ more) /\ within more (n_leak o) /\
    (clone_total code -> plain_step al o (plain st) = Done tt (plain st')).
Proof. intros HS HP HA HC HO. now apply n_step_ok. Qed.
Print Assumptions c74_step.

(** ** Programs *)

Theorem c74_programs {T C A I K} (code : acode A I K) al (ops : list (nop T C A)) (st : nstate T C A I K) l :
  clone_same code -> clone_pure code \/ Forall (fun o => clones o = false) ops ->
  accounted code st -> consistent (plain st) l -> nops_ok code al ops st ->
  exists st' more, n_run code al ops st = Done tt st' /\ accounted code st' /\
    consistent (plain st') (l ++ more) /\ within more (n_leaks ops) /\
    (clone_total code -> plain_run al ops (plain st) = Done tt (plain st')).
Proof. intros HS HP HA HC HO. now apply n_run_ok. Qed.
Print Assumptions c74_programs.

(** No allocator value is dropped twice, none that was dropped or handed back is still in a tensor, and memory is freed
    at most once, by its allocator. *)
Theorem c74_once {T C A I K} (code : acode A I K) al (ops : list (nop T C A)) (c : C) (k : K) (st' : nstate T C A I K) :
  clone_same code -> clone_pure code \/ Forall (fun o => clones o = false) ops ->
  nops_ok code al ops (a_start c k) -> n_run code al ops (a_start c k) = Done tt st' ->
  NoDup (h_made (ns_h st')) ->
  NoDup (h_dropped (ns_h st')) /\
  (forall a, In a (h_dropped (ns_h st')) ->
     ~ In a (h_given (ns_h st')) /\ forall i t, nvar st' i <> Some (t, a)) /\
  (forall b, In b (h_freed (ns_h st')) -> In b (h_got (ns_h st'))) /\
  (length (h_freed (ns_h st')) <= length (h_got (ns_h st')))%nat.
Proof.
  intros HS HP HO HR HN.
  assert (HA : accounted code (a_start (T := T) c k)) by (split; reflexivity).
  assert (HC : consistent (plain (a_start (T := T) c k : nstate T C A I K)) []) by (split; [constructor|reflexivity]).
  destruct (c74_programs HS HP HA HC HO) as (st1 & more & E & [H1 H2] & _). rewrite HR in E. injection E as <-.
  apply (Permutation_NoDup H1) in HN.
  assert (HR2 : forall x y : list A, NoDup (x ++ y) -> NoDup y).
  { induction x as [|z x IH]; cbn; auto. intros y HD. inversion HD. auto. }
  split.
  - exact (HR2 _ _ (HR2 _ _ HN)).
  - split; [|split].
    + intros a Ha.
      assert (HX : forall (x y : list A), NoDup (x ++ y) -> In a y -> ~ In a x).
      { induction x as [|z x IH]; cbn; auto. intros y HD Hy. inversion HD; subst. intros [->|Hx]; [|exact (IH y H4 Hy Hx)].
        apply H3. apply in_or_app. auto. }
      split.
      * exact (HX _ _ (HR2 _ _ HN) Ha).
      * intros i t HV. apply nvar_nth in HV. apply nth_error_In in HV.
        apply (HX _ _ HN); [apply in_or_app; auto|]. apply in_flat_map. exists (Some (t, a)). cbn. auto.
    + intros b Hb. apply (Permutation_in _ (Permutation_sym H2)). apply in_or_app. right. apply in_or_app. auto.
    + rewrite (Permutation_length H2), !app_length. lia.
Qed.
Print Assumptions c74_once.

(** When no tensor is left, every allocator value was handed back or dropped, and all memory handed out or freed. *)
Theorem c74_all_freed {T C A I K} (code : acode A I K) al (ops : list (nop T C A)) (c : C) (k : K) (st' : nstate T C A I K) :
  clone_same code -> clone_pure code \/ Forall (fun o => clones o = false) ops ->
  nops_ok code al ops (a_start c k) -> n_run code al ops (a_start c k) = Done tt st' ->
  (forall i, nvar st' i = None) ->
  Permutation (h_made (ns_h st')) (h_given (ns_h st') ++ h_dropped (ns_h st')) /\
  Permutation (h_got (ns_h st')) (h_out (ns_h st') ++ h_freed (ns_h st')).
Proof.
  intros HS HP HO HR HN.
  assert (HA : accounted code (a_start (T := T) c k)) by (split; reflexivity).
  assert (HC : consistent (plain (a_start (T := T) c k : nstate T C A I K)) []) by (split; [constructor|reflexivity]).
  destruct (c74_programs HS HP HA HC HO) as (st1 & more & E & [H1 H2] & _). rewrite HR in E. injection E as <-.
  assert (HV : forall v, In v (ns_vars st') -> v = None).
  { intros v Hv. apply In_nth_error in Hv. destruct Hv as [i Hi]. specialize (HN i). unfold nvar in HN. rewrite Hi in HN. now destruct v. }
  assert (EA : allocs (ns_vars st') = []).
  { revert HV. generalize (ns_vars st'). induction l as [|v l IH]; intros HV; cbn; auto.
    rewrite (HV v (or_introl eq_refl)). apply IH. intros x Hx. apply HV. cbn. auto. }
  assert (EB : blocks code (ns_vars st') = []).
  { revert HV. generalize (ns_vars st'). induction l as [|v l IH]; intros HV; cbn; auto.
    rewrite (HV v (or_introl eq_refl)). apply IH. intros x Hx. apply HV. cbn. auto. }
  rewrite EA in H1. rewrite EB in H2. auto.
Qed.
Print Assumptions c74_all_freed.

(** ** Which allocator a tensor has *)

(** Apart from creating, cloning and resizing a tensor, no operation calls [A::clone] or makes an allocator value, and a
    tensor that is still there has the allocator it had. *)
Theorem c74_keeps_allocator {T C A I K} (code : acode A I K) al (o : nop T C A) (st st' : nstate T C A I K) :
  match o with Put _ _ => False | Do (Clone _ _) | Do (ResizeWith _ _ _) | Do (Resize _ _ _ _) => False | Do o => creates o = false
  | _ => True end ->
  n_step code al o st = Done tt st' ->
  h_k (ns_h st') = h_k (ns_h st) /\ h_made (ns_h st') = h_made (ns_h st) /\
  (forall i t' a, nvar st' i = Some (t', a) -> exists t, nvar st i = Some (t, a)).
Proof.
  intros HX. destruct o as [a o|o|i|i]; cbn [n_step]; [contradiction| | |].
  - destruct (lasting o) eqn:HL.
    + intros E. assert (HN : creates o = false) by (destruct o; auto; contradiction).
      destruct (do_stays HN HL E) as [(H1 & H2 & _) H3]. auto.
    + intros E. assert (HN : creates o = false) by (destruct o; auto; contradiction).
      destruct (@do_moves _ _ _ _ _ code al o st st' HN HL) as (H1 & H2 & _ & H3); auto. destruct o; auto.
  - unfold n_consume. destruct (nvar st i) as [[t a]|] eqn:HV; [|intros [= <-]; eauto].
    destruct (tn_into_vec t (fst (ns_w st, ns_h st))) as [x w|w| |]; try discriminate; intros [= <-];
      repeat (split; [reflexivity|]); intros j t' a' HN; apply nvar_set in HN; destruct HN as [[<- E]|[_ HN]]; eauto; discriminate.
  - unfold n_consume. destruct (nvar st i) as [[t a]|] eqn:HV; [|intros [= <-]; eauto].
    destruct (tn_into_vec t (fst (ns_w st, ns_h st))) as [x w|w| |]; try discriminate.
    + unfold from_parts. destruct (_ =? _); [|discriminate]. intros [= <-]. repeat (split; [reflexivity|]).
      intros j t' a' HN; apply nvar_set in HN; destruct HN as [[<- E]|[_ HN]]; eauto. injection E as _ <-. eauto.
    + intros [= <-]. repeat (split; [reflexivity|]). intros j t' a' HN; apply nvar_set in HN; destruct HN as [[<- E]|[_ HN]]; eauto; discriminate.
Qed.
Print Assumptions c74_keeps_allocator.

(** A tensor made with [alloc] has [alloc]. *)
Theorem c74_new_allocator {T C A I K} (code : acode A I K) al a (o : op T C) (st st' : nstate T C A I K) :
  creates o = true -> n_step code al (Put a o) st = Done tt st' ->
  h_k (ns_h st') = h_k (ns_h st) /\ h_made (ns_h st') = h_made (ns_h st) ++ [a] /\
  (ns_vars st' = ns_vars st \/ exists t, ns_vars st' = ns_vars st ++ [Some (t, a)]).
Proof.
  intros HC. destruct o; try discriminate HC; cbn [n_step]; unfold n_create.
  - unfold n_with_capacity. cbn [fst snd]. destruct (tn_with_capacity _ _ _ _); try discriminate; intros [= <-]; cbn; eauto.
  - unfold n_from_vec, with_alloc, keep_vec, seqM, ret. cbn [fst snd]. destruct (tn_from_vec _ _ _); try discriminate; intros [= <-]; cbn; eauto.
  - unfold n_from_expr. cbv zeta. destruct (_ || _)%bool; [|intros [= <-]; cbn; eauto].
    unfold on_vec. destruct (clone_into_vec _ _ _) as [u p|p| |]; try discriminate; cbn [n_p n_a n_h].
    + unfold with_alloc, seqM, ret, from_parts. destruct (zlen (p_items p) =? _); [|discriminate]. intros [= <-]. cbn.
      unfold regrow. destruct (_ =? p_cap p); cbn; eauto.
    + intros [= <-]. cbn. unfold regrow. destruct (_ =? p_cap p); cbn; eauto.
Qed.
Print Assumptions c74_new_allocator.

(** [clone] calls [A::clone] once; the new tensor has what it gave. *)
Theorem c74_clone_allocator {T C A I K} (code : acode A I K) al i cl (st st' : nstate T C A I K) t a :
  clone_pure code -> nvar st i = Some (t, a) -> n_step code al (Do (Clone i cl)) st = Done tt st' ->
  match ac_clone code a (h_k (ns_h st)) with
  | AGives _ new k =>
      h_k (ns_h st') = k /\ h_made (ns_h st') = h_made (ns_h st) ++ [new] /\
      (ns_vars st' = ns_vars st \/ exists t', ns_vars st' = ns_vars st ++ [Some (t', new)])
  | AThrows _ k => h_k (ns_h st') = k /\ h_made (ns_h st') = h_made (ns_h st) /\ ns_vars st' = ns_vars st /\ ns_w st' = ns_w st
  end.
Proof.
  intros HP HV. cbn [n_step n_do]. rewrite HV. unfold n_create, n_clone. specialize (HP a (h_k (ns_h st))).
  destruct (ac_clone code a (h_k (ns_h st))) as [self new k|self k]; subst self; cbn [h_self snd].
  - unfold with_alloc, keep_vec, seqM, ret. cbn [fst snd]. destruct (tn_clone _ _ _); try discriminate; intros [= <-]; cbn; eauto.
  - intros [= <-]. cbn. auto.
Qed.
Print Assumptions c74_clone_allocator.

(** Resizing calls [A::clone] at most once, and the tensor ends with its own allocator or with the clone. *)
Theorem c74_resize_allocator {T C A I K} (code : acode A I K) al dims f (s : own T C A I K) :
  clone_pure code ->
  match n_resize_with code al dims f s with
  | Done _ s' | Unwound s' =>
      (o_a s' = o_a s /\ h_k (o_h s') = h_k (o_h s)) \/
      match ac_clone code (o_a s) (h_k (o_h s)) with
      | AGives _ new k => (o_a s' = o_a s \/ o_a s' = new) /\ h_k (o_h s') = k
      | AThrows _ k => o_a s' = o_a s /\ h_k (o_h s') = k
      end
  | _ => True
  end.
Proof. intros HP. exact (resize_clones al dims f s HP). Qed.
Print Assumptions c74_resize_allocator.

(** ** An allocator that changes when it is cloned *)

(** [with_vec] clones a bitwise copy of the allocator.  If [A::clone] replaces a value inside [self] (a
    [RefCell<Box<..>>]), the tensor keeps the old one: it is dropped twice and the new one never. *)
Definition swapping : acode Z unit Z := mkCode (fun _ => tt) (fun _ k => AGives (Some k) (k + 1) (k + 2)).
Definition al_9 : allocator := mkAlloc (fun n => n <=? 1000) (fun _ n => n).
Definition ex_swap : list (nop Z Z Z) := [Put 0 (FromVec [5] 1); Do (Clone 0 (fun x c => Gives x c)); Do (Drop 0); Do (Drop 1)].
Theorem c74_clone_refuted : exists (code : acode Z unit Z) al (ops : list (nop Z Z Z)) st',
  clone_same code /\ clone_total code /\ nops_ok code al ops (a_start 0 10) /\
  n_run code al ops (a_start 0 10) = Done tt st' /\ ns_vars st' = [None; None] /\
  count_occ Z.eq_dec (h_made (ns_h st')) 0 = 1%nat /\ count_occ Z.eq_dec (h_dropped (ns_h st')) 0 = 2%nat /\
  In 10 (h_made (ns_h st')) /\ ~ In 10 (h_given (ns_h st') ++ h_dropped (ns_h st')).
Proof.
  exists swapping, al_9, ex_swap. eexists. split; [intros a k a'; reflexivity|]. split; [intros a k; exact I|]. split.
  - split; [split; [split; [reflexivity|vm_compute; discriminate]|vm_compute; discriminate]|].
    intros st' E. vm_compute in E. injection E as <-.
    split; [split; [split; [reflexivity|exact I]|vm_compute; discriminate]|]. intros st' E. vm_compute in E. injection E as <-.
    split; [split; [split; [reflexivity|exact I]|vm_compute; discriminate]|]. intros st' E. vm_compute in E. injection E as <-.
    split; [split; [split; [reflexivity|exact I]|vm_compute; discriminate]|]. intros; exact I.
  - split; [vm_compute; reflexivity|]. cbn. repeat split; auto. intuition discriminate.
Qed.
Print Assumptions c74_clone_refuted.

(** ** A program *)

(** Two pools; a clone belongs to the pool of the original and has a serial number; the fifth clone panics. *)
Definition pools : acode (Z * Z) Z Z :=
  mkCode fst (fun a k => if k =? 5 then AThrows None (k + 1) else AGives None (fst a, k) (k + 1)).
Definition ty2 : shty := STuple [DDyn; DDyn].
Definition tick (c : Z) : call Z Z := if c =? 103 then Throws (c + 1) else Gives c (c + 1).
Definition ex_pools : list (nop Z Z (Z * Z)) :=
  [Put (1, 0) (FromVec [1; 2; 3; 4; 5; 6] 6); Do (IntoShape 0 ty2 [2; 3]);
   Do (ResizeWith 0 [2; 2] tick);                  (* a new vector, with clone 3 *)
   Do (Clone 0 (fun x c => Gives x c));             (* clone 4 *)
   Do (ResizeWith 0 [2; 3] tick);                  (* the clone panics *)
   Put (2, 0) (New ty2 8); Do (Append 2 0);
   Do (ResizeWith 1 [2; 5] tick);                  (* clone 6; the closure panics *)
   Rebuild 0; IntoVec 2; Do (Drop 0)].
Ltac one := split; [split; [split; [reflexivity|]|vm_compute; discriminate]|intros ? E; vm_compute in E; injection E as <-].
Example c74_example_ok : clone_same pools /\ clone_pure pools /\ ~ clone_total pools /\
  nops_ok pools al_9 ex_pools (a_start 100 3).
Proof.
  split; [intros a k a'; cbn; destruct (k =? 5); discriminate|]. split; [intros a k; cbn; now destruct (k =? 5)|].
  split; [intros H; exact (H (0, 0) 5)|].
  unfold ex_pools. one; [vm_compute; discriminate|].
  one; [split; [repeat constructor; lia|split; [reflexivity|repeat constructor]]|].
  one; [repeat constructor; lia|]. one; [exact I|]. one; [repeat constructor; lia|].
  one; [split; [repeat constructor; cbn; lia|split; [repeat constructor; cbn; lia|lia]]|].
  one; [discriminate|]. one; [repeat constructor; lia|].
  split; [split; [exact I|vm_compute; discriminate]|intros ? E; vm_compute in E; injection E as <-].
  split; [split; [exact I|vm_compute; discriminate]|intros ? E; vm_compute in E; injection E as <-].
  one; [exact I|]. exact I.
Qed.
Example c74_example : exists st, n_run pools al_9 ex_pools (a_start 100 3) = Done tt st /\
  ns_vars st = [None; Some (mkTensor ty2 [0; 0] [] 4, (1, 4)); None] /\
  w_made (ns_w st) = [1; 2; 3; 4; 5; 6; 1; 2; 4; 5; 100; 101; 102] /\
  w_used (ns_w st) = [1; 2; 4; 5] /\ w_dropped (ns_w st) = [3; 6; 1; 2; 100; 101; 102; 4; 5] /\
  h_made (ns_h st) = [(1, 0); (1, 3); (1, 4); (2, 0); (1, 6)] /\
  h_given (ns_h st) = [(2, 0)] /\ h_dropped (ns_h st) = [(1, 0); (1, 6); (1, 3)] /\
  h_got (ns_h st) = [(1, 6); (1, 4); (1, 4); (2, 8); (1, 10)] /\
  h_out (ns_h st) = [(2, 8)] /\ h_freed (ns_h st) = [(1, 6); (1, 10); (1, 4)].
Proof. eexists. split; [vm_compute; reflexivity|]. vm_compute. repeat split. Qed.

(** Capacity 0 takes no memory, capacity 1 does.  The allocator here replaces a value inside itself when cloned; no
    tensor is cloned, so [c74_once] applies. *)
Definition restless : acode Z unit Z := mkCode (fun _ => tt) (fun a k => AGives (Some (a + 1)) k (k + 1)).
Definition ex_restless : list (nop Z Z Z) := [Put 7 (New ty2 0); Put 8 (New ty2 1); Put 9 (New ty2 2); Do (Drop 0); Do (Drop 1)].
Example c74_capacity_example : ~ clone_pure restless /\ Forall (fun o => clones o = false) ex_restless /\
  exists st, n_run restless al_9 ex_restless (a_start 0 50) = Done tt st /\
    h_made (ns_h st) = [7; 8; 9] /\ h_dropped (ns_h st) = [7; 8] /\
    h_got (ns_h st) = [(tt, 1); (tt, 2)] /\ h_freed (ns_h st) = [(tt, 1)].
Proof.
  split; [intros H; specialize (H 0 0); discriminate|]. split; [repeat constructor|].
  eexists. split; [vm_compute; reflexivity|]. vm_compute. repeat split.
Qed.
