(** The [nightly] owned arrays: the elements do what they do on stable, and every allocator value and every piece of
    memory is accounted for. *)
From Verif Require Import Base Spec SpecFacts Shape Mapping Index View Wf MappingFacts MapOps ReshapeFacts.
From Verif Require Import IndexFacts ViewFacts Expr ExprSpec ExprFacts Tensor TensorSpec TraceFacts TensorFacts ResizeFacts.
From Verif Require Import TensorOps History HistoryFacts Alloc.
Unset Strict Implicit.

(** ** Accounts *)

Section Acc.
  Context {A I K : Type} (code : acode A I K).

  (** Owned by the code at hand and its callers: the allocators [X], the memory [Y]. *)
  Definition acc (X : list A) (Y : list (I * Z)) (h : heap A I K) : Prop :=
    Permutation (h_made h) (X ++ h_given h ++ h_dropped h) /\
    Permutation (h_got h) (Y ++ h_out h ++ h_freed h).

  Lemma acc_perm X X' Y Y' h : acc X Y h -> Permutation X X' -> Permutation Y Y' -> acc X' Y' h.
  Proof. intros [H1 H2] PX PY. split; [rewrite H1, PX|rewrite H2, PY]; reflexivity. Qed.
  Lemma acc_make X Y a h : acc X Y h -> acc (X ++ [a]) Y (h_make a h).
  Proof. intros [H1 H2]. split; cbn; [rewrite H1|rewrite H2]; perm. Qed.
  Lemma acc_drop X Y a h : acc (X ++ [a]) Y h -> acc X Y (h_drop a h).
  Proof. intros [H1 H2]. split; cbn; [rewrite H1|rewrite H2]; perm. Qed.
  Lemma acc_set X Y k h : acc X Y h -> acc X Y (h_set k h).
  Proof. exact (fun H => H). Qed.
  Lemma acc_get X Y a c h : acc X Y h -> acc X (Y ++ block code a c) (h_get code a c h).
  Proof. intros [H1 H2]. split; cbn; [rewrite H1|rewrite H2]; perm. Qed.
  Lemma acc_free X Y a c h : acc X (Y ++ block code a c) h -> acc X Y (h_free code a c h).
  Proof. intros [H1 H2]. split; cbn; [rewrite H1|rewrite H2]; perm. Qed.
  Lemma acc_give X Y a c h : acc (X ++ [a]) (Y ++ block code a c) h -> acc X Y (h_give code a c h).
  Proof. intros [H1 H2]. split; cbn; [rewrite H1|rewrite H2]; perm. Qed.
  Lemma acc_drop_vec X Y a c h : acc (X ++ [a]) (Y ++ block code a c) h -> acc X Y (drop_vec code a c h).
  Proof. intros H. unfold drop_vec. apply acc_drop, acc_free, H. Qed.
  Lemma acc_regrow X Y a c c' h : acc X (Y ++ block code a c) h -> acc X (Y ++ block code a c') (regrow code a c c' h).
  Proof.
    intros H. unfold regrow. destruct (Z.eqb_spec c c') as [->|]; auto. apply acc_free.
    eapply acc_perm; [apply acc_get, H|reflexivity|perm].
  Qed.
  Lemma acc_self X Y a self h a' h' : acc (X ++ [a]) Y h -> h_self a self h = (a', h') -> acc (X ++ [a']) Y h'.
  Proof.
    unfold h_self. destruct self as [a1|]; intros H [= <- <-]; auto. apply acc_drop.
    eapply acc_perm; [apply acc_make, H|perm|reflexivity].
  Qed.
End Acc.

(** [copy_dim] works within the capacity of the new vector. *)
Definition cap_keeps {T C} (m : M (copying T C) unit) : Prop :=
  forall c, match m c with Done _ c' | Unwound c' => c_cap c' = c_cap c | _ => True end.
Lemma cap_seq {T C} (m : M (copying T C) unit) k : cap_keeps m -> (forall u, cap_keeps (k u)) -> cap_keeps (seqM m k).
Proof.
  intros H1 H2 c. unfold seqM. specialize (H1 c). destruct (m c) as [u c'|c'| |]; auto. specialize (H2 u c').
  destruct (k u c'); congruence.
Qed.
Lemma cap_times {T C} n (m : M (copying T C) unit) : cap_keeps m -> cap_keeps (timesM n m).
Proof. intros H. induction n; cbn [timesM]; [now intros c|]. apply cap_seq; auto. Qed.
Lemma copy_dim_cap {T C} (f : C -> call T C) old new : cap_keeps (copy_dim f old new).
Proof.
  revert new. induction old as [|o ot IH]; intros [|n nt]; cbn [copy_dim]; try (intros c; exact eq_refl).
  apply cap_seq; [|intros _; apply cap_seq; [|intros _; apply cap_times]].
  - destruct ot as [|o' ot]; [|apply cap_times, IH]. intros c. unfold copy_move. now destruct (_ && _)%bool.
  - destruct (_ <? _); [|now intros c]. intros c. unfold copy_drop. now destruct (_ <=? _).
  - intros c. unfold copy_new. destruct (f _); [|reflexivity]. now destruct (_ <? _).
Qed.

Section Sim.
  Context {T C A I K : Type} (code : acode A I K) (al : allocator).
  Hypothesis same : clone_same code.

  Notation NP := (nparts T C A I K).
  Notation OW := (own T C A I K).

  (** ** Vectors *)

  Definition vec_acc X Y (n : NP) : Prop :=
    acc (X ++ [n_a n]) (Y ++ block code (n_a n) (p_cap (n_p n))) (n_h n).
  Definition vec_keeps {B} (m : M NP B) : Prop :=
    forall X Y n, vec_acc X Y n -> match m n with Done _ n' | Unwound n' => vec_acc X Y n' | _ => True end.
  Definition p_res {B} (r : result NP B) : result (parts T C) B :=
    match r with
    | Done b n => Done b (n_p n)
    | Unwound n => Unwound (n_p n)
    | Aborted => Aborted
    | Fault => Fault
    end.

  Lemma on_vec_keeps {B} (m : M (parts T C) B) : vec_keeps (on_vec code m).
  Proof.
    intros X Y n H. unfold on_vec. destruct (m (n_p n)) as [b p|p| |]; auto; unfold vec_acc; cbn;
      apply acc_regrow, H.
  Qed.
  Lemma on_vec_res {B} (m : M (parts T C) B) n : p_res (on_vec code m n) = m (n_p n).
  Proof. unfold on_vec. destruct (m (n_p n)); reflexivity. Qed.
  Lemma seq_keeps {B D} (m : M NP B) (k : B -> M NP D) :
    vec_keeps m -> (forall b, vec_keeps (k b)) -> vec_keeps (seqM m k).
  Proof.
    intros H1 H2 X Y n H. unfold seqM. specialize (H1 X Y n H). destruct (m n) as [b n'|n'| |]; auto. apply H2, H1.
  Qed.

  Lemma self_id a k self new k' : ac_clone code a k = AGives self new k' ->
    forall (h : heap A I K) a' h', h_self a self h = (a', h') -> ac_id code a' = ac_id code a.
  Proof.
    intros E h a' h'. unfold h_self. destruct self as [a1|]; intros [= <- _]; auto. apply (@same a k a1). now rewrite E.
  Qed.
  Lemma self_id_throws a k self k' : ac_clone code a k = AThrows self k' ->
    forall (h : heap A I K) a' h', h_self a self h = (a', h') -> ac_id code a' = ac_id code a.
  Proof.
    intros E h a' h'. unfold h_self. destruct self as [a1|]; intros [= <- _]; auto. apply (@same a k a1). now rewrite E.
  Qed.
  Lemma block_id a a' c : ac_id code a' = ac_id code a -> block code a' c = block code a c.
  Proof. unfold block. now intros ->. Qed.

  Lemma resize_copy_keeps new_len new_dims f : vec_keeps (n_resize_copy code al new_len new_dims f).
  Proof.
    intros X Y n H. unfold n_resize_copy. unfold vec_acc in H.
    destruct (ac_clone code (n_a n) (h_k (n_h n))) as [self new k|self k] eqn:E.
    - destruct (h_self (n_a n) self (h_make new (h_set k (n_h n)))) as [a h] eqn:ES.
      assert (HI := self_id E ES).
      assert (HA : acc ((X ++ [a]) ++ [new]) (Y ++ block code a (p_cap (n_p n))) h).
      { apply (@acc_perm _ _ _ ((X ++ [new]) ++ [a]) _ (Y ++ block code a (p_cap (n_p n)))); [|perm|reflexivity].
        eapply acc_self; [|exact ES]. rewrite (block_id _ HI).
        eapply acc_perm; [apply acc_make, acc_set, H|perm|reflexivity]. }
      destruct (al_ok al new_len).
      + set (cap := Z.max new_len (al_grow al 0 new_len)).
        destruct (copy_dim f (p_dims (n_p n)) new_dims (mkCopy (p_items (n_p n)) [] cap (p_w (n_p n)))) as [[] c|c| |] eqn:EC;
          auto; unfold vec_acc; cbn [n_a n_p n_h p_cap].
        * apply acc_drop_vec.
          assert (EQ : c_cap c = cap) by (generalize (copy_dim_cap f (p_dims (n_p n)) new_dims (mkCopy (p_items (n_p n)) [] cap (p_w (n_p n)))); now rewrite EC).
          rewrite EQ. eapply acc_perm; [apply acc_get, HA|perm|perm].
        * assert (EQ : c_cap c = cap) by (generalize (copy_dim_cap f (p_dims (n_p n)) new_dims (mkCopy (p_items (n_p n)) [] cap (p_w (n_p n)))); now rewrite EC).
          rewrite EQ. apply acc_drop_vec. eapply acc_perm; [apply acc_get, HA|perm|perm].
      + unfold vec_acc; cbn [n_a n_p n_h]. apply acc_drop, HA.
    - destruct (h_self (n_a n) self (h_set k (n_h n))) as [a h] eqn:ES.
      assert (HI := self_id_throws E ES). unfold vec_acc. cbn [n_a n_p n_h]. rewrite (block_id _ HI).
      eapply acc_self; [apply acc_set, H|exact ES].
  Qed.

  (** ** Tensors *)

  Definition own_acc X Y (s : OW) : Prop := acc (X ++ [o_a s]) (Y ++ block code (o_a s) (tn_cap (o_t s))) (o_h s).
  Definition own_keeps {B} (m : M OW B) : Prop :=
    forall X Y s, own_acc X Y s -> match m s with Done _ s' | Unwound s' => own_acc X Y s' | _ => True end.
  Definition t_res {B} (r : result OW B) : result (tensor T * world T C) B :=
    match r with
    | Done b s => Done b (o_t s, o_w s)
    | Unwound s => Unwound (o_t s, o_w s)
    | Aborted => Aborted
    | Fault => Fault
    end.

  Lemma wmp_keeps {B} (m : shty -> M NP B) : (forall ty, vec_keeps (m ty)) -> own_keeps (n_with_mut_parts m).
  Proof.
    intros H X Y s HA. unfold n_with_mut_parts. destruct (to_vec_raw (o_t s)) as [items|]; auto.
    specialize (H (tn_ty (o_t s)) X Y (mkN (mkParts items (tn_cap (o_t s)) (tn_dims (o_t s)) (o_w s)) (o_a s) (o_h s)) HA).
    destruct (m _ _) as [b n|n| |]; auto; cbv zeta; destruct (_ =? _); auto.
  Qed.
  Lemma wmp_res {B} (mn : shty -> M NP B) (m : shty -> M (parts T C) B) s :
    (forall items, p_res (mn (tn_ty (o_t s)) (mkN (mkParts items (tn_cap (o_t s)) (tn_dims (o_t s)) (o_w s)) (o_a s) (o_h s))) =
      m (tn_ty (o_t s)) (mkParts items (tn_cap (o_t s)) (tn_dims (o_t s)) (o_w s))) ->
    with_mut_parts m (o_t s, o_w s) <> Aborted ->
    t_res (n_with_mut_parts mn s) = with_mut_parts m (o_t s, o_w s).
  Proof.
    intros H. unfold n_with_mut_parts, with_mut_parts. destruct (to_vec_raw (o_t s)) as [items|]; auto.
    rewrite <- H. destruct (mn _ _) as [b n|n| |]; auto; cbv zeta; cbn [p_res].
    - destruct (_ =? _); auto.
    - destruct (_ =? _); auto. destruct (_ =? 0); auto. congruence.
  Qed.

  Lemma check_keeps b : own_keeps (check b).
  Proof. intros X Y s H. unfold check. now destruct b. Qed.
  Lemma check_outer_keeps : own_keeps n_check_outer.
  Proof. intros X Y s H. unfold n_check_outer, check, seqM. destruct (_ <? _)%nat; auto. now destruct (head_dyn _). Qed.
  Lemma own_seq_keeps {B D} (m : M OW B) (k : B -> M OW D) :
    own_keeps m -> (forall b, own_keeps (k b)) -> own_keeps (seqM m k).
  Proof.
    intros H1 H2 X Y n H. unfold seqM. specialize (H1 X Y n H). destruct (m n) as [b n'|n'| |]; auto. apply H2, H1.
  Qed.
  Lemma ret_keeps {B} (b : B) : own_keeps (ret b).
  Proof. now intros X Y s H. Qed.

  (** The operation leaves the allocator accounted for and does to the elements what [m] does. *)
  Lemma vec_only_keeps {B} (m : shty -> M (parts T C) B) : own_keeps (n_with_mut_parts (fun ty => on_vec code (m ty))).
  Proof. apply wmp_keeps. intros ty. apply on_vec_keeps. Qed.
  Lemma vec_only_res {B} (m : shty -> M (parts T C) B) s : with_mut_parts m (o_t s, o_w s) <> Aborted ->
    t_res (n_with_mut_parts (fun ty => on_vec code (m ty)) s) = with_mut_parts m (o_t s, o_w s).
  Proof. apply wmp_res. intros items. apply on_vec_res. Qed.

  Lemma clear_keeps : own_keeps (n_clear code).
  Proof. intros X Y s H. unfold n_clear. apply own_seq_keeps; auto; [apply check_keeps|]. intros _. apply vec_only_keeps. Qed.
  Lemma truncate_keeps n : own_keeps (n_truncate code n).
  Proof.
    apply own_seq_keeps; [apply check_outer_keeps|]. intros _ X Y s H. destruct (_ <? _); auto.
    exact (vec_only_keeps _ H).
  Qed.
  Lemma expand_keeps {Y} (e : expression Y) cl : own_keeps (n_expand code al e cl).
  Proof.
    apply own_seq_keeps; [apply check_outer_keeps|]. intros _. cbv zeta. destruct (_ <? _); [apply vec_only_keeps|apply ret_keeps].
  Qed.
  Lemma resize_with_keeps dims f : own_keeps (n_resize_with code al dims f).
  Proof.
    intros X Y s H. unfold n_resize_with. apply own_seq_keeps; auto; [apply check_keeps|]. intros _.
    destruct dims as [|d dims]; [apply ret_keeps|]. destruct (sh_checked_len _) as [len|]; [|apply check_keeps].
    apply wmp_keeps. intros ty. apply seq_keeps; [|intros _; apply on_vec_keeps]. intros X' Y' n Hn.
    destruct (len =? 0); [now apply on_vec_keeps|]. destruct (slice_eqb _ _); [now apply on_vec_keeps|].
    now apply resize_copy_keeps.
  Qed.
  Lemma resize_keeps dims v cl : own_keeps (n_resize code al dims v cl).
  Proof.
    intros X Y s H. unfold n_resize. cbv zeta.
    match goal with |- match match n_resize_with _ _ _ _ ?s0 with _ => _ end with _ => _ end =>
      assert (H0 : own_acc X Y s0) by exact H; apply (resize_with_keeps dims (cl v)) in H0;
      destruct (n_resize_with code al dims (cl v) s0) as [b s'|s'| |]; auto end.
  Qed.
  Lemma on_tensor_keeps {B} (m : M (tensor T * world T C) B) :
    (forall t w, match m (t, w) with Done _ (t', _) | Unwound (t', _) => tn_cap t' = tn_cap t | _ => True end) ->
    own_keeps (on_tensor m).
  Proof.
    intros H X Y s HA. unfold on_tensor. specialize (H (o_t s) (o_w s)).
    destruct (m _) as [b [t w]|[t w]| |]; auto; unfold own_acc; cbn; now rewrite H.
  Qed.
  Lemma on_tensor_res {B} (m : M (tensor T * world T C) B) s : t_res (on_tensor m s) = m (o_t s, o_w s).
  Proof. unfold on_tensor. destruct (m _) as [b [t w]|[t w]| |]; reflexivity. Qed.

  (** Unless the process is stopped on stable, the elements do what they do there. *)
  Lemma clear_res s : tn_clear (o_t s, o_w s) <> Aborted -> t_res (n_clear code s) = tn_clear (o_t s, o_w s).
  Proof.
    unfold n_clear, tn_clear. cbn [fst]. unfold check, seqM. destruct (_ =? _); auto. apply vec_only_res.
  Qed.
  Lemma outer_res {B} (k : M OW B) (k' : M (tensor T * world T C) B) s :
    (k' (o_t s, o_w s) <> Aborted -> t_res (k s) = k' (o_t s, o_w s)) ->
    (check_outer ;;; k') (o_t s, o_w s) <> Aborted -> t_res ((n_check_outer ;;; k) s) = (check_outer ;;; k') (o_t s, o_w s).
  Proof.
    intros H. unfold n_check_outer, check_outer, check, seqM. cbn [fst]. destruct (_ <? _)%nat; auto.
    destruct (head_dyn _); auto.
  Qed.
  Lemma truncate_res n s : tn_truncate n (o_t s, o_w s) <> Aborted -> t_res (n_truncate code n s) = tn_truncate n (o_t s, o_w s).
  Proof. apply outer_res. cbn [fst]. destruct (_ <? _); auto. apply vec_only_res. Qed.
  Lemma expand_res {Y} (e : expression Y) cl s : tn_expand al e cl (o_t s, o_w s) <> Aborted ->
    t_res (n_expand code al e cl s) = tn_expand al e cl (o_t s, o_w s).
  Proof. apply outer_res. cbv zeta. destruct (_ <? _); auto. apply vec_only_res. Qed.

  (** An allocator that refuses. *)
  Definition refusing : allocator := mkAlloc (fun _ => false) (al_grow al).

  Lemma resize_copy_res new_len dims f n :
    p_res (n_resize_copy code al new_len dims f n) =
    resize_copy (match ac_clone code (n_a n) (h_k (n_h n)) with AGives _ _ _ => al | AThrows _ _ => refusing end)
      new_len dims f (n_p n).
  Proof.
    unfold n_resize_copy, resize_copy. destruct (ac_clone _ _ _) as [self new k|self k].
    - destruct (h_self _ _ _) as [a h]. destruct (al_ok al new_len); auto. destruct (copy_dim _ _ _ _); reflexivity.
    - destruct (h_self _ _ _) as [a h]. reflexivity.
  Qed.
  Lemma resize_with_res dims f s : tn_resize_with al dims f (o_t s, o_w s) <> Aborted ->
    t_res (n_resize_with code al dims f s) = tn_resize_with al dims f (o_t s, o_w s) \/
    t_res (n_resize_with code al dims f s) = tn_resize_with refusing dims f (o_t s, o_w s) /\
      tn_resize_with refusing dims f (o_t s, o_w s) <> Aborted /\ ~ clone_total code.
  Proof.
    unfold n_resize_with, tn_resize_with. cbn [fst]. unfold check, seqM at 1 3 5 7 9.
    destruct (_ =? _)%nat; [|now left]. destruct dims as [|d dims]; [now left|].
    destruct (sh_checked_len _) as [len|]; [|now left]. intros HE.
    set (br := negb (len =? 0) && negb (slice_eqb (tl (d :: dims)) (tl (tn_dims (o_t s))))).
    assert (HS : forall al', (br = true -> al' = match ac_clone code (o_a s) (h_k (o_h s)) with AGives _ _ _ => al | AThrows _ _ => refusing end) ->
      (br = false -> al' = al) ->
      with_mut_parts (fun ty =>
        (fun p => (if len =? 0 then vec_truncate 0
                   else if slice_eqb (tl (d :: dims)) (tl (p_dims p)) then vec_resize_with al' len f
                        else resize_copy al' len (d :: dims) f) p) ;;;
        p_store ty (d :: dims)) (o_t s, o_w s) <> Aborted ->
      t_res (n_with_mut_parts (fun ty =>
        (fun n => (if len =? 0 then on_vec code (vec_truncate 0)
                   else if slice_eqb (tl (d :: dims)) (tl (p_dims (n_p n))) then on_vec code (vec_resize_with al len f)
                        else n_resize_copy code al len (d :: dims) f) n) ;;;
        on_vec code (p_store ty (d :: dims))) s) =
      with_mut_parts (fun ty =>
        (fun p => (if len =? 0 then vec_truncate 0
                   else if slice_eqb (tl (d :: dims)) (tl (p_dims p)) then vec_resize_with al' len f
                        else resize_copy al' len (d :: dims) f) p) ;;;
        p_store ty (d :: dims)) (o_t s, o_w s)).
    { intros al' H1 H2 HA. apply wmp_res; auto. clear HA HE. intros items.
      assert (HP : forall (r : result NP unit) (k : M (parts T C) unit), p_res (match r with Done _ n => on_vec code k n | Unwound n => Unwound n | Aborted => Aborted | Fault => Fault end)
                     = match p_res r with Done _ p => k p | Unwound p => Unwound p | Aborted => Aborted | Fault => Fault end).
      { intros r k. destruct r; auto. apply on_vec_res. }
      unfold seqM. rewrite HP. cbn [n_p p_dims]. unfold br in H1, H2.
      destruct (len =? 0); [now rewrite on_vec_res|]. cbn [negb andb] in H1, H2.
      destruct (slice_eqb _ _); cbn [negb] in H1, H2; [rewrite on_vec_res, H2 by auto; reflexivity|].
      rewrite resize_copy_res. cbn [n_a n_h n_p]. now rewrite <- H1. }
    destruct br eqn:EB.
    - destruct (ac_clone code (o_a s) (h_k (o_h s))) as [self new k|self k] eqn:EC.
      + left. apply HS; auto.
      + right.
        match goal with |- _ = ?r /\ _ => assert (HN : r <> Aborted) end.
        { unfold with_mut_parts. destruct (to_vec_raw (o_t s)) as [items|] eqn:ER; [|discriminate].
          unfold seqM. cbn [p_dims]. unfold br in EB. destruct (len =? 0); [discriminate|].
          destruct (slice_eqb _ _); [discriminate|]. cbn [resize_copy refusing al_ok p_items p_dims].
          unfold to_vec_raw, tn_len in ER. destruct (Z.eqb_spec (zlen (tn_mem (o_t s))) (sh_len (tn_dims (o_t s)))) as [EZ|]; [|discriminate].
          injection ER as <-. rewrite EZ, Z.eqb_refl. discriminate. }
        split; [apply HS; auto; discriminate|]. split; [exact HN|].
        intros HT. specialize (HT (o_a s) (h_k (o_h s))). now rewrite EC in HT.
    - left. apply HS; auto. discriminate.
  Qed.
  Lemma resize_res dims v cl s : tn_resize al dims v cl (o_t s, o_w s) <> Aborted ->
    t_res (n_resize code al dims v cl s) = tn_resize al dims v cl (o_t s, o_w s) \/
    t_res (n_resize code al dims v cl s) = tn_resize refusing dims v cl (o_t s, o_w s) /\
      tn_resize refusing dims v cl (o_t s, o_w s) <> Aborted /\ ~ clone_total code.
  Proof.
    unfold n_resize, tn_resize. cbv zeta. cbn [fst snd]. intros HE.
    match goal with |- context[n_resize_with code al dims (cl v) ?s0] =>
      assert (HE' : tn_resize_with al dims (cl v) (o_t s0, o_w s0) <> Aborted)
        by (cbn [o_t o_w]; intros EA; rewrite EA in HE; congruence);
      destruct (@resize_with_res dims (cl v) s0 HE') as [E|(E & HX & HN)]; cbn [o_t o_w] in *;
      [left; rewrite <- E; destruct (n_resize_with code al dims (cl v) s0); reflexivity
      |right; split; [rewrite <- E; destruct (n_resize_with code al dims (cl v) s0); reflexivity|]; split; [|exact HN];
       destruct (tn_resize_with refusing dims (cl v) _) as [? [? ?]|[? ?]| |]; congruence] end.
  Qed.
End Sim.
