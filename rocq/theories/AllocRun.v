(** Programs with allocators: one step, and sequences of steps. *)
From Verif Require Import Base Spec SpecFacts Shape Mapping Index View Wf MappingFacts MapOps ReshapeFacts.
From Verif Require Import IndexFacts ViewFacts Expr ExprSpec ExprFacts Tensor TensorSpec TraceFacts TensorFacts ResizeFacts.
From Verif Require Import TensorOps ExprMore DrainFacts OwnFacts ZipFacts History HistoryFacts Alloc AllocFacts.
Unset Strict Implicit.

(** ** Capacities *)

Lemma drain_cap {T} (t : tensor T) lo hi d : tn_drain t lo hi = Ok d -> d_cap d = tn_cap t.
Proof.
  unfold tn_drain, drain_new. intros H.
  repeat match type of H with
  | bind ?x ?k = Ok _ => destruct x as [?| | |]; cbn [bind] in H; try discriminate
  | (let (_, _) := ?p in _) = Ok _ => destruct p
  end.
  injection H as <-. reflexivity.
Qed.
Lemma drain_drop_cap {T C} (d : drain T) (w : world T C) :
  match drain_drop d w with Done _ (t, _) | Unwound (t, _) => tn_cap t = d_cap d | _ => True end.
Proof.
  unfold drain_drop. destruct (_ && _)%bool; auto. destruct (sh_resize_dim _ _ _ _); auto.
  destruct (copy_cells _ _ _ _); auto. now destruct (_ <=? _).
Qed.

Section Steps.
  Context {T C A I K : Type} (code : acode A I K) (al : allocator).
  Hypothesis same : clone_same code.
  Notation ST := (nstate T C A I K).

  Lemma append_res (s : own T C A I K) other :
    tn_append al (o_t s, other, o_w s) <> Aborted ->
    match n_append code al (s, other) with
    | Done u (s, other) => Done u (o_t s, other, o_w s)
    | Unwound (s, other) => Unwound (o_t s, other, o_w s)
    | Aborted => Aborted
    | Fault => Fault
    end = tn_append al (o_t s, other, o_w s).
  Proof.
    unfold n_append, tn_append. destruct (tn_drain other Unbounded Unbounded) as [d| | |]; auto. cbv zeta.
    match goal with |- context[n_expand code al ?e ?cl ?s0] =>
      intros HA; assert (E : t_res (n_expand code al e cl s0) = tn_expand al e cl (o_t s0, o_w s0))
        by (apply expand_res; cbn [o_t o_w]; intros EA; rewrite EA in HA; congruence);
      cbn [o_t o_w] in E; rewrite <- E; destruct (n_expand code al e cl s0) as [u s'|s'| |]; auto end;
      cbn [t_res]; destruct (drain_drop _ _) as [? [? ?]|[? ?]| |]; reflexivity.
  Qed.

  Lemma append_keeps X Y (s : own T C A I K) other : own_acc code X Y s ->
    match n_append code al (s, other) with
    | Done _ (s', other') | Unwound (s', other') => own_acc code X Y s' /\ tn_cap other' = tn_cap other
    | _ => True
    end.
  Proof.
    intros H. unfold n_append. destruct (tn_drain other Unbounded Unbounded) as [d| | |] eqn:ED; auto. cbv zeta.
    apply drain_cap in ED.
    match goal with |- context[n_expand code al ?e ?cl ?s0] =>
      assert (HE : own_acc code X Y s0) by exact H; apply (expand_keeps al e cl) in HE;
      destruct (n_expand code al e cl s0) as [u s'|s'| |]; auto end;
      match goal with |- context[drain_drop ?d ?w] => pose proof (drain_drop_cap d w) as HC;
        destruct (drain_drop d w) as [? [? ?]|[? ?]| |]; auto end; cbn [d_cap] in HC; rewrite HC; auto.
  Qed.

  (** ** Variables *)

  Lemma plain_var (st : ST) i : var (plain st) i = option_map fst (nvar st i).
  Proof.
    unfold var, nvar, plain. cbn [st_vars]. rewrite nth_error_map. now destruct (nth_error (ns_vars st) i) as [[[t a]|]|].
  Qed.
  Lemma nvar_nth (st : ST) i v : nvar st i = Some v -> nth_error (ns_vars st) i = Some (Some v).
  Proof. unfold nvar. destruct (nth_error (ns_vars st) i) as [[u|]|]; congruence. Qed.
  Lemma map_upd {P Q} (f : P -> Q) l i x : map f (upd l i x) = upd (map f l) i (f x).
  Proof. revert i. induction l as [|y l IH]; intros [|i]; cbn; auto. now rewrite IH. Qed.
  Lemma plain_set (st : ST) i v w h : plain (n_set i v w h st) = set_var i (option_map fst v) w (plain st).
  Proof. unfold plain, n_set, set_var. cbn. now rewrite map_upd. Qed.

  Definition allocs' (v : option (tensor T * A)) : list A := allocs [v].
  Definition blocks' (v : option (tensor T * A)) : list (I * Z) := blocks code [v].

  Lemma allocs_upd (vars : list (option (tensor T * A))) i v : (i < length vars)%nat ->
    Permutation (allocs (upd vars i v)) (allocs (upd vars i None) ++ allocs' v).
  Proof.
    unfold allocs', allocs. cbn [flat_map]. rewrite app_nil_r.
    revert i. induction vars as [|u vars IH]; intros [|i] H; cbn in *; try lia; [perm|].
    rewrite <- app_assoc. apply Permutation_app_head. apply IH. lia.
  Qed.
  Lemma blocks_upd (vars : list (option (tensor T * A))) i v : (i < length vars)%nat ->
    Permutation (blocks code (upd vars i v)) (blocks code (upd vars i None) ++ blocks' v).
  Proof.
    unfold blocks', blocks. cbn [flat_map]. rewrite app_nil_r.
    revert i. induction vars as [|u vars IH]; intros [|i] H; cbn in *; try lia; [perm|].
    rewrite <- app_assoc. apply Permutation_app_head. apply IH. lia.
  Qed.

  Lemma open_acc (st : ST) i v : accounted code st -> nvar st i = Some v ->
    acc (allocs (upd (ns_vars st) i None) ++ allocs' (Some v)) (blocks code (upd (ns_vars st) i None) ++ blocks' (Some v))
      (ns_h st).
  Proof.
    intros H HV. apply nvar_nth in HV.
    assert (HL : (i < length (ns_vars st))%nat) by (apply nth_error_Some; congruence).
    apply (@acc_perm _ _ _ (allocs (ns_vars st)) _ (blocks code (ns_vars st))); [exact H| |].
    - rewrite <- (upd_self HV) at 1. now apply allocs_upd.
    - rewrite <- (upd_self HV) at 1. now apply blocks_upd.
  Qed.
  Lemma close_acc (st : ST) i u v w h : nvar st i = Some u ->
    acc (allocs (upd (ns_vars st) i None) ++ allocs' v) (blocks code (upd (ns_vars st) i None) ++ blocks' v) h ->
    accounted code (n_set i v w h st).
  Proof.
    intros HV H. apply nvar_nth in HV.
    assert (HL : (i < length (ns_vars st))%nat) by (apply nth_error_Some; congruence).
    refine (acc_perm H _ _); cbn [n_set ns_vars]; symmetry; [now apply allocs_upd|now apply blocks_upd].
  Qed.
  Lemma alloc1 t a : allocs' (Some (t, a)) = [a].
  Proof. reflexivity. Qed.
  Lemma block1 t a : blocks' (Some (t, a)) = block code a (tn_cap t).
  Proof. unfold blocks', blocks. cbn. apply app_nil_r. Qed.

  Definition s_res {B} (r : result ST B) : result (state T C) B :=
    match r with
    | Done b s => Done b (plain s)
    | Unwound s => Unwound (plain s)
    | Aborted => Aborted
    | Fault => Fault
    end.
  Definition st_acc {B} (r : result ST B) : Prop :=
    match r with Done _ st | Unwound st => accounted code st | _ => True end.

  Lemma on_var_keeps {B} (m : M (own T C A I K) B) (st : ST) i : accounted code st ->
    (forall t a X Y, nvar st i = Some (t, a) -> own_acc code X Y (mkOwn t a (ns_w st) (ns_h st)) ->
      match m (mkOwn t a (ns_w st) (ns_h st)) with Done _ s' | Unwound s' => own_acc code X Y s' | _ => True end) ->
    st_acc (n_on_var i m st).
  Proof.
    intros HA Hm. unfold n_on_var. destruct (nvar st i) as [[t a]|] eqn:HV; [|exact HA].
    pose proof (open_acc HA HV) as HO. rewrite alloc1, block1 in HO. specialize (Hm t a _ _ eq_refl HO).
    destruct (m _) as [b s|s| |]; cbn [st_acc]; auto; (eapply close_acc; [exact HV|]; rewrite alloc1, block1; exact Hm).
  Qed.
  Lemma on_var_res {B} (m : M (own T C A I K) B) (m' : M (tensor T * world T C) B) (st : ST) i :
    (forall t a, nvar st i = Some (t, a) -> m' (t, ns_w st) <> Aborted ->
      t_res (m (mkOwn t a (ns_w st) (ns_h st))) = m' (t, ns_w st)) ->
    on_var i m' (plain st) <> Aborted ->
    s_res (n_on_var i m st) = on_var i m' (plain st).
  Proof.
    intros H. unfold n_on_var, on_var. rewrite plain_var. destruct (nvar st i) as [[t a]|] eqn:HV; [|reflexivity].
    cbn [option_map fst plain st_w]. specialize (H t a eq_refl). intros HN.
    rewrite <- H by (intros EA; rewrite EA in HN; congruence).
    destruct (m _) as [b s|s| |]; cbn [t_res s_res]; auto; now rewrite plain_set.
  Qed.

  Lemma consume_keeps (m : tensor T -> A -> M (world T C * heap A I K) (option (tensor T * A))) (st : ST) i :
    accounted code st ->
    (forall t a X Y, acc (X ++ [a]) (Y ++ block code a (tn_cap t)) (ns_h st) ->
      match m t a (ns_w st, ns_h st) with
      | Done v (_, h) => acc (X ++ allocs' v) (Y ++ blocks' v) h
      | Unwound (_, h) => acc X Y h
      | _ => True
      end) ->
    st_acc (n_consume i m st).
  Proof.
    intros HA Hm. unfold n_consume. destruct (nvar st i) as [[t a]|] eqn:HV; [|exact HA].
    pose proof (open_acc HA HV) as HO. rewrite alloc1, block1 in HO. specialize (Hm t a _ _ HO).
    destruct (m _ _ _) as [v [w h]|[w h]| |]; cbn [st_acc]; auto; (eapply close_acc; [exact HV|]); auto.
  Qed.
  Lemma consume_res (m : tensor T -> A -> M (world T C * heap A I K) (option (tensor T * A)))
      (m' : tensor T -> M (world T C) (option (tensor T))) (st : ST) i :
    (forall t a, match m t a (ns_w st, ns_h st) with
      | Done v (w, _) => Done (option_map fst v) w
      | Unwound (w, _) => Unwound w
      | Aborted => Aborted
      | Fault => Fault
      end = m' t (ns_w st)) ->
    s_res (n_consume i m st) = consume i m' (plain st).
  Proof.
    intros H. unfold n_consume, consume. rewrite plain_var. destruct (nvar st i) as [[t a]|] eqn:HV; [|reflexivity].
    cbn [option_map fst plain st_w]. rewrite <- (H t a).
    destruct (m _ _ _) as [v [w h]|[w h]| |]; cbn [s_res]; auto; now rewrite plain_set.
  Qed.

  Lemma create_keeps (m : M (world T C * heap A I K) (tensor T * A)) (st : ST) : accounted code st ->
    (forall X Y, acc X Y (ns_h st) ->
      match m (ns_w st, ns_h st) with
      | Done (t, a) (_, h) => acc (X ++ [a]) (Y ++ block code a (tn_cap t)) h
      | Unwound (_, h) => acc X Y h
      | _ => True
      end) ->
    st_acc (n_create m st).
  Proof.
    intros HA Hm. unfold n_create. specialize (Hm _ _ HA).
    destruct (m _) as [[t a] [w h]|[w h]| |]; cbn [st_acc]; auto.
    refine (acc_perm Hm _ _); cbn [ns_vars]; unfold allocs, blocks; rewrite flat_map_app; cbn; rewrite ?app_nil_r; reflexivity.
  Qed.
  Lemma create_res (m : M (world T C * heap A I K) (tensor T * A)) (m' : M (world T C) (tensor T)) (st : ST) :
    match m (ns_w st, ns_h st) with
    | Done (t, _) (w, _) => Done t w
    | Unwound (w, _) => Unwound w
    | Aborted => Aborted
    | Fault => Fault
    end = m' (ns_w st) ->
    s_res (n_create m st) = create m' (plain st).
  Proof.
    intros H. unfold n_create, create. cbn [plain st_w]. rewrite <- H.
    destruct (m _) as [[t a] [w h]|[w h]| |]; cbn [s_res]; auto. unfold plain. cbn. now rewrite map_app.
  Qed.

  (** ** Moves *)

  Lemma kept_keeps m t a X Y (w : world T C) h :
    (forall t' w', m t w = Done t' w' -> tn_cap t' = tn_cap t) ->
    acc (X ++ [a]) (Y ++ block code a (tn_cap t)) h ->
    match n_kept code m t a (w, h) with
    | Done v (_, h) => acc (X ++ allocs' v) (Y ++ blocks' v) h
    | Unwound (_, h) => acc X Y h
    | _ => True
    end.
  Proof.
    intros HC H. unfold n_kept, with_alloc, keep_vec, seqM, ret. cbn [fst snd].
    destruct (m t w) as [t' w'|w'| |]; auto.
    - rewrite alloc1, block1, (HC t' w' eq_refl). exact H.
    - now apply acc_drop_vec.
  Qed.
  Lemma kept_res m t a (w : world T C) (h : heap A I K) :
    match n_kept code m t a (w, h) with
    | Done v (w, _) => Done (option_map fst v) w
    | Unwound (w, _) => Unwound w
    | Aborted => Aborted
    | Fault => Fault
    end = kept (m t) w.
  Proof. unfold n_kept, with_alloc, keep_vec, kept, seqM, ret. cbn [fst snd]. now destruct (m t w). Qed.
  Lemma lost_keeps m t a X Y (w : world T C) h :
    acc (X ++ [a]) (Y ++ block code a (tn_cap t)) h ->
    match n_lost code m t a (w, h) with
    | Done v (_, h) => acc (X ++ allocs' v) (Y ++ blocks' v) h
    | Unwound (_, h) => acc X Y h
    | _ => True
    end.
  Proof.
    intros H. unfold n_lost, lose_vec, seqM, ret. cbn [fst snd]. apply acc_drop_vec in H.
    destruct (m t w) as [t' w'|w'| |]; auto. cbn. now rewrite !app_nil_r.
  Qed.
  Lemma lost_res m t a (w : world T C) (h : heap A I K) :
    match n_lost code m t a (w, h) with
    | Done v (w, _) => Done (option_map fst v) w
    | Unwound (w, _) => Unwound w
    | Aborted => Aborted
    | Fault => Fault
    end = (m t ;;; ret None) w.
  Proof. unfold n_lost, lose_vec, seqM, ret. cbn [fst snd]. now destruct (m t w). Qed.

  Lemma from_parts_cap {S} ty dims (items : list T) cap (s : S) t' s' :
    from_parts ty dims items cap s = Done t' s' -> tn_cap t' = cap.
  Proof. unfold from_parts. destruct (_ =? _); [|discriminate]. now intros [= <- _]. Qed.
  Lemma into_shape_cap ty dims (t : tensor T) (w : world T C) t' w' :
    tn_into_shape ty dims t w = Done t' w' -> tn_cap t' = tn_cap t.
  Proof.
    unfold tn_into_shape, tn_into_vec, owning, lift, seqM, ret. destruct (to_vec_raw t); [|discriminate]. cbn [fst snd].
    destruct (m_reshape _ _ _); try discriminate. apply from_parts_cap.
  Qed.
  Lemma into_mapping_cap ty (t : tensor T) (w : world T C) t' w' :
    tn_into_mapping ty t w = Done t' w' -> tn_cap t' = tn_cap t.
  Proof.
    unfold tn_into_mapping, tn_into_vec, owning, lift, seqM, ret. destruct (to_vec_raw t); [|discriminate]. cbn [fst snd].
    destruct (m_remap _ _ _); try discriminate. apply from_parts_cap.
  Qed.
  Lemma into_flat_cap (t : tensor T) (w : world T C) t' w' : tn_into_flat t w = Done t' w' -> tn_cap t' = tn_cap t.
  Proof.
    unfold tn_into_flat, tn_into_vec, seqM, ret. destruct (to_vec_raw t); [|discriminate]. cbn [fst snd]. apply from_parts_cap.
  Qed.
  Lemma zip_with_cap {Y} (e : expression Y) f (t : tensor T) (w : world T C) t' w' :
    tn_zip_with e f t w = Done t' w' -> tn_cap t' = tn_cap t.
  Proof.
    unfold tn_zip_with. destruct (to_vec_raw t); [|discriminate].
    assert (HG : forall z : zipping T C, zip_guard z <> Done t' w').
    { intros z. unfold zip_guard. cbv zeta. destruct (_ <=? _); discriminate. }
    destruct (e_zip _ _); try discriminate; [|intros H; now apply HG in H].
    destruct (seqM _ _ _); try discriminate; [apply from_parts_cap|]. intros H. now apply HG in H.
  Qed.

  (** ** Creation *)

  Lemma with_capacity_keeps ty cap a X Y (w : world T C) h : acc X Y h ->
    match n_with_capacity code al ty cap a (w, h_make a h) with
    | Done (t, a) (_, h) => acc (X ++ [a]) (Y ++ block code a (tn_cap t)) h
    | Unwound (_, h) => acc X Y h
    | _ => True
    end.
  Proof.
    intros H. unfold n_with_capacity. cbn [fst snd]. destruct (tn_with_capacity al ty cap w); auto.
    - now apply acc_get, acc_make.
    - now apply acc_drop, acc_make.
  Qed.
  Lemma from_vec_keeps items cap a X Y (w : world T C) h : acc X Y h ->
    match n_from_vec code items cap a (w, h_get code a cap (h_make a h)) with
    | Done (t, a) (_, h) => acc (X ++ [a]) (Y ++ block code a (tn_cap t)) h
    | Unwound (_, h) => acc X Y h
    | _ => True
    end.
  Proof.
    intros H. unfold n_from_vec, with_alloc, keep_vec, seqM, ret. cbn [fst snd].
    assert (HA : acc (X ++ [a]) (Y ++ block code a cap) (h_get code a cap (h_make a h))) by now apply acc_get, acc_make.
    destruct (tn_from_vec items cap w) as [t w'|w'| |] eqn:E; auto.
    - apply from_parts_cap in E. now rewrite E.
    - now apply acc_drop_vec.
  Qed.
  Lemma from_expr_keeps e a X Y (w : world T C) h : acc X Y h ->
    match n_from_expr code al e a (w, h_make a h) with
    | Done (t, a) (_, h) => acc (X ++ [a]) (Y ++ block code a (tn_cap t)) h
    | Unwound (_, h) => acc X Y h
    | _ => True
    end.
  Proof.
    intros H. unfold n_from_expr. cbv zeta. destruct (_ || _)%bool; [|now apply acc_drop, acc_make].
    set (cap := if sh_len (e_dims e) =? 0 then 0 else _).
    assert (HA : vec_acc code X Y (mkN (mkParts [] cap [] w) a (h_get code a cap (h_make a h))))
      by (unfold vec_acc; cbn; now apply acc_get, acc_make).
    apply (on_vec_keeps (clone_into_vec e moved)) in HA.
    destruct (on_vec code (clone_into_vec e moved) _) as [u n|n| |]; auto.
    - unfold with_alloc, seqM, ret, from_parts. destruct (zlen (p_items (n_p n)) =? sh_len (e_dims e)); auto.
    - now apply acc_drop_vec.
  Qed.
  Lemma clone_cap cl (t : tensor T) (w : world T C) t' w' : tn_clone cl t w = Done t' w' -> tn_cap t' = zlen (tn_mem t).
  Proof.
    unfold tn_clone, to_vec_raw, tn_len. destruct (Z.eqb_spec (zlen (tn_mem t)) (sh_len (tn_dims t))) as [EZ|]; [|discriminate].
    unfold seqM. destruct (clone_items _ _ _ _) as [ys w1|w1| |]; try discriminate.
    unfold from_parts. destruct (Z.eqb_spec (zlen ys) (sh_len (tn_dims t))) as [EY|]; [|discriminate].
    intros [= <- _]. cbn. now rewrite EY, EZ.
  Qed.
  Lemma clone_keeps cl t a X Y (w : world T C) h : clone_pure code -> acc X Y h ->
    match n_clone code cl t a (w, h) with
    | Done (t, a) (_, h) => acc (X ++ [a]) (Y ++ block code a (tn_cap t)) h
    | Unwound (_, h) => acc X Y h
    | _ => True
    end.
  Proof.
    intros HP H. unfold n_clone. specialize (HP a (h_k h)).
    destruct (ac_clone code a (h_k h)) as [self new k|self k]; subst self; cbn [h_self snd]; [|exact H].
    unfold with_alloc, keep_vec, seqM, ret. cbn [fst snd].
    assert (HA : acc (X ++ [new]) (Y ++ block code new (zlen (tn_mem t))) (h_get code new (zlen (tn_mem t)) (h_make new (h_set k h))))
      by now apply acc_get, acc_make, acc_set.
    destruct (tn_clone cl t w) as [t' w'|w'| |] eqn:E; auto.
    - apply clone_cap in E. now rewrite E.
    - now apply acc_drop_vec.
  Qed.
  Lemma clone_res cl t a (w : world T C) (h : heap A I K) :
    match n_clone code cl t a (w, h) with
    | Done (t, _) (w, _) => Done t w
    | Unwound (w, _) => Unwound w
    | Aborted => Aborted
    | Fault => Fault
    end = tn_clone cl t w \/
    (match n_clone code cl t a (w, h) with
    | Done (t, _) (w, _) => Done t w
    | Unwound (w, _) => Unwound w
    | Aborted => Aborted
    | Fault => Fault
    end = Unwound w /\ ~ clone_total code).
  Proof.
    unfold n_clone. destruct (ac_clone code a (h_k h)) as [self new k|self k] eqn:E.
    - left. unfold with_alloc, keep_vec, seqM, ret. cbn [fst snd]. now destruct (tn_clone cl t w).
    - right. split; auto. intros HT. specialize (HT a (h_k h)). now rewrite E in HT.
  Qed.
  Lemma from_expr_res e a (w : world T C) (h : heap A I K) :
    match n_from_expr code al e a (w, h) with
    | Done (t, _) (w, _) => Done t w
    | Unwound (w, _) => Unwound w
    | Aborted => Aborted
    | Fault => Fault
    end = tn_from_expr al e w.
  Proof.
    unfold n_from_expr, tn_from_expr. cbv zeta. destruct (_ || _)%bool; auto.
    match goal with |- context[on_vec code ?m ?n] => pose proof (@on_vec_res T C A I K code unit m n) as HR;
      cbn [n_p] in HR; rewrite <- HR; destruct (on_vec code m n) as [u n'|n'| |] end; cbn [p_res]; auto.
    unfold with_alloc, seqM, ret, from_parts. now destruct (zlen (p_items (n_p n')) =? _).
  Qed.

  (** ** One step *)

  Lemma drained_cap lo hi k (close : drain T -> world T C -> result (tensor T * world T C) unit) t w :
    tensor_ok t -> bound_arg lo -> bound_arg hi -> nth 0 (tn_dims t) 0 <= usize_max ->
    (forall d w, match close d w with Done _ (t', _) | Unwound (t', _) => tn_cap t' = d_cap d | _ => True end) ->
    match drained_by lo hi k close (t, w) with Done _ (t', _) | Unwound (t', _) => tn_cap t' = tn_cap t | _ => True end.
  Proof.
    intros Ht Hl Hh Hd HC. destruct (drained_by_cases k close w Ht Hl Hh Hd) as [->|(a & b & HO & Ha & Hb & ->)]; auto.
    apply HC.
  Qed.

  Lemma step_keeps o (st : ST) l : accounted code st -> consistent (plain st) l -> nop_ok al o st ->
    clone_pure code \/ clones o = false -> st_acc (n_step code al o st).
  Proof.
    intros HA HC [HO _] HP. destruct o as [a o|o|i|i].
    - destruct HO as [HO _]. destruct o; try discriminate HO; cbn [n_step]; apply create_keeps; auto; intros X Y H; cbn [fst snd].
      + now apply with_capacity_keeps.
      + now apply from_vec_keeps.
      + now apply from_expr_keeps.
    - destruct HO as [HN HO]. destruct o; try discriminate HN; cbn [n_step n_do].
      + destruct (nvar st i) as [[t a]|] eqn:HV; [|exact HA]. apply create_keeps; auto. intros X Y H.
        destruct HP as [HP|HP]; [|discriminate]. now apply clone_keeps.
      + apply on_var_keeps; auto. intros t a X Y _. apply clear_keeps.
      + apply on_var_keeps; auto. intros t a X Y _. apply truncate_keeps.
      + apply on_var_keeps; auto. intros t a X Y _. apply (vec_only_keeps (fun _ => vec_reserve al n)).
      + apply on_var_keeps; auto. intros t a X Y _. apply (vec_only_keeps (fun _ => vec_try_reserve al n)).
      + apply on_var_keeps; auto. intros t a X Y _. apply (vec_only_keeps (fun _ => vec_shrink n)).
      + apply on_var_keeps; auto. intros t a X Y' _. apply expand_keeps.
      + apply on_var_keeps; auto. intros t a X Y _. apply (vec_only_keeps (fun _ => _)).
      + apply on_var_keeps; auto. intros t a X Y _. now apply resize_with_keeps.
      + apply on_var_keeps; auto. intros t a X Y _. now apply resize_keeps.
      + apply on_var_keeps; auto. intros t a X Y HV H. destruct HO as (H1 & H2 & H3).
        assert (HVP : var (plain st) i = Some t) by (rewrite plain_var, HV; reflexivity).
        unfold on_tensor. cbn [o_t o_w o_a o_h].
        pose proof (@drained_cap lo hi k drain_drop t (ns_w st) (var_ok HC HVP) H1 H2 (H3 t HVP) (@drain_drop_cap T C)) as HD.
        destruct (drained_by _ _ _ _ _) as [? [t' w']|[t' w']| |]; auto; unfold own_acc in *; cbn [o_t o_w o_a o_h] in *; now rewrite HD.
      + apply on_var_keeps; auto. intros t a X Y HV H. destruct HO as (H1 & H2 & H3).
        assert (HVP : var (plain st) i = Some t) by (rewrite plain_var, HV; reflexivity).
        unfold on_tensor. cbn [o_t o_w o_a o_h].
        match goal with |- context[drained_by lo hi k ?close _] =>
          pose proof (@drained_cap lo hi k close t (ns_w st) (var_ok HC HVP) H1 H2 (H3 t HVP)) as HD end.
        destruct (drained_by _ _ _ _ _) as [? [t' w']|[t' w']| |]; auto; unfold own_acc in *; cbn [o_t o_w o_a o_h] in *;
          (rewrite HD; [exact H|]); intros d w; unfold drain_leak; destruct (_ <=? _); auto.
      + destruct (nvar st j) as [[u b]|] eqn:HU; [|exact HA].
        apply on_var_keeps; auto. intros t a X Y _. apply (vec_only_keeps (fun _ => _)).
      + destruct (nvar st i) as [[t a]|] eqn:HV; [|exact HA]. destruct (nvar st j) as [[u b]|] eqn:HU; [|exact HA].
        pose proof (open_acc HA HV) as H. rewrite alloc1, block1 in H.
        assert (H0 : own_acc code (allocs (upd (ns_vars st) i None)) (blocks code (upd (ns_vars st) i None)) (mkOwn t a (ns_w st) (ns_h st))) by exact H.
        apply (append_keeps u) in H0. cbn [op_ok] in HO.
        assert (G : forall s' u', own_acc code (allocs (upd (ns_vars st) i None)) (blocks code (upd (ns_vars st) i None)) s' ->
          tn_cap u' = tn_cap u ->
          accounted code (n_set j (Some (u', b)) (o_w s') (o_h s') (n_set i (Some (o_t s', o_a s')) (o_w s') (o_h s') st))).
        { intros s' u' HS HCU.
          assert (HU' : nvar (n_set i (Some (o_t s', o_a s')) (o_w s') (o_h s') st) j = Some (u, b)).
          { unfold nvar, n_set. cbn [ns_vars]. rewrite nth_error_upd_other by auto. now rewrite (nvar_nth HU). }
          apply (close_acc _ HU'). rewrite alloc1, block1, HCU, <- (alloc1 u b), <- block1.
          apply (open_acc (st := n_set i (Some (o_t s', o_a s')) (o_w s') (o_h s') st)); auto.
          apply (close_acc _ HV). rewrite alloc1, block1. exact HS. }
        destruct (n_append code al _) as [? [s' u']|[s' u']| |]; cbn [st_acc]; auto; destruct H0; auto.
      + apply consume_keeps; auto. intros t a X Y. apply kept_keeps. apply into_shape_cap.
      + apply consume_keeps; auto. intros t a X Y. apply kept_keeps. apply into_mapping_cap.
      + apply consume_keeps; auto. intros t a X Y. apply kept_keeps. apply into_flat_cap.
      + apply consume_keeps; auto. intros t a X Y'. apply kept_keeps. apply zip_with_cap.
      + apply consume_keeps; auto. intros t a X Y. apply kept_keeps. unfold tn_map. apply zip_with_cap.
      + apply consume_keeps; auto. intros t a X Y. apply lost_keeps.
      + apply consume_keeps; auto. intros t a X Y. apply lost_keeps.
      + apply consume_keeps; auto. intros t a X Y. apply lost_keeps.
    - apply consume_keeps; auto. intros t a X Y H. unfold tn_into_vec. destruct (to_vec_raw t); cbn; auto.
      rewrite !app_nil_r. now apply acc_give.
    - apply consume_keeps; auto. intros t a X Y H. unfold tn_into_vec. destruct (to_vec_raw t); cbn; auto.
      unfold from_parts. destruct (_ =? _); auto. cbn. rewrite ?app_nil_r. exact H.
  Qed.

  Lemma step_res o (st : ST) : nop_ok al o st ->
    s_res (n_step code al o st) = plain_step al o (plain st) \/
    (~ clone_total code /\
     (s_res (n_step code al o st) = Done tt (plain st) \/
      s_res (n_step code al o st) = plain_step (refusing al) o (plain st) /\ plain_step (refusing al) o (plain st) <> Aborted)).
  Proof.
    intros [HO HB]. destruct o as [a o|o|i|i]; cbn [plain_step] in *.
    - left. destruct HO as [HO _]. destruct o; try discriminate HO; cbn [n_step step]; apply create_res; cbn [fst snd].
      + unfold n_with_capacity. cbn [fst snd]. now destruct (tn_with_capacity _ _ _ _).
      + unfold n_from_vec, with_alloc, keep_vec, seqM, ret. cbn [fst snd]. now destruct (tn_from_vec _ _ _).
      + apply from_expr_res.
    - destruct HO as [HN HO]. destruct o; try discriminate HN; cbn [n_step n_do step] in *.
      + rewrite plain_var in *. destruct (nvar st i) as [[t a]|] eqn:HV; [|now left]. cbn [option_map fst] in *.
        destruct (clone_res clone t a (ns_w st) (ns_h st)) as [E|[E HT]].
        * left. now apply create_res.
        * right. split; auto. left. rewrite (create_res (m' := fun w => Unwound w)) by exact E. reflexivity.
      + left. apply on_var_res; auto. intros t a _ HE. now apply clear_res.
      + left. apply on_var_res; auto. intros t a _ HE. now apply truncate_res.
      + left. apply on_var_res; auto. intros t a _ HE. now apply vec_only_res.
      + left. apply on_var_res; auto. intros t a _ HE. now apply vec_only_res.
      + left. apply on_var_res; auto. intros t a _ HE. now apply vec_only_res.
      + left. apply on_var_res; auto. intros t a _ HE. now apply expand_res.
      + left. apply on_var_res; auto. intros t a _ HE. now apply vec_only_res.
      + unfold n_on_var, on_var in *. rewrite plain_var in *. destruct (nvar st i) as [[t a]|] eqn:HV; [|now left].
        cbn [option_map fst plain st_w] in *.
        destruct (@resize_with_res T C A I K code al dims f (mkOwn t a (ns_w st) (ns_h st))) as [E|(E & EN & HT)];
          cbn [o_t o_w] in *; [intros EA; now rewrite EA in HB| |].
        * left. rewrite <- E. destruct (n_resize_with _ _ _ _ _); cbn [t_res s_res]; auto; now rewrite plain_set.
        * right. split; auto. right. rewrite <- E in *.
          destruct (n_resize_with _ _ _ _ _); cbn [t_res s_res] in *; rewrite ?plain_set; split; auto; try discriminate.
      + unfold n_on_var, on_var in *. rewrite plain_var in *. destruct (nvar st i) as [[t a]|] eqn:HV; [|now left].
        cbn [option_map fst plain st_w] in *.
        destruct (@resize_res T C A I K code al dims value clone (mkOwn t a (ns_w st) (ns_h st))) as [E|(E & EN & HT)];
          cbn [o_t o_w] in *; [intros EA; now rewrite EA in HB| |].
        * left. rewrite <- E. destruct (n_resize _ _ _ _ _ _); cbn [t_res s_res]; auto; now rewrite plain_set.
        * right. split; auto. right. rewrite <- E in *.
          destruct (n_resize _ _ _ _ _ _); cbn [t_res s_res] in *; rewrite ?plain_set; split; auto; try discriminate.
      + left. apply on_var_res; auto. intros t a _ HE. apply on_tensor_res.
      + left. apply on_var_res; auto. intros t a _ HE. apply on_tensor_res.
      + left. rewrite plain_var in *. destruct (nvar st j) as [[u b]|]; [|reflexivity]. cbn [option_map fst] in *.
        apply on_var_res; auto. intros t a _ HE. now apply vec_only_res.
      + left. rewrite !plain_var in *. destruct (nvar st i) as [[t a]|] eqn:HV; [|reflexivity].
        destruct (nvar st j) as [[u b]|]; [|reflexivity]. cbn [option_map fst plain st_w] in *.
        pose proof (@append_res (mkOwn t a (ns_w st) (ns_h st)) u) as HR. cbn [o_t o_w] in HR.
        rewrite <- HR by (intros EA; now rewrite EA in HB). clear HR.
        destruct (n_append code al _) as [? [s' u']|[s' u']| |]; cbn [s_res]; auto; now rewrite !plain_set.
      + left. apply consume_res. intros t a. apply kept_res.
      + left. apply consume_res. intros t a. apply kept_res.
      + left. apply consume_res. intros t a. apply kept_res.
      + left. apply consume_res. intros t a. apply kept_res.
      + left. apply consume_res. intros t a. apply kept_res.
      + left. apply consume_res. intros t a. rewrite lost_res. unfold seqM, ret. destruct (it_nexts _ _) as [[xs it]| | |]; reflexivity.
      + left. apply consume_res. intros t a. rewrite lost_res. unfold seqM, ret. now destruct (tn_into_scalar t (ns_w st)).
      + left. apply consume_res. intros t a. now rewrite lost_res.
    - left. apply consume_res. intros t a. unfold tn_into_vec, seqM, ret. now destruct (to_vec_raw t).
    - left. apply consume_res. intros t a. unfold tn_into_vec, kept, seqM, ret, from_parts. destruct (to_vec_raw t); auto.
      cbn [fst snd]. now destruct (_ =? _).
  Qed.

  Lemma plain_step_ok al' o (st : state T C) l : consistent st l ->
    match o with Put _ o | Do o => op_ok o st | _ => True end ->
    match plain_step al' (o : nop T C A) st with
    | Done _ st' => exists more, consistent st' (l ++ more) /\ within more (n_leak o)
    | Aborted => bad_default st
    | _ => False
    end.
  Proof.
    intros HC HO. destruct o as [a o|o|i|i]; cbn [plain_step n_leak].
    - now apply step_ok.
    - now apply step_ok.
    - apply consume_step; auto. intros t R HV Ht HB. exists []. split; [cbn; lia|]. unfold tn_into_vec.
      rewrite (to_vec_ok Ht). cbn [seqM ret fst snd]. split; auto. unfold balanced, w_uses in *. cbn [w_made w_used w_dropped].
      rewrite HB. cbn [app]. rewrite app_nil_r. perm.
    - apply keep_step; auto. intros t R HV Ht HB. unfold tn_into_vec. rewrite (to_vec_ok Ht). cbn [seqM ret fst snd].
      unfold from_parts. pose proof (to_vec_ok Ht) as HT. unfold to_vec_raw, tn_len in HT.
      destruct (_ =? _) eqn:E; [|discriminate].
      cbn [opost tn_mem]. split; [|exact HB]. now destruct t.
  Qed.

  Theorem n_step_ok o (st : ST) l : accounted code st -> consistent (plain st) l -> nop_ok al o st ->
    clone_pure code \/ clones o = false ->
    exists st' more, n_step code al o st = Done tt st' /\ accounted code st' /\
      consistent (plain st') (l ++ more) /\ within more (n_leak o) /\
      (clone_total code -> plain_step al o (plain st) = Done tt (plain st')).
  Proof.
    intros HA HC HO HP. pose proof (step_keeps HA HC HO HP) as HK. destruct (step_res HO) as [E|[HT E]].
    - destruct HO as [HO HB].
      assert (HO' : match o with Put _ o | Do o => op_ok o (plain st) | _ => True end) by (destruct o; auto; apply HO).
      pose proof (@plain_step_ok al o (plain st) l HC HO') as H. rewrite <- E in H, HB.
      destruct (n_step code al o st) as [[] st'|st'| |]; cbn [s_res st_acc] in *; try contradiction.
      destruct H as (more & H1 & H2). exists st', more. repeat split; auto; try apply H1; apply HK.
    - assert (H : exists st', n_step code al o st = Done tt st' /\ exists more, consistent (plain st') (l ++ more) /\ within more (n_leak o)).
      { destruct E as [E|[E EN]].
        - destruct (n_step code al o st) as [[] st'|st'| |]; cbn [s_res] in *; try discriminate. assert (EP : plain st' = plain st) by congruence.
          exists st'. split; auto. exists []. rewrite app_nil_r, EP. split; auto. unfold within. destruct (n_leak o); cbn; auto; lia.
        - assert (HO' : match o with Put _ o | Do o => op_ok o (plain st) | _ => True end) by (destruct o; auto; apply HO).
          pose proof (@plain_step_ok (refusing al) o (plain st) l HC HO') as H. rewrite <- E in H, EN.
          destruct (n_step code al o st) as [[] st'|st'| |]; cbn [s_res st_acc] in *; try contradiction. exists st'. auto. }
      destruct H as (st' & ES & more & H1 & H2). rewrite ES in HK. exists st', more. repeat split; auto; try apply H1; try apply HK.
      intros H3. contradiction.
  Qed.

  Theorem n_run_ok ops (st : ST) l : accounted code st -> consistent (plain st) l -> nops_ok code al ops st ->
    clone_pure code \/ Forall (fun o => clones o = false) ops ->
    exists st' more, n_run code al ops st = Done tt st' /\ accounted code st' /\
      consistent (plain st') (l ++ more) /\ within more (n_leaks ops) /\
      (clone_total code -> plain_run al ops (plain st) = Done tt (plain st')).
  Proof.
    revert st l. induction ops as [|o ops IH]; intros st l HA HC HO HP; cbn [n_run plain_run n_leaks].
    - exists st, []. rewrite app_nil_r. cbn. auto.
    - destruct HO as [HO HS].
      assert (HP1 : clone_pure code \/ clones o = false) by (destruct HP as [|HP]; auto; right; now inversion HP).
      assert (HP2 : clone_pure code \/ Forall (fun o => clones o = false) ops) by (destruct HP as [|HP]; auto; right; now inversion HP).
      destruct (n_step_ok HA HC HO HP1) as (st1 & m1 & E1 & HA1 & HC1 & HW1 & HT1).
      destruct (IH st1 _ HA1 HC1 (HS st1 E1) HP2) as (st2 & m2 & E2 & HA2 & HC2 & HW2 & HT2).
      exists st2, (m1 ++ m2). unfold seqM. rewrite E1. split; auto. split; auto. rewrite app_assoc. split; auto. split.
      + unfold within in *. destruct (n_leak o), (n_leaks ops); auto. rewrite app_length. lia.
      + intros HT. now rewrite (HT1 HT), (HT2 HT).
  Qed.
End Steps.

(** ** Which allocator a tensor has *)

Section Silent.
  Context {T C A I K : Type} (code : acode A I K) (al : allocator).
  Notation OW := (own T C A I K).

  (** Nothing happened to allocator values; memory may have been allocated and freed. *)
  Definition quiet (h h' : heap A I K) : Prop :=
    h_k h' = h_k h /\ h_made h' = h_made h /\ h_given h' = h_given h /\ h_dropped h' = h_dropped h.
  Lemma quiet_refl h : quiet h h.
  Proof. now repeat split. Qed.
  Lemma quiet_trans h1 h2 h3 : quiet h1 h2 -> quiet h2 h3 -> quiet h1 h3.
  Proof. unfold quiet. intuition congruence. Qed.
  Lemma quiet_regrow a c c' h : quiet h (regrow code a c c' h).
  Proof. unfold regrow. destruct (_ =? _); now repeat split. Qed.

  Definition silent {B} (m : M OW B) : Prop :=
    forall s, match m s with Done _ s' | Unwound s' => o_a s' = o_a s /\ quiet (o_h s) (o_h s') | _ => True end.
  Lemma silent_wmp {B} (m : shty -> M (parts T C) B) : silent (n_with_mut_parts (fun ty => on_vec code (m ty))).
  Proof.
    intros s. unfold n_with_mut_parts. destruct (to_vec_raw (o_t s)) as [items|]; auto. unfold on_vec. cbn [n_p n_a n_h].
    destruct (m _ _) as [b p|p| |]; auto; cbv zeta; cbn [n_p n_a n_h]; destruct (_ =? _); cbn [o_a o_h]; auto using quiet_regrow.
  Qed.
  Lemma silent_check b : silent (check b).
  Proof. intros s. unfold check. destruct b; auto using quiet_refl. Qed.
  Lemma silent_seq {B D} (m : M OW B) (k : B -> M OW D) : silent m -> (forall b, silent (k b)) -> silent (seqM m k).
  Proof.
    intros H1 H2 s. unfold seqM. specialize (H1 s). destruct (m s) as [b s'|s'| |]; auto.
    specialize (H2 b s'). destruct (k b s') as [? s2|s2| |]; auto; destruct H1, H2; split; try congruence; eauto using quiet_trans.
  Qed.
  Lemma silent_ret {B} (b : B) : silent (ret b).
  Proof. intros s. cbn. auto using quiet_refl. Qed.
  Lemma silent_outer : silent n_check_outer.
  Proof. intros s. unfold n_check_outer, check, seqM. destruct (_ <? _)%nat; auto using quiet_refl. destruct (head_dyn _); auto using quiet_refl. Qed.
  Lemma silent_clear : silent (n_clear code).
  Proof.
    intros s. unfold n_clear. match goal with |- match ?m s with _ => _ end => assert (H : silent m); [|exact (H s)] end.
    apply silent_seq; [apply silent_check|]. intros _. apply silent_wmp.
  Qed.
  Lemma silent_truncate n : silent (n_truncate code n).
  Proof.
    apply silent_seq; [apply silent_outer|]. intros _ s. destruct (_ <? _); [|auto using quiet_refl].
    match goal with |- match ?m s with _ => _ end => assert (H : silent m); [|exact (H s)] end. apply silent_wmp.
  Qed.
  Lemma silent_expand {Y} (e : expression Y) cl : silent (n_expand code al e cl).
  Proof.
    apply silent_seq; [apply silent_outer|]. intros _. cbv zeta. destruct (_ <? _); [apply silent_wmp|apply silent_ret].
  Qed.
  Lemma silent_tensor {B} (m : M (tensor T * world T C) B) : silent (on_tensor m).
  Proof. intros s. unfold on_tensor. destruct (m _) as [b [t w]|[t w]| |]; auto using quiet_refl. Qed.

End Silent.

Section Which.
  Context {T C A I K : Type} (code : acode A I K) (al : allocator).
  Notation ST := (nstate T C A I K).
  Notation OW := (own T C A I K).

  (** The allocators of the variables stay. *)
  Definition stays (st st' : ST) : Prop :=
    quiet (ns_h st) (ns_h st') /\ (forall i t' a, nvar st' i = Some (t', a) -> exists t, nvar st i = Some (t, a)).
  Lemma stays_refl st : stays st st.
  Proof. split; [apply quiet_refl|]. eauto. Qed.

  Lemma nvar_set (st : ST) i v w h j u : nvar (n_set i v w h st) j = Some u -> (i = j /\ v = Some u) \/ (i <> j /\ nvar st j = Some u).
  Proof.
    unfold nvar, n_set. cbn [ns_vars]. destruct (Nat.eq_dec i j) as [<-|NE]; [|rewrite nth_error_upd_other by auto; auto].
    intros H. left. split; auto. revert H. generalize (ns_vars st). intros l. revert i.
    induction l as [|x l IH]; intros [|i]; cbn; try discriminate; [|apply IH]. intros H. destruct v; congruence.
  Qed.
  Lemma on_var_stays {B} (m : M OW B) i (st st' : ST) : silent m -> n_on_var i m st = Done tt st' -> stays st st'.
  Proof.
    intros HS. unfold n_on_var. destruct (nvar st i) as [[t a]|] eqn:HV; [|intros [= <-]; apply stays_refl].
    specialize (HS (mkOwn t a (ns_w st) (ns_h st))).
    destruct (m _) as [b s|s| |]; try discriminate; intros [= <-]; destruct HS as [HA HQ]; (split; [exact HQ|]);
      intros j t' a' HN; apply nvar_set in HN; destruct HN as [[<- [= E1 E2]]|[_ HN]]; eauto; exists t; cbn [o_a] in HA; congruence.
  Qed.

  Definition lasting (o : op T C) : bool :=
    match o with Clone _ _ | ResizeWith _ _ _ | Resize _ _ _ _ => false
    | IntoShape _ _ _ | IntoMapping _ _ | IntoFlat _ | ZipWith _ _ _ | Map _ _ | Iterate _ _ | IntoScalar _ | Drop _ => false
    | _ => true end.

  (** Operations on [&mut self] other than resizing do nothing with allocators. *)
  Lemma do_stays o (st st' : ST) : creates o = false -> lasting o = true -> n_do code al o st = Done tt st' -> stays st st'.
  Proof.
    intros HN HL. destruct o; try discriminate HN; try discriminate HL; cbn [n_do].
    - apply on_var_stays, silent_clear.
    - apply on_var_stays, silent_truncate.
    - apply on_var_stays, (silent_wmp code (fun _ => vec_reserve al n)).
    - apply on_var_stays, (silent_wmp code (fun _ => vec_try_reserve al n)).
    - apply on_var_stays, (silent_wmp code (fun _ => vec_shrink n)).
    - apply on_var_stays, silent_expand.
    - apply on_var_stays, (silent_wmp code (fun _ => _)).
    - apply on_var_stays, silent_tensor.
    - apply on_var_stays, silent_tensor.
    - destruct (nvar st j) as [[u b]|]; [|intros [= <-]; apply stays_refl]. apply on_var_stays, (silent_wmp code (fun _ => _)).
    - destruct (nvar st i) as [[t a]|] eqn:HV; [|intros [= <-]; apply stays_refl].
      destruct (nvar st j) as [[u b]|] eqn:HU; [|intros [= <-]; apply stays_refl].
      assert (H : match n_append code al (mkOwn t a (ns_w st) (ns_h st), u) with
                  | Done _ (s', _) | Unwound (s', _) => o_a s' = a /\ quiet (ns_h st) (o_h s')
                  | _ => True end).
      { unfold n_append. destruct (tn_drain _ _ _) as [d| | |]; auto using quiet_refl. cbv zeta.
        match goal with |- context[n_expand code al ?e ?cl ?s0] =>
          pose proof (@silent_expand T Z A I K code al _ e cl s0) as HE;
          destruct (n_expand code al e cl s0) as [u' s'|s'| |]; auto end.
        all: destruct (drain_drop _ _) as [? [? ?]|[? ?]| |]; auto. }
      destruct (n_append code al _) as [? [s' u']|[s' u']| |]; try discriminate; intros [= <-]; destruct H as [HA HQ];
        (split; [exact HQ|]); intros k t' a' HK; apply nvar_set in HK; destruct HK as [[<- [= E1 E2]]|[_ HK]]; subst;
        try (exists u; congruence); apply nvar_set in HK; destruct HK as [[<- [= E1 E2]]|[_ HK]]; eauto; exists t; congruence.
  Qed.

  (** A move leaves the tensor with its allocator; if it panics, or consumes the tensor, the allocator is dropped once. *)
  Lemma kept_moves m i (st st' : ST) : n_consume i (n_kept code m) st = Done tt st' ->
    h_k (ns_h st') = h_k (ns_h st) /\ h_made (ns_h st') = h_made (ns_h st) /\ h_given (ns_h st') = h_given (ns_h st) /\
    (forall j t' a, nvar st' j = Some (t', a) -> exists t, nvar st j = Some (t, a)).
  Proof.
    unfold n_consume. destruct (nvar st i) as [[t a]|] eqn:HV; [|intros [= <-]; eauto 7].
    unfold n_kept, with_alloc, keep_vec, seqM, ret. cbn [fst snd].
    destruct (m t (ns_w st)) as [t1 w1|w1| |]; try discriminate; intros [= <-]; repeat (split; [reflexivity|]);
      intros j t' a' HN; apply nvar_set in HN; destruct HN as [[<- E]|[_ HN]]; eauto; try discriminate.
    injection E as _ <-. eauto.
  Qed.
  Lemma lost_moves m i (st st' : ST) : n_consume i (n_lost code m) st = Done tt st' ->
    h_k (ns_h st') = h_k (ns_h st) /\ h_made (ns_h st') = h_made (ns_h st) /\ h_given (ns_h st') = h_given (ns_h st) /\
    (forall j t' a, nvar st' j = Some (t', a) -> exists t, nvar st j = Some (t, a)).
  Proof.
    unfold n_consume. destruct (nvar st i) as [[t a]|] eqn:HV; [|intros [= <-]; eauto 7].
    unfold n_lost, lose_vec, seqM, ret. cbn [fst snd].
    destruct (m t (ns_w st)) as [t1 w1|w1| |]; try discriminate; intros [= <-]; repeat (split; [reflexivity|]);
      intros j t' a' HN; apply nvar_set in HN; destruct HN as [[<- E]|[_ HN]]; eauto; discriminate.
  Qed.

  (** No call of [A::clone], no new allocator value. *)
  Lemma do_moves o (st st' : ST) : creates o = false -> lasting o = false ->
    match o with Clone _ _ | ResizeWith _ _ _ | Resize _ _ _ _ => False | _ => True end ->
    n_do code al o st = Done tt st' ->
    h_k (ns_h st') = h_k (ns_h st) /\ h_made (ns_h st') = h_made (ns_h st) /\ h_given (ns_h st') = h_given (ns_h st) /\
    (forall j t' a, nvar st' j = Some (t', a) -> exists t, nvar st j = Some (t, a)).
  Proof.
    intros HN HL HX. destruct o; try discriminate HN; try discriminate HL; try contradiction HX; cbn [n_do];
      first [apply kept_moves|apply lost_moves].
  Qed.

  (** Resizing: the tensor keeps its allocator or has the clone that the call gave. *)
  Definition own_or_clone (s s' : OW) : Prop :=
    (o_a s' = o_a s /\ h_k (o_h s') = h_k (o_h s)) \/
    match ac_clone code (o_a s) (h_k (o_h s)) with
    | AGives _ new k => (o_a s' = o_a s \/ o_a s' = new) /\ h_k (o_h s') = k
    | AThrows _ k => o_a s' = o_a s /\ h_k (o_h s') = k
    end.
  Lemma regrow_k a c c' (h : heap A I K) : h_k (regrow code a c c' h) = h_k h.
  Proof. unfold regrow. now destruct (_ =? _). Qed.
  Lemma resize_clones dims f (s : OW) : clone_pure code ->
    match n_resize_with code al dims f s with Done _ s' | Unwound s' => own_or_clone s s' | _ => True end.
  Proof.
    intros HP. unfold n_resize_with, check, seqM at 1. destruct (_ =? _)%nat; [|now left]. destruct dims as [|d dims]; [now left|].
    destruct (sh_checked_len _) as [len|]; [|now left].
    unfold n_with_mut_parts. destruct (to_vec_raw (o_t s)) as [items|]; auto.
    set (n0 := mkN _ (o_a s) (o_h s)).
    assert (HV : match ((fun n => (if len =? 0 then on_vec code (vec_truncate 0)
                            else if slice_eqb (tl (d :: dims)) (tl (p_dims (n_p n)))
                                 then on_vec code (vec_resize_with al len f)
                                 else n_resize_copy code al len (d :: dims) f) n) ;;;
                 on_vec code (p_store (tn_ty (o_t s)) (d :: dims))) n0 with
                 | Done _ n | Unwound n => forall t w, own_or_clone s (mkOwn t (n_a n) w (n_h n)) | _ => True end).
    { assert (HO : forall (m : M (parts T C) unit) n, (forall t w, own_or_clone s (mkOwn t (n_a n) w (n_h n))) ->
        match on_vec code m n with Done _ n | Unwound n => forall t w, own_or_clone s (mkOwn t (n_a n) w (n_h n)) | _ => True end).
      { intros m n H. unfold on_vec. destruct (m (n_p n)); auto; intros t w; specialize (H t w); revert H;
          unfold own_or_clone; cbn [o_a o_h n_a n_h]; now rewrite regrow_k. }
      assert (H0 : forall t w, own_or_clone s (mkOwn t (n_a n0) w (n_h n0))) by (intros t w; now left).
      unfold seqM.
      assert (H1 : match (if len =? 0 then on_vec code (vec_truncate 0)
                            else if slice_eqb (tl (d :: dims)) (tl (p_dims (n_p n0)))
                                 then on_vec code (vec_resize_with al len f)
                                 else n_resize_copy code al len (d :: dims) f) n0 with
                   | Done _ n | Unwound n => forall t w, own_or_clone s (mkOwn t (n_a n) w (n_h n)) | _ => True end).
      { destruct (len =? 0); [now apply HO|]. destruct (slice_eqb _ _); [now apply HO|].
        unfold n_resize_copy. subst n0. cbn [n_p n_a n_h]. pose proof (HP (o_a s) (h_k (o_h s))) as HPS.
        destruct (ac_clone code (o_a s) (h_k (o_h s))) as [self new k|self k] eqn:EC; subst self; cbn [h_self].
        - assert (G : forall a h, (a = o_a s \/ a = new) -> h_k h = k -> forall t w, own_or_clone s (mkOwn t a w h)).
          { intros a h HA HK t w. right. rewrite EC. cbn [o_a o_h]. auto. }
          destruct (al_ok al len); [|now apply G; auto]. destruct (copy_dim _ _ _ _); auto; now apply G; auto.
        - intros t w. right. rewrite EC. cbn [o_a o_h]. auto. }
      match type of H1 with match ?r with _ => _ end => destruct r as [u n|n| |] end; auto. now apply HO. }
    match type of HV with match ?r with _ => _ end => destruct r as [u n|n| |] end; auto; cbv zeta; destruct (_ =? _); auto.
  Qed.
End Which.
