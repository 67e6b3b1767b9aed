(** Theorems for C57: destructors of elements that panic.

    [dtor x c] is the destructor of the element [x]: it may change what the program has captured and
    may panic ([Throws]).  The operations are those of Dtor.v, whose names end in [_d].  [Unwound] is
    a panic that the program catches, [Aborted] the end of the process, [Fault] undefined behaviour.
    [w_dropped] are the elements whose destructor was called.  [panics dtor xs c] calls the
    destructors of [xs] in order and counts the panics; [after_drops] below is the world when that has
    been done. *)
From Verif Require Import Base Spec SpecFacts Shape Mapping Index View Wf MappingFacts MapOps
  ReshapeFacts IndexFacts ViewFacts ViewMore PropsView.
From Verif Require Import Expr ExprSpec ExprFacts IterFacts SourceFacts ExprTree ExprMore PropsExpr.
From Verif Require Import Tensor TraceFacts TensorSpec TensorFacts ResizeFacts TensorOps DrainFacts OwnFacts
  ZipFacts OwnMore History HistoryFacts OwnProps PropsTensor Dtor DtorFacts.
Unset Strict Implicit.

Definition after_drops {T C} (dtor : T -> C -> call unit C) (xs : list T) (w : world T C) : world T C :=
  mkWorld (snd (panics dtor xs (w_clo w))) (w_made w) (w_used w) (w_dropped w ++ xs).

(** One panic is passed on after all other elements were dropped; a second one ends the process. *)
Definition dropped {T C S} (dtor : T -> C -> call unit C) (xs : list T) (w : world T C) (k : world T C -> S) : result S unit :=
  match fst (panics dtor xs (w_clo w)) with
  | O => Done tt (k (after_drops dtor xs w))
  | 1%nat => Unwound (k (after_drops dtor xs w))
  | _ => Aborted
  end.
Definition dropped_unwinding {T C S A} (dtor : T -> C -> call unit C) (xs : list T) (w : world T C) (k : world T C -> S) : result S A :=
  match fst (panics dtor xs (w_clo w)) with
  | O => Unwound (k (after_drops dtor xs w))
  | _ => Aborted
  end.
Lemma dropping_dropped {T C S} dtor xs (w : world T C) (k : world T C -> S) :
  dropping dtor xs w tt k = dropped dtor xs w k.
Proof. apply dropping_panics. Qed.
Lemma unwinding_dropped {T C S A} dtor xs (w : world T C) (k : world T C -> S) :
  unwinding (A := A) dtor xs w k = dropped_unwinding dtor xs w k.
Proof. apply unwinding_panics. Qed.

(** ** C57 *)

(** Any program, with any destructors: no undefined behaviour; afterwards every tensor is consistent
    and every element that was made is in a tensor, given away, or was dropped, and its destructor was
    called once, apart from the elements leaked as in C36.  The process is only ended when a
    destructor panics, or for the reason given in C49. *)
Theorem c57_history : forall T C (dtor : T -> C -> call unit C) al (ops : list (op T C)) c,
  ops_ok_d dtor al ops (start c) ->
  match run_ops_d dtor al ops (start c) with
  | Done _ st =>
      (forall i t, var st i = Some t ->
         nonneg (tn_dims t) /\ typed (tn_ty t) (tn_dims t) /\
         zlen (tn_mem t) = prodZ (tn_dims t) /\ zlen (tn_mem t) <= tn_cap t) /\
      exists leaked,
        Permutation (w_made (st_w st)) (held (st_vars st) ++ leaked ++ w_used (st_w st) ++ w_dropped (st_w st)) /\
        within leaked (leak_limits ops) /\
        (NoDup (w_made (st_w st)) -> NoDup (held (st_vars st) ++ leaked ++ w_used (st_w st) ++ w_dropped (st_w st)))
  | Aborted =>
      (exists x c1 c2, dtor x c1 = Throws c2) \/
      exists ops1 ops2 st i t, ops = ops1 ++ ops2 /\ run_ops_d dtor al ops1 (start c) = Done tt st /\
        var st i = Some t /\ prodZ (sh_default (tn_ty t)) <> 0
  | _ => False
  end.
Proof.
  intros T C dtor al ops c HO. pose proof (@run_ok_d T C dtor al ops (start c) []) as H.
  assert (H0 : consistent (start (T := T) c) []) by (split; [constructor|cbn; constructor]).
  specialize (H H0 HO). destruct (run_ops_d dtor al ops (start c)) as [[] st|st| |]; auto.
  - destruct H as (more & HC & HW). split.
    + intros i t HV. pose proof (var_ok HC HV) as Ht.
      split; [apply (to_nonneg Ht)|]. split; [apply (to_typed Ht)|]. split; [apply (to_len Ht)|apply (to_cap Ht)].
    + destruct HC as [_ HP]. exists more. split; auto. split; auto. intros HN. eapply Permutation_NoDup; eauto.
  - destruct H as [H|(ops1 & ops2 & st & H1 & H2 & i & t & H3 & H4)]; [left; exact H|right].
    exists ops1, ops2, st, i, t. auto.
Qed.
Print Assumptions c57_history.

(** A destructor that does nothing visible: everything is as in Tensor.v. *)
Theorem c57_no_destructor : forall T C (dtor : T -> C -> call unit C) al (ops : list (op T C)) c,
  (forall x c, dtor x c = Gives tt c) -> ops_ok al ops (start c) ->
  run_ops_d dtor al ops (start c) = run_ops al ops (start c).
Proof.
  intros T C dtor al ops c HQ. assert (H0 : consistent (start (T := T) c) []) by (split; [constructor|cbn; constructor]).
  revert H0. generalize (@nil T) as l. generalize (start (T := T) c) as st. induction ops as [|o ops IH]; intros st l HC HO; [reflexivity|].
  cbn [run_ops_d run_ops]. destruct HO as [HO HS]. unfold seqM. rewrite (@step_quiet T C dtor al HQ o st l HC).
  pose proof (step_ok al HC HO) as H. destruct (step al o st) as [[] st'|st'| |]; auto.
  destruct H as (more & HC' & _). eapply IH; eauto.
Qed.
Print Assumptions c57_no_destructor.

(** clear, truncate and the end of a drain: the tensor is the same as without the panic. *)
Theorem c57_clear : forall T C (dtor : T -> C -> call unit C) (t : tensor T) w,
  tensor_ok t -> prodZ (sh_default (tn_ty t)) = 0 ->
  tn_clear_d dtor (t, w) =
  dropped dtor (tn_mem t) w (fun w => (mkTensor (tn_ty t) (sh_default (tn_ty t)) [] (tn_cap t), w)).
Proof. intros. rewrite <- dropping_dropped. now apply clear_exact_d. Qed.
Print Assumptions c57_clear.
Theorem c57_truncate : forall T C (dtor : T -> C -> call unit C) (t : tensor T) w n ds size,
  tensor_ok t -> has_rows t n ds -> 0 <= size ->
  let m := Z.min size n in
  tn_truncate_d dtor size (t, w) =
  dropped dtor (rows_of (n :: ds) (tn_mem t) m n) w
    (fun w => (mkTensor (tn_ty t) (m :: ds) (rows_of (n :: ds) (tn_mem t) 0 m) (tn_cap t), w)).
Proof.
  intros T C dtor t w n ds size Ht HR Hs m. rewrite <- dropping_dropped.
  pose proof (@truncate_exact_d T C dtor t w size Ht (has_rows_ok HR) Hs) as E. cbv zeta in E. rewrite E.
  pose proof (to_len Ht) as HL. pose proof (to_nonneg Ht) as HN. destruct HR as [HD HH]. rewrite HD in *. cbn [nth tl upd] in *. fold m.
  rewrite prodZ_cons in HL. inversion HN as [|? ? HN0 HN1]; subst. pose proof (prodZ_nonneg HN1) as HP.
  unfold rows_of. cbn [tl]. rewrite Z.sub_0_r, Z.mul_0_l. cbn [Z.to_nat skipn].
  rewrite (@firstn_all2 _ (Z.to_nat ((n - m) * prodZ ds))); auto. rewrite skipn_length. nia.
Qed.
Print Assumptions c57_truncate.
Theorem c57_drain : forall T C (dtor : T -> C -> call unit C) (t : tensor T) (w : world T C) lo hi n ds k,
  tensor_ok t -> has_rows t n ds -> n <= usize_max -> bound_arg lo -> bound_arg hi ->
  range_lo lo <= range_hi n hi <= n ->
  let a := range_lo lo in let b := range_hi n hi in
  let out := rows_of (n :: ds) (tn_mem t) a b in
  drained_by lo hi k (drain_drop_d dtor false) (t, w) =
  dropped dtor (skipn k out) (w_uses (firstn k out) w)
    (fun w => (mkTensor (tn_ty t) (n - (b - a) :: ds)
                 (rows_of (n :: ds) (tn_mem t) 0 a ++ rows_of (n :: ds) (tn_mem t) b n) (tn_cap t), w)).
Proof.
  intros T C dtor t w lo hi n ds k Ht HR Hn Hl Hh Hr a b out. rewrite <- dropping_dropped.
  pose proof (has_rows_ok HR) as HO. destruct HR as [HD HH].
  pose proof (@drain_exact_d T C dtor lo hi k t w Ht Hl Hh) as E. rewrite HD in E. cbn [nth] in E. rewrite (E Hn), HO. fold a b.
  destruct (Z.leb_spec a b); [|unfold a, b in *; lia]. destruct (Z.leb_spec b n); [|unfold a, b in *; lia]. cbn [andb upd].
  unfold rows_of, rows, out, cells. rewrite HD. reflexivity.
Qed.
Print Assumptions c57_drain.

(** append only drops elements when it panics: then the rows of the source, while unwinding. *)
Theorem c57_append : forall T C (dtor : T -> C -> call unit C) al (t u : tensor T) (w : world T C),
  tensor_ok t -> tensor_ok u ->
  match tn_append al (t, u, w) with
  | Done _ s => tn_append_d dtor al (t, u, w) = Done tt s
  | Unwound _ =>
      ((forall n ds, ~ has_rows u n ds) /\ tn_append_d dtor al (t, u, w) = Unwound (t, u, w)) \/
      exists n ds cap, has_rows u n ds /\ tn_cap t <= cap /\
        tn_append_d dtor al (t, u, w) =
        dropped_unwinding dtor (tn_mem u) w
          (fun w => (mkTensor (tn_ty t) (tn_dims t) (tn_mem t) cap, mkTensor (tn_ty u) (0 :: ds) [] (tn_cap u), w))
  | _ => False
  end.
Proof.
  intros T C dtor al t u w Ht Hu. pose proof (append_exact_d dtor al w Ht Hu) as H.
  destruct (rows_cases u) as [(n & ds & HR)|[HO HR]].
  - destruct H as [(HF & _)|[(t' & -> & ->)|(cap & HC & -> & ->)]]; auto.
    + rewrite (has_rows_ok HR) in HF. discriminate.
    + right. exists n, ds, cap. split; auto. split; auto. rewrite unwinding_dropped. unfold emptied. destruct HR as [-> _]. reflexivity.
  - destruct H as [(_ & -> & ->)|[(t' & -> & ->)|(cap & HC & E1 & E2)]]; auto.
    rewrite append_other in E1 by auto. rewrite (append_other al t w Hu HO). left. split; auto.
    unfold tn_append_d, tn_drain. unfold outer_ok in HO.
    destruct (0 <? length (tn_dims u))%nat; cbn [andb assert bind] in *; auto. rewrite HO. reflexivity.
Qed.
Print Assumptions c57_append.

(** Dropping the tensor itself, at once or after [k] elements were taken out of it. *)
Theorem c57_drop : forall T C (dtor : T -> C -> call unit C) (t : tensor T) (w : world T C),
  tensor_ok t -> tn_drop_d dtor t w = dropped dtor (tn_mem t) w (fun w => w).
Proof. intros T C dtor t w Ht. unfold tn_drop_d. rewrite (to_vec_ok Ht). apply dropping_dropped. Qed.
Print Assumptions c57_drop.
Theorem c57_iterate : forall T C (dtor : T -> C -> call unit C) (t : tensor T) (w : world T C) k,
  tensor_ok t ->
  tn_iterate_d dtor k t w = dropped dtor (skipn k (tn_mem t)) (w_uses (firstn k (tn_mem t)) w) (fun w => w).
Proof.
  intros T C dtor t w k Ht. unfold tn_iterate_d.
  destruct (@into_nexts T (tn_ty t) (tn_dims t) (tn_mem t) k (to_len Ht)) as (it & E & ED).
  rewrite E, ED, somes_firstn. apply dropping_dropped.
Qed.
Print Assumptions c57_iterate.

(** Examples: the destructor of 5 panics, or those of 3 and 5. *)
Definition dtor5 (x c : Z) : call unit Z := if x =? 5 then Throws (c + 1) else Gives tt (c + 1).
Definition dtor35 (x c : Z) : call unit Z := if (x =? 5) || (x =? 3) then Throws c else Gives tt c.
Example c57_example :
  (tensor_ok t42 /\ has_rows t42 4 [2] /\ tensor_ok t23 /\ prodZ (sh_default (tn_ty t42)) = 0) /\
  tn_clear_d dtor5 (t42, w0) =
    Unwound (mkTensor ty2 [0; 0] [] 8, mkWorld 8 [] [] [1; 2; 3; 4; 5; 6; 7; 8]) /\
  tn_clear_d dtor35 (t42, w0) = Aborted /\
  tn_truncate_d dtor5 2 (t42, w0) =
    Unwound (mkTensor ty2 [2; 2] [1; 2; 3; 4] 8, mkWorld 4 [] [] [5; 6; 7; 8]) /\
  tn_truncate_d dtor5 3 (t42, w0) =
    Done tt (mkTensor ty2 [3; 2] [1; 2; 3; 4; 5; 6] 8, mkWorld 2 [] [] [7; 8]) /\
  drained_by (Included 1) (Excluded 3) 1 (drain_drop_d dtor5 false) (t42, w0) =
    Unwound (mkTensor ty2 [2; 2] [1; 2; 7; 8] 8, mkWorld 3 [] [3] [4; 5; 6]) /\
  tn_iterate_d dtor35 4 t42 w0 = Unwound (mkWorld 0 [] [1; 2; 3; 4] [5; 6; 7; 8]) /\
  tn_drop_d dtor35 t42 w0 = Aborted /\
  (* the rows of the source do not fit, and they are dropped while that panic unwinds *)
  tn_append_d dtor5 al0 (t23, t42, w0) = Aborted /\
  tn_append_d dtor5 al0 (t42, t23, w0) = Aborted /\
  tn_append_d dtor5 al0 (t42, t13, w0) = 
    Unwound (mkTensor ty2 [4; 2] (tn_mem t42) 11, mkTensor ty2 [0; 3] [] 3, mkWorld 3 [] [] [7; 8; 9]).
Proof.
  split; [|vm_all]. split; [constructor; simpl; (reflexivity || lia || wf_tac)|].
  split; [split; reflexivity|]. split; [exact t23_ok|reflexivity].
Qed.

(** A panic in the middle of resize leaves the tensor empty, all elements dropped once; a panic while
    an element is overwritten by clone_from leaves the new element in its place. *)
Example c57_more :
  tn_resize_with_d dtor5 al0 [2; 1] count (t42, w0) =
    Unwound (mkTensor ty2 [0; 0] [] 8, mkWorld 8 [] [] [2; 4; 5; 6; 7; 8; 1; 3]) /\
  tn_resize_with_d dtor5 al0 [3; 1] count (t42, w0) =
    Done tt (mkTensor ty2 [3; 1] [1; 3; 5] 3, mkWorld 5 [] [] [2; 4; 6; 7; 8]) /\
  tn_resize_with_d dtor35 al0 [1; 1] count (t42, w0) = Aborted /\
  tn_clone_from_d dtor5 al0 keep [10; 11; 12; 13; 14; 15; 16; 17] [4; 2] (t42, w0) =
    Unwound (mkTensor ty2 [4; 2] [10; 11; 12; 13; 14; 6; 7; 8] 8, mkWorld 5 [10; 11; 12; 13; 14] [] [1; 2; 3; 4; 5]) /\
  tn_map_d dtor35 (fun x c => if x =? 6 then Throws c else Gives (x + 10) c) t42 w0 =
    Unwound (mkWorld 0 [11; 12; 13; 14; 15] [1; 2; 3; 4; 5; 6] [11; 12; 13; 14; 15; 7; 8]) /\
  tn_map_d dtor35 (fun x c => if x =? 4 then Throws c else Gives (x + 10) c) t42 w0 = Aborted.
Proof. vm_all. Qed.

(** A program: the second operation is left by a panicking destructor, and the tensor is used again. *)
Definition ex_dprog : list (op Z Z) :=
  [FromVec [1; 2; 3; 4; 5; 6] 6; Truncate 0 3; Clone 0 keep; ResizeWith 1 [5] count; Append 0 1; Drop 0].
Example c57_program : ops_ok_d dtor5 al0 ex_dprog (start 0) /\
  exists st, run_ops_d dtor5 al0 ex_dprog (start 0) = Done tt st /\
    st_vars st = [None; Some (mkTensor ty1 [0] [] 5)] /\
    w_made (st_w st) = [1; 2; 3; 4; 5; 6; 1; 2; 3; 103; 104] /\ w_used (st_w st) = [] /\
    w_dropped (st_w st) = [4; 5; 6; 1; 2; 3; 1; 2; 3; 103; 104].
Proof.
  split.
  - unfold ex_dprog.
    split; [vm_compute; discriminate|after_step].
    split; [vm_compute; discriminate|after_step].
    split; [exact I|after_step].
    split; [wf_tac|after_step].
    split; [simpl; discriminate|after_step].
    split; [exact I|after_step; exact I].
  - eexists. vm_all.
Qed.
