(** Theorems for C80: allocators that may refuse, and arrays of zero-sized elements.

    ReferRoom.v has the definitions: [asks k s] is the number of elements that an action of the reference interpreter
    (Refer.v) wants room for, [grants al n] says that the allocator grants every request for up to [n] elements,
    [zst_prog] runs a program on arrays of zero-sized elements, and [z_run] is the interpreter for these: it differs from
    [r_run] only in that a request for more than [usize::MAX] elements panics. *)
From Verif Require Import Base Spec SpecFacts Shape Mapping Index View Wf MappingFacts MapOps
  ReshapeFacts IndexFacts ViewFacts ViewMore PropsView.
From Verif Require Import Expr ExprSpec ExprFacts IterFacts SourceFacts ExprTree ExprMore PropsExpr.
From Verif Require Import Tensor TraceFacts TensorSpec TensorFacts ResizeFacts TensorOps DrainFacts OwnFacts
  ZipFacts OwnMore OpsFacts History HistoryFacts OwnProps PropsTensor PropsMore Program ProgramFacts PropsProgram.
From Verif Require Import Select SelectFacts PropsSelect Refer ReferFacts PropsRefer ReferRoom ReferRoomFacts.
Unset Strict Implicit.

(** ** Allocators that may refuse *)

(** A program that never asks for more than the allocator grants does what the interpreter says. *)
Theorem c80_granted : forall T C al most (p : list (act T C)) (st : state T C) l,
  grants al most -> consistent st l -> acts_ok p (seen st) -> asks_most most p (seen st) ->
  exists st' more, run_prog al (map code p) st = Done tt st' /\ consistent st' (l ++ more) /\ seen st' = r_run p (seen st).
Proof. intros T C al most p st l Hal. now apply granted_run. Qed.
Print Assumptions c80_granted.

(** How it grows its vectors, and what else it would grant, makes no difference. *)
Theorem c80_same : forall T C al al' most (p : list (act T C)) (c : C),
  grants al most -> grants al' most -> acts_ok p (mkRef [] c []) -> asks_most most p (mkRef [] c []) ->
  exists st st', run_prog al (map code p) (start c) = Done tt st /\ run_prog al' (map code p) (start c) = Done tt st' /\
    seen st = seen st'.
Proof.
  intros T C al al' most p c H1 H2 HO HA.
  destruct (@c80_granted T C al most p (start c) [] H1 (start_consistent c) HO HA) as (st & _ & E1 & _ & S1).
  destruct (@c80_granted T C al' most p (start c) [] H2 (start_consistent c) HO HA) as (st' & _ & E2 & _ & S2).
  exists st, st'. split; [exact E1|]. split; [exact E2|]. now rewrite S1, S2.
Qed.
Print Assumptions c80_same.

(** ** Zero-sized elements *)

(** One call, whatever capacities are stored: it does what the interpreter says, overflowing requests included, and no
    array gets more than [usize::MAX] elements. *)
Theorem c80_zst_step : forall T C (k : act T C) (st : state T C) l,
  consistent st l -> countable (seen st) -> z_act_ok k (seen st) ->
  exists st' more, zst_prog [code k] st = Done tt st' /\ consistent st' (l ++ more) /\
    seen st' = z_do k (seen st) /\ countable (seen st').
Proof.
  intros T C k st l HC HN HO. destruct (zst_step HC HN HO) as (st' & more & E & H). exists st', more. split; [|exact H].
  cbn [zst_prog]. unfold seqM. rewrite E. reflexivity.
Qed.
Print Assumptions c80_zst_step.

Theorem c80_zst_run : forall T C (p : list (act T C)) (st : state T C) l,
  consistent st l -> countable (seen st) -> z_acts_ok p (seen st) ->
  exists st' more, zst_prog (map code p) st = Done tt st' /\ consistent st' (l ++ more) /\
    seen st' = z_run p (seen st) /\ countable (seen st').
Proof. intros T C p st l. apply zst_refers. Qed.
Print Assumptions c80_zst_run.

(** The stored capacities cannot be observed. *)
Theorem c80_zst_stored : forall T C (p : list (act T C)) (st1 st2 : state T C) l1 l2,
  consistent st1 l1 -> consistent st2 l2 -> seen st1 = seen st2 -> countable (seen st1) -> z_acts_ok p (seen st1) ->
  exists st1' st2', zst_prog (map code p) st1 = Done tt st1' /\ zst_prog (map code p) st2 = Done tt st2' /\ seen st1' = seen st2'.
Proof.
  intros T C p st1 st2 l1 l2 H1 H2 E HN HO.
  destruct (@c80_zst_run T C p st1 l1 H1 HN HO) as (st1' & _ & E1 & _ & S1 & _). rewrite E in HN, HO.
  destruct (@c80_zst_run T C p st2 l2 H2 HN HO) as (st2' & _ & E2 & _ & S2 & _).
  exists st1', st2'. split; [exact E1|]. split; [exact E2|]. now rewrite S1, S2, E.
Qed.
Print Assumptions c80_zst_stored.

(** As long as nothing overflows, arrays of zero-sized elements are like others. *)
Theorem c80_zst_like_others : forall T C (p : list (act T C)) (s : rstate T C),
  asks_most usize_max p s -> z_run p s = r_run p s.
Proof.
  intros T C p. induction p as [|k p IH]; intros s HA; [reflexivity|]. cbn [asks_most z_run r_run] in *. destruct HA as [H1 H2].
  unfold z_do. rewrite (proj2 (Z.leb_le _ _) H1). now apply IH.
Qed.
Print Assumptions c80_zst_like_others.

(** Requests that overflow: [reserve] and [expand] panic before anything has happened; so does [append], but the rows
    of its second argument are dropped.  With fewer elements [reserve] does nothing. *)
Theorem c80_zst_over : forall T C (t u : tensor T) (w : world T C) n,
  tensor_ok t -> tensor_ok u -> tn_cap t = usize_max ->
  (tn_reserve zst_alloc n (t, w) = if zlen (tn_mem t) + n <=? usize_max then Done tt (t, w) else Unwound (t, w)) /\
  (forall (e : expression T) (cl : T -> C -> call T C), usize_max < zlen (tn_mem t) + prodZ (e_dims e) ->
     tn_expand zst_alloc e cl (t, w) = Unwound (t, w)) /\
  (forall m dt, has_rows u m dt -> usize_max < zlen (tn_mem t) + zlen (tn_mem u) ->
     tn_append zst_alloc (t, u, w) = Unwound (t, mkTensor (tn_ty u) (0 :: dt) [] (tn_cap u), w_drop (tn_mem u) w)).
Proof.
  intros T C t u w n Ht Hu HC. pose proof (to_cap Ht) as TC. rewrite HC in TC.
  assert (NO : forall k, usize_max < k -> al_ok zst_alloc k = false) by (intros k Hk; cbn; apply Z.leb_gt; exact Hk).
  pose proof (to_len Ht) as TL. split; [|split].
  - destruct (@c61_reserve T C zst_alloc n t w Ht) as [H1 H2]. cbv zeta in H1, H2. unfold zlen in *. rewrite TL in *. rewrite HC in H1, H2.
    destruct (Z.leb_spec (prodZ (tn_dims t) + n) usize_max) as [L|L].
    + destruct H1 as (cap & E & _ & _ & _ & EC); [now right|]. rewrite (EC eq_refl) in E. rewrite E. rewrite <- HC. now destruct t.
    + destruct H2 as [E _]; [split; [now apply NO|reflexivity]|]. exact E.
  - intros e cl L. rewrite <- sh_len_prod in L. apply expand_over; auto; [|rewrite HC; exact L]. unfold zlen in *. lia.
  - intros m dt HR L. apply append_over with m; auto; [unfold zlen in *; lia|rewrite HC; exact L].
Qed.
Print Assumptions c80_zst_over.

(** ** Examples *)

(** The program of [c78_example] asks for at most 12 elements; an allocator that refuses more will do. *)
Example c80_example :
  let al := mkAlloc (fun n => n <=? 12) (fun _ n => n) in
  grants al 12 /\ asks_most 12 ex_acts (mkRef [] 0 []) /\ ~ asks_most 11 ex_acts (mkRef [] 0 []) /\
  exists st, run_prog al (map code ex_acts) (start 0) = Done tt st /\ seen st = mkRef [None; None] 20 [5; 4; 120; -6; 1; 140; 3].
Proof.
  cbv zeta. split; [intros n H; cbn; now apply Z.leb_le|]. split; [|split].
  - unfold ex_acts. cbv zeta.
    repeat (match goal with |- asks_most ?n (?k :: ?p) ?s => let s' := eval vm_compute in (r_do k s) in
      change (asks k s <= n /\ asks_most n p (r_do k s)); replace (r_do k s) with s' by (vm_compute; reflexivity); split end; [vm_compute; discriminate|]).
    exact I.
  - intros H. unfold ex_acts in H. cbv zeta in H. do 4 (destruct H as [_ H]). destruct H as [H _]. vm_compute in H. now apply H.
  - eexists. split; vm_compute; reflexivity.
Qed.

(** Zero-sized elements: three are collected and shaped, room for [usize::MAX - 3] more is granted and for one more than
    that refused, a clone is appended to the array, and a vector is asked to hold [usize::MAX] of them. *)
Definition ex_units : list (act unit Z) :=
  [ AFromVec [tt; tt; tt];
    AReserve 0 (usize_max - 3);
    AReserve 0 (usize_max - 2);
    AIntoShape 0 (STuple [DDyn; DDyn]) [3; 1];
    AClone 0 (fun x c => Gives x (c + 1));
    AAppend 0 1;
    ANew (STuple [DDyn]) usize_max;
    AShrink 2 0;
    AReserve 2 usize_max ].
Lemma ex_units_ok : z_acts_ok ex_units (mkRef [] 0 []).
Proof.
  unfold ex_units.
  repeat (match goal with |- z_acts_ok (?k :: ?p) ?s => let s' := eval vm_compute in (z_do k s) in
    change (z_act_ok k s /\ z_acts_ok p (z_do k s)); replace (z_do k s) with s' by (vm_compute; reflexivity); split end);
  unfold z_act_ok, act_ok, on; try match goal with |- context [rvar ?s ?i] => let a := eval vm_compute in (rvar s i) in change (rvar s i) with a end; cbv iota beta;
  unfold one_ok; cbn [a_dims a_els a_ty]; try exact I; try (split; [exact I|exact I]).
  - split; [exact I|discriminate].
  - split; [|exact I]. split; [repeat constructor; discriminate|]. split; [reflexivity|]. split; [repeat constructor|]. intros ds E. injection E as <-. intros [F|[F|[]]]; discriminate F.
  - split; [|exact I]. split; [discriminate|]. split; [discriminate|]. intros b E. injection E as <-. discriminate.
  - split; [|exact I]. split; [repeat constructor; discriminate|]. split; [repeat constructor|discriminate].
Qed.
Example c80_example_units :
  z_acts_ok ex_units (mkRef [] 0 []) /\
  usize_max < asks (AReserve 0 (usize_max - 2)) (z_run (firstn 2 ex_units) (mkRef [] 0 [])) /\
  z_run ex_units (mkRef [] 0 []) =
    mkRef [Some (mkArr (STuple [DDyn; DDyn]) [6; 1] (repeat tt 6)); Some (mkArr (STuple [DDyn; DDyn]) [0; 1] []);
           Some (mkArr (STuple [DDyn]) [0] [])] 3 [] /\
  exists st, zst_prog (map code ex_units) (start 0) = Done tt st /\ seen st = z_run ex_units (mkRef [] 0 []).
Proof.
  split; [exact ex_units_ok|]. split; [vm_compute; reflexivity|]. split; [vm_compute; reflexivity|].
  eexists. split; vm_compute; reflexivity.
Qed.

(** Two arrays of [2^63] zero-sized elements each: they cannot be put together. *)
Example c80_example_over : forall C (w : world unit C), exists xs : list unit,
  zlen xs = 2 ^ 63 /\
  let t := mkTensor (STuple [DDyn]) [2 ^ 63] xs usize_max in
  tensor_ok t /\ has_rows t (2 ^ 63) [] /\
  tn_append zst_alloc (t, t, w) = Unwound (t, mkTensor (STuple [DDyn]) [0] [] usize_max, w_drop xs w).
Proof.
  intros C w.
  assert (X : exists xs : list unit, zlen xs = 2 ^ 63)
    by (exists (repeat tt (Z.to_nat (2 ^ 63))); unfold zlen; rewrite repeat_length; apply Z2Nat.id; discriminate).
  destruct X as (xs & L). exists xs. split; [exact L|]. intros t.
  assert (Ht : tensor_ok t).
  { unfold zlen in L. constructor; unfold t; cbn [tn_dims tn_ty tn_mem tn_cap].
    - repeat constructor. discriminate.
    - repeat constructor.
    - repeat constructor.
    - exact L.
    - rewrite L. discriminate. }
  assert (HR : has_rows t (2 ^ 63) []) by (split; reflexivity).
  split; [exact Ht|]. split; [exact HR|].
  destruct (@c80_zst_over unit C t t w 0 Ht Ht eq_refl) as (_ & _ & H). apply (H (2 ^ 63) []); [exact HR|].
  change (zlen (tn_mem t)) with (zlen xs). rewrite L. reflexivity.
Qed.
