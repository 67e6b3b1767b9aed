(** Facts about the tensor operations. *)
From Verif Require Import Base Spec SpecFacts Shape Mapping Index View Wf MappingFacts MapOps ReshapeFacts.
From Verif Require Import IndexFacts ViewFacts Expr ExprSpec ExprFacts IterFacts SourceFacts ExprTree ExprMore.
From Verif Require Import Tensor TensorSpec TraceFacts.
Unset Strict Implicit.

(** ** Reasoning about code with unwinding *)

Definition hoare {S A} (P : S -> Prop) (m : M S A) (Q : A -> S -> Prop) (U : S -> Prop) : Prop :=
  forall s, P s ->
    match m s with Done a s' => Q a s' | Unwound s' => U s' | Aborted => True | Fault => False end.

Lemma h_seq {S A B} (P : S -> Prop) (m : M S A) (k : A -> M S B) (Q : A -> S -> Prop) (R : B -> S -> Prop) (U : S -> Prop) :
  hoare P m Q U -> (forall a, hoare (Q a) (k a) R U) -> hoare P (seqM m k) R U.
Proof.
  intros H1 H2 s Hs. unfold seqM. specialize (H1 s Hs). destruct (m s); auto. apply (H2 a s0 H1).
Qed.

Lemma h_weaken {S A} (P P' : S -> Prop) (m : M S A) (Q Q' : A -> S -> Prop) (U U' : S -> Prop) :
  hoare P' m Q' U' -> (forall s, P s -> P' s) -> (forall a s, Q' a s -> Q a s) -> (forall s, U' s -> U s) ->
  hoare P m Q U.
Proof. intros H H1 H2 H3 s Hs. specialize (H s (H1 s Hs)). destruct (m s); auto. Qed.

Lemma h_ret {S A} (P : S -> Prop) (a : A) (Q : A -> S -> Prop) (U : S -> Prop) : (forall s, P s -> Q a s) -> hoare P (ret a) Q U.
Proof. intros H s Hs. cbn. auto. Qed.

Lemma h_check {S} (P : S -> Prop) b (Q : unit -> S -> Prop) (U : S -> Prop) :
  (forall s, P s -> b = true -> Q tt s) -> (forall s, P s -> b = false -> U s) -> hoare P (check b) Q U.
Proof. intros H1 H2 s Hs. unfold check. destruct b; auto. Qed.

Lemma h_times {S} (I : S -> Prop) n (m : M S unit) (U : S -> Prop) :
  hoare I m (fun _ => I) U -> hoare I (timesM n m) (fun _ => I) U.
Proof.
  intros H. induction n as [|n IH]; cbn [timesM]; [now apply h_ret|].
  eapply h_seq; [exact H|]. intros u. exact IH.
Qed.

Lemma zlen_nonneg {A} (l : list A) : 0 <= zlen l.
Proof. unfold zlen. lia. Qed.
Lemma zlen_app {A} (a b : list A) : zlen (a ++ b) = zlen a + zlen b.
Proof. unfold zlen. rewrite app_length. lia. Qed.
Lemma zlen_firstn {A} n (l : list A) : 0 <= n <= zlen l -> zlen (firstn (Z.to_nat n) l) = n.
Proof. unfold zlen. intros. rewrite firstn_length. lia. Qed.
Lemma zlen_skipn {A} n (l : list A) : 0 <= n <= zlen l -> zlen (skipn (Z.to_nat n) l) = zlen l - n.
Proof. unfold zlen. intros. rewrite skipn_length. lia. Qed.

Lemma slice_eqb_eq a b : slice_eqb a b = true <-> a = b.
Proof.
  revert b. induction a as [|x a IH]; intros [|y b]; cbn; try (split; congruence).
  rewrite andb_true_iff, Z.eqb_eq, IH. split; [intros [-> ->]; auto|intros [= -> ->]; auto].
Qed.

(** ** Calling closures one after the other *)

Lemma gives_app {T C} (f1 f2 : list (C -> call T C)) c :
  gives (f1 ++ f2) c =
  let '(xs, c1, b) := gives f1 c in
  if b then let '(ys, c2, b2) := gives f2 c1 in (xs ++ ys, c2, b2) else (xs, c1, false).
Proof.
  revert c. induction f1 as [|f f1 IH]; intros c; cbn.
  - now destruct (gives f2 c) as [[ys c2] b2].
  - destruct (f c) as [x c'|c']; auto. rewrite IH. destruct (gives f1 c') as [[xs c1] [|]]; auto.
    now destruct (gives f2 c1) as [[ys c2] b2].
Qed.

Lemma gives_length {T C} (fs : list (C -> call T C)) c xs c' b :
  gives fs c = (xs, c', b) -> (length xs <= length fs)%nat /\ (b = true -> length xs = length fs).
Proof.
  revert c xs. induction fs as [|f fs IH]; intros c xs; cbn.
  - intros [= <- <- <-]. auto.
  - destruct (f c) as [x c1|c1].
    + destruct (gives fs c1) as [[ys c2] b2] eqn:E. intros [= <- <- <-]. destruct (IH _ _ E) as [H1 H2].
      cbn. split; [lia|]. intros Hb. rewrite H2; auto.
    + intros [= <- <- <-]. cbn. split; [lia|discriminate].
Qed.

(** The state of the vector after the values [xs] have been appended. *)
Definition pushed {T C} (c : C) (xs : list T) (p : parts T C) : parts T C :=
  mkParts (p_items p ++ xs) (p_cap p) (p_dims p) (after c xs [] (p_w p)).

Lemma after_after {T C} c1 c2 (x1 x2 d1 d2 : list T) (w : world T C) :
  after c2 x2 d2 (after c1 x1 d1 w) = after c2 (x1 ++ x2) (d1 ++ d2) w.
Proof. unfold after. cbn. now rewrite !app_assoc. Qed.

Lemma after_nil {T C} (w : world T C) : after (w_clo w) [] [] w = w.
Proof. unfold after. rewrite !app_nil_r. now destruct w. Qed.

Lemma pushed_nil {T C} (p : parts T C) : pushed (w_clo (p_w p)) [] p = p.
Proof. unfold pushed. rewrite after_nil, app_nil_r. now destruct p. Qed.

Definition finish {S A} (b : bool) (a : A) (s : S) : result S A := if b then Done a s else Unwound s.

Lemma push_loop_spec {T C} (fs : list (C -> call T C)) (m : M (parts T C) unit) p :
  (* [m] calls the closures one after the other, writing each value *)
  m = fold_right (fun f k => x <- vec_call f ;; vec_write x ;;; k) (ret tt) fs ->
  zlen (p_items p) + zlen fs <= p_cap p ->
  m p = let '(xs, c, b) := gives fs (w_clo (p_w p)) in finish b tt (pushed c xs p).
Proof.
  intros ->. revert p. induction fs as [|f fs IH]; intros p Hcap; cbn [fold_right gives].
  - cbn. now rewrite pushed_nil.
  - unfold seqM at 1. unfold vec_call. destruct (f (w_clo (p_w p))) as [x c|c].
    + unfold seqM at 1. unfold vec_write. cbn [p_items p_cap p_dims p_w].
      unfold zlen in Hcap. cbn [length] in Hcap.
      destruct (Z.ltb_spec (zlen (p_items p)) (p_cap p)) as [Hlt|Hge]; [|unfold zlen in Hge; lia].
      rewrite IH; cbn [p_items p_cap p_dims p_w w_make w_clo].
      * destruct (gives fs c) as [[xs c'] b]. unfold pushed. cbn [p_items p_cap p_dims p_w].
        change (w_make c x (p_w p)) with (mkWorld c (w_made (p_w p) ++ [x]) (w_used (p_w p)) (w_dropped (p_w p))).
        unfold after. cbn [w_made w_used w_dropped]. rewrite <- !app_assoc. reflexivity.
      * unfold zlen. rewrite app_length. cbn. lia.
    + unfold finish, pushed, after, w_set. rewrite !app_nil_r. reflexivity.
Qed.

Lemma clone_loop_spec {T Y C} (cl : Y -> C -> call T C) ys p :
  zlen (p_items p) + zlen ys <= p_cap p ->
  clone_loop cl ys p =
  let '(xs, c, b) := gives (map cl ys) (w_clo (p_w p)) in finish b tt (pushed c xs p).
Proof.
  intros H. apply push_loop_spec.
  - induction ys as [|y ys IH]; cbn; auto. rewrite <- IH; auto. unfold zlen in *. cbn [length] in H. lia.
  - unfold zlen in *. now rewrite map_length.
Qed.

Lemma times_call_spec {T C} (f : C -> call T C) n p :
  zlen (p_items p) + Z.of_nat n <= p_cap p ->
  timesM n (x <- vec_call f ;; vec_write x) p =
  let '(xs, c, b) := gives (repeat f n) (w_clo (p_w p)) in finish b tt (pushed c xs p).
Proof.
  intros H.
  assert (E : forall n, timesM n (x <- vec_call f ;; vec_write x) p =
    fold_right (fun f k => x <- vec_call f ;; vec_write x ;;; k) (ret tt) (repeat f n) p).
  { clear. intros n. revert p. induction n as [|n IH]; intros p; cbn; auto.
    unfold seqM. unfold seqM in IH. destruct (vec_call f p) as [x p'| | |]; auto.
    destruct (vec_write x p') as [[] p''| | |]; auto. }
  rewrite E. apply push_loop_spec; auto. unfold zlen at 2. now rewrite repeat_length.
Qed.

Lemma nth_error_skipn' {A} n (l : list A) k : nth_error (skipn n l) k = nth_error l (n + k).
Proof. revert l. induction n as [|n IH]; intros [|x l]; cbn; auto. now destruct k. Qed.

Lemma nth_error_firstn' {A} n (l : list A) k : nth_error (firstn n l) k = if (k <? n)%nat then nth_error l k else None.
Proof.
  revert l k. induction n as [|n IH]; intros l k; cbn [firstn].
  - now destruct k.
  - destruct l as [|x l]; [destruct k; cbn [nth_error]; now destruct (_ <? S n)%nat|]. destruct k; cbn; auto. rewrite IH. reflexivity.
Qed.
