(** Iteration over expressions: simulation by the specification and the iterator theorems. *)
From Verif Require Import Base Spec SpecFacts Shape Mapping Index View Wf MappingFacts Expr ExprSpec.
Unset Strict Implicit.

(** ** Outcomes related by a relation *)
Definition agree {X Y : Type} (P : X -> Y -> Prop) (x : outcome X) (y : outcome Y) : Prop :=
  match x, y with
  | Ok a, Ok b => P a b
  | Panic, Panic => True
  | UB, UB => True
  | NoFuel, NoFuel => True
  | _, _ => False
  end.

Lemma agree_bind {X Y X' Y'} (P : X -> Y -> Prop) (P' : X' -> Y' -> Prop) x y f g :
  agree P x y -> (forall a b, P a b -> agree P' (f a) (g b)) ->
  agree P' (bind x f) (bind y g).
Proof. destruct x, y; simpl; auto; tauto. Qed.

Lemma agree_weaken {X Y} (P P' : X -> Y -> Prop) x y :
  agree P x y -> (forall a b, P a b -> P' a b) -> agree P' x y.
Proof. destruct x, y; simpl; auto. Qed.

Lemma agree_refl {X} (P : X -> X -> Prop) x : (forall a, P a a) -> agree P x x.
Proof. destruct x; simpl; auto. Qed.

Lemma agree_eq {X} (x y : outcome X) : agree eq x y -> x = y.
Proof. destruct x, y; simpl; intros; subst; tauto || reflexivity. Qed.

(** ** List facts *)
Lemma positions_nil lo hi : hi <= lo -> positions lo hi = [].
Proof. intros H. unfold positions. rewrite zrange_0 by lia. reflexivity. Qed.

Lemma positions_cons lo hi : lo < hi -> positions lo hi = lo :: positions (lo + 1) hi.
Proof.
  intros H. unfold positions. rewrite zrange_cons by lia. cbn [map]. rewrite Z.add_0_r. f_equal.
  rewrite map_map. replace (hi - lo - 1) with (hi - (lo + 1)) by lia.
  apply map_ext. intros; lia.
Qed.

Lemma positions_app lo mid hi : lo <= mid <= hi -> positions lo hi = positions lo mid ++ positions mid hi.
Proof.
  intros H. unfold positions. replace (hi - lo) with ((mid - lo) + (hi - mid)) by lia.
  rewrite zrange_add, map_app, map_map by lia. f_equal. apply map_ext. intros; lia.
Qed.

Lemma positions_zrange n : positions 0 n = zrange n.
Proof.
  unfold positions. rewrite Z.sub_0_r. rewrite (map_ext (Z.add 0) (fun x => x)) by (intros; lia).
  apply map_id.
Qed.

Lemma in_positions lo hi k : In k (positions lo hi) <-> lo <= k < hi.
Proof.
  unfold positions. rewrite in_map_iff. split.
  - intros (x & <- & Hx). apply in_zrange in Hx. lia.
  - intros H. exists (k - lo). split; [lia|]. apply in_zrange. lia.
Qed.

Lemma skipn_positions n hi : 0 <= hi -> (n <= Z.to_nat hi)%nat -> skipn n (zrange hi) = positions (Z.of_nat n) hi.
Proof.
  intros H0 H. rewrite <- positions_zrange.
  rewrite (@positions_app 0 (Z.of_nat n) hi) by lia.
  rewrite skipn_app. rewrite skipn_all2.
  - replace (n - _)%nat with 0%nat; [reflexivity|].
    unfold positions. rewrite map_length, zrange_length. lia.
  - unfold positions. rewrite map_length, zrange_length. lia.
Qed.

Lemma unflat_app d1 d2 k i :
  nonneg d1 -> nonneg d2 -> 0 <= k < prodZ d1 -> 0 <= i < prodZ d2 ->
  unflat (d1 ++ d2) (k * prodZ d2 + i) = unflat d1 k ++ unflat d2 i.
Proof.
  intros H1 H2 Hk Hi.
  pose proof (@unflat_in_bounds d1 k H1 Hk) as B1.
  pose proof (@unflat_in_bounds d2 i H2 Hi) as B2.
  rewrite <- (@unflat_flat (d1 ++ d2) (unflat d1 k ++ unflat d2 i)).
  - f_equal. rewrite flat_app by apply unflat_length. rewrite !flat_unflat; auto.
  - apply in_bounds_app; [apply unflat_length|]. auto.
Qed.

Lemma skipn_skipn' {A} (a b : nat) (l : list A) : skipn a (skipn b l) = skipn (b + a) l.
Proof.
  revert l. induction b; intros l; simpl; [reflexivity|]. destruct l; [apply skipn_nil|apply IHb].
Qed.

Lemma lastn_lastn {A} (a b : nat) (l : list A) : (a <= b)%nat -> lastn a (lastn b l) = lastn a l.
Proof.
  intros H. unfold lastn. rewrite skipn_length, skipn_skipn'. f_equal. lia.
Qed.

Lemma lastn_length {A} n (l : list A) : (n <= length l)%nat -> length (lastn n l) = n.
Proof. intros H. unfold lastn. rewrite skipn_length. lia. Qed.

Lemma lastn_all {A} n (l : list A) : (length l <= n)%nat -> lastn n l = l.
Proof. intros H. unfold lastn. replace (length l - n)%nat with 0%nat by lia. reflexivity. Qed.

Lemma lastn_nonneg n l : nonneg l -> nonneg (lastn n l).
Proof. apply nonneg_skipn. Qed.

Lemma run_app {A S T} (act : action A S) (f : T -> A -> outcome T) l1 l2 s t :
  run act f (l1 ++ l2) s t = let* (s', t') := run act f l1 s t in run act f l2 s' t'.
Proof.
  revert s t. induction l1 as [|x l1 IH]; intros s t; simpl; [reflexivity|].
  destruct (act x s) as [[a s']| | |]; simpl; auto. destruct (f t a); simpl; auto.
Qed.

Lemma run_pure {A T} (g : list Z -> A) (f : T -> A -> outcome T) l s t :
  run_value (pure_action g) f l s t = foldM f (map g l) t.
Proof.
  unfold run_value. revert t. induction l as [|x l IH]; intros t; simpl; [reflexivity|].
  destruct (f t (g x)); simpl; auto.
Qed.

(** ** Outer indices *)

(** The last [m] entries reset to zero. *)
Definition zero_tail (o : list Z) (m : nat) : list Z := firstn (length o - m) o ++ repeat 0 m.

(** Entry [length o - 1 - m] incremented, the following ones zero. *)
Definition succ_at (o : list Z) (m : nat) : list Z :=
  upd (zero_tail o m) (length o - 1 - m) (nth (length o - 1 - m) o 0 + 1).

Lemma zero_tail_length o m : (m <= length o)%nat -> length (zero_tail o m) = length o.
Proof. intros H. unfold zero_tail. rewrite app_length, firstn_length, repeat_length. lia. Qed.

Lemma zero_tail_0 o : zero_tail o 0 = o.
Proof. unfold zero_tail. rewrite Nat.sub_0_r, firstn_all. apply app_nil_r. Qed.

Lemma zero_tail_all o : zero_tail o (length o) = repeat 0 (length o).
Proof. unfold zero_tail. rewrite Nat.sub_diag. reflexivity. Qed.

Lemma zero_tail_nth o m j : (j < length o - m)%nat -> nth j (zero_tail o m) 0 = nth j o 0.
Proof.
  intros H. unfold zero_tail. rewrite app_nth1 by (rewrite firstn_length; lia).
  revert H. generalize (length o - m)%nat. clear. intros n. revert j n.
  induction o as [|x o IHo]; intros j [|n] H; simpl; try lia; destruct j; auto.
  apply IHo. lia.
Qed.

Lemma repeat_snoc {A} (x : A) n : repeat x n ++ [x] = repeat x (S n).
Proof. induction n; simpl; auto. now rewrite IHn. Qed.

Lemma zero_tail_S o m :
  (m < length o)%nat -> zero_tail o (S m) = upd (zero_tail o m) (length o - 1 - m) 0.
Proof.
  intros H. unfold zero_tail.
  assert (E : firstn (length o - m) o = firstn (length o - S m) o ++ [nth (length o - 1 - m) o 0]).
  { replace (length o - m)%nat with (S (length o - S m)) by lia.
    rewrite (@firstn_snoc _ (length o - S m) o 0) by lia.
    replace (length o - 1 - m)%nat with (length o - S m)%nat by lia. reflexivity. }
  rewrite E, <- app_assoc. rewrite upd_app_r by (rewrite firstn_length; lia).
  rewrite firstn_length. replace (length o - 1 - m - _)%nat with 0%nat by lia. reflexivity.
Qed.

Lemma zero_tail_nth' o m j :
  (m <= length o)%nat -> nth j (zero_tail o m) 0 = if (j <? length o - m)%nat then nth j o 0 else 0.
Proof.
  intros H. destruct (Nat.ltb_spec j (length o - m)); [now apply zero_tail_nth|].
  unfold zero_tail. rewrite app_nth2 by (rewrite firstn_length; lia). apply nth_repeat.
Qed.

(** Row-major successor. *)
Lemma flat_succ dims o m :
  in_bounds dims o -> (m < length o)%nat ->
  (forall j, (length o - 1 - m < j < length o)%nat -> nth j o 0 + 1 = nth j dims 0) ->
  nth (length o - 1 - m) o 0 + 1 < nth (length o - 1 - m) dims 0 ->
  in_bounds dims (succ_at o m) /\ flat dims (succ_at o m) = flat dims o + 1.
Proof.
  intros B Hm Hmax Hlt.
  pose proof (in_bounds_length B) as HL.
  assert (HB : in_bounds dims (succ_at o m)).
  { apply in_bounds_intro.
    - unfold succ_at. rewrite upd_length, zero_tail_length by lia. lia.
    - intros i Hi. unfold succ_at. destruct (Nat.eq_dec i (length o - 1 - m)) as [->|NE].
      + rewrite upd_nth_same by (rewrite zero_tail_length; lia).
        pose proof (@in_bounds_nth _ _ _ B Hi). lia.
      + rewrite upd_nth_other by auto. rewrite zero_tail_nth' by lia.
        pose proof (@in_bounds_nth _ _ _ B Hi). destruct (Nat.ltb_spec i (length o - m)); lia. }
  split; auto.
  pose proof (in_bounds_length HB) as HL'.
  rewrite <- (@dot_row_major dims o), <- (@dot_row_major dims (succ_at o m)) by auto.
  (* compare tails *)
  revert dims o B HL Hm Hmax Hlt HB HL'. clear.
  induction dims as [|d ds IH]; intros o B HL Hm Hmax Hlt HB HL'; destruct o as [|x o]; cbn [length] in *; try lia.
  destruct (Nat.eq_dec m (length o)) as [->|NE].
  - (* the head is incremented, the tail is maximal *)
    unfold succ_at in *. cbn [length] in *.
    replace (S (length o) - 1 - length o)%nat with 0%nat in * by lia.
    assert (E : zero_tail (x :: o) (length o) = x :: repeat 0 (length o)).
    { unfold zero_tail. cbn [length]. replace (S (length o) - length o)%nat with 1%nat by lia. reflexivity. }
    rewrite E. cbn [upd nth row_major dot]. rewrite dot_zeros.
    apply in_bounds_cons in B as [Bx B].
    rewrite dot_row_major by lia.
    assert (F : flat ds o + 1 = prodZ ds).
    { assert (Hmax' : forall j, (j < length o)%nat -> nth j o 0 + 1 = nth j ds 0).
      { intros j Hj. apply (Hmax (S j)). lia. }
      clear - B Hmax'. induction B as [|d o0 ds o Hd B IH].
      - reflexivity.
      - cbn [flat prodZ fold_right]. fold (prodZ ds).
        pose proof (Hmax' 0%nat ltac:(cbn; lia)) as H0. cbn in H0.
        assert (flat ds o + 1 = prodZ ds).
        { apply IH. intros j Hj. apply (Hmax' (S j)). cbn. lia. }
        nia. }
    lia.
  - assert (Hm' : (m < length o)%nat) by lia.
    assert (E : succ_at (x :: o) m = x :: succ_at o m).
    { unfold succ_at. cbn [length].
      replace (S (length o) - 1 - m)%nat with (S (length o - 1 - m)) by lia. cbn [nth].
      unfold zero_tail. cbn [length]. replace (S (length o) - m)%nat with (S (length o - m)) by lia.
      reflexivity. }
    rewrite E in *. cbn [row_major dot].
    apply in_bounds_cons in B as [Bx B]. apply in_bounds_cons in HB as [_ HB].
    rewrite (IH o); auto; try lia.
    + intros j Hj. apply (Hmax (S j)). lia.
    + replace (S (length o) - 1 - m)%nat with (S (length o - 1 - m)) in Hlt by lia. exact Hlt.
Qed.

Lemma flat_max dims o :
  in_bounds dims o -> (forall j, (j < length o)%nat -> nth j o 0 + 1 = nth j dims 0) ->
  flat dims o + 1 = prodZ dims.
Proof.
  intros B H. induction B as [|d o0 ds o Hd B IH]; [reflexivity|].
  cbn [flat prodZ fold_right]. fold (prodZ ds).
  pose proof (H 0%nat ltac:(cbn; lia)) as H0. cbn in H0.
  assert (flat ds o + 1 = prodZ ds) by (apply IH; intros j Hj; apply (H (S j)); cbn; lia).
  nia.
Qed.

(** ** The simulation relation *)

(** Calls on an expression seen from an iteration (or zip) of rank [r]. *)
Definition reset_at {A} (e : expression A) (r j : nat) (c : Z) (s : e_st e) : outcome (e_st e) :=
  if (r - j <=? e_rank e)%nat then e_reset e (e_rank e - (r - j)) c s else Ok s.
Definition step_at {A} (e : expression A) (r j : nat) (s : e_st e) : outcome (e_st e) :=
  if (r - j <=? e_rank e)%nat then e_step e (e_rank e - (r - j)) s else Ok s.

Arguments reset_at {A} e r j c s.
Arguments step_at {A} e r j s.

(** Range of the outer index: a zero dimension is visited once. *)
Definition olim (q : nat) (D : list Z) : list Z := map (Z.max 1) (firstn q D).

(** [R o i s S]: the expression in state [s] is about to produce inner element [i] of outer index
    [o], and the specification is in state [S].  [Q o m s S]: the inner elements of [o] are done
    and the last [m] outer dimensions have been reset. *)
Record laws {A S : Type} (e : expression A) (act : action A S) (D : list Z) (q : nat)
    (R : list Z -> Z -> e_st e -> S -> Prop) (Q : list Z -> nat -> e_st e -> S -> Prop) : Prop := {
  l_get : forall o i s s', R o i s s' -> in_bounds (firstn q D) o -> 0 <= i < prodZ (skipn q D) ->
    agree (fun x y => fst x = fst y /\ R o (i + 1) (snd x) (snd y))
      (e_get e i s) (act (lastn (e_rank e) (o ++ unflat (skipn q D) i)) s');
  l_inner : forall o s s', R o (prodZ (skipn q D)) s s' -> in_bounds (olim q D) o ->
    (q < length D)%nat ->
    exists s1, reset_at e (length D) (length D - 1) 0 s = Ok s1 /\ Q o 0%nat s1 s';
  l_again : forall o s s', Q o 0%nat s s' -> in_bounds (olim q D) o -> (q < length D)%nat ->
    exists s1, reset_at e (length D) (length D - 1) 0 s = Ok s1 /\ Q o 0%nat s1 s';
  l_inner0 : forall o s s', R o (prodZ (skipn q D)) s s' -> in_bounds (olim q D) o ->
    q = length D -> Q o 0%nat s s';
  l_reset : forall o m s s', Q o m s s' -> in_bounds (olim q D) o -> (m < q)%nat ->
    exists s1, reset_at e (length D) (q - 1 - m) (nth (q - 1 - m) o 0) s = Ok s1 /\ Q o (m + 1)%nat s1 s';
  l_step : forall o m s s', Q o m s s' -> in_bounds (olim q D) o -> (m < q)%nat ->
    (forall j, (q - 1 - m < j < q)%nat -> nth j o 0 + 1 = nth j (olim q D) 0) ->
    nth (q - 1 - m) o 0 + 1 < nth (q - 1 - m) (olim q D) 0 ->
    exists s1, step_at e (length D) (q - 1 - m) s = Ok s1 /\ R (succ_at o m) 0 s1 s'
}.

(** The expression may take part in an iteration of shape [D] with [q] outer dimensions. *)
Record compat {A : Type} (e : expression A) (need : nat) (D : list Z) (q : nat) : Prop := {
  cp_nonneg : nonneg D;
  cp_q : (q <= length D)%nat;
  cp_rank : (e_rank e <= length D)%nat;
  cp_dims : lastn (e_rank e) D = e_dims e;
  cp_inner : match e_inner e with None => True | Some k => (length D - q <= k)%nat end;
  cp_need : (need <= length D - q)%nat;
  cp_rep : e_rep e = true \/ e_rank e = length D
}.

Arguments laws {A S} e act D q R Q.
Arguments compat {A} e need D q.

(** [e] computes [act] from state [s0].  [need] is the number of inner dimensions that the
    iteration must provide (0 except for the expressions of [lanes]). *)
Definition computes {A S : Type} (e : expression A) (act : action A S) (s0 : S) (need : nat) : Prop :=
  nonneg (e_dims e) /\
  forall D q, compat e need D q ->
    exists R Q, laws e act D q R Q /\ R (repeat 0 q) 0 (e_init e) s0.
Arguments computes {A S} e act s0 need.
