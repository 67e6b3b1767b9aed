(** C65: the tables of result layouts and lemmas on them. *)
From Verif Require Import Base Spec SpecFacts Shape Mapping Index View Wf MappingFacts MapOps ReshapeFacts IndexFacts ViewFacts ViewMore.
Unset Strict Implicit.

(** The tables of axis.rs:79-101, where [i] is the dimension that the axis denotes in an array of the given
    rank.  [Rows] and [Cols] count from the end and [Const] from the start, which matters if the rank is only
    known at run time. *)
Definition static_rank (ty : shty) : bool := match ty with STuple _ => true | SDynRank => false end.
Definition keep_table (ty : shty) (rank : nat) (a : axis) (i : nat) (l : layout) : layout :=
  match a with
  | AxDyn _ => Strided
  | AxRows => l
  | AxCols => Strided
  | AxConst _ => if static_rank ty && (i + 1 =? rank)%nat then l else Strided
  end.
Definition split_table (ty : shty) (a : axis) (i : nat) (l : layout) : layout :=
  match a with
  | AxDyn _ => Strided
  | AxConst _ => if (i =? 0)%nat then l else Strided
  | AxRows | AxCols => if static_rank ty && (i =? 0)%nat then l else Strided
  end.

Lemma layout_nonempty d s l : sh_layout (sh_prepend d s) l = Strided.
Proof. unfold sh_layout, sh_prepend. destruct s as [|ds]; auto. now destruct (_ <? _)%nat. Qed.
Lemma crest_tuple n : forall ds, crest n (STuple ds) = STuple (skipn (S n) ds).
Proof.
  induction n as [|n IH]; intros ds; cbn [crest sh_tail]; [now destruct ds|].
  rewrite IH. destruct ds as [|d ds]; [now rewrite !skipn_nil|]. reflexivity.
Qed.
Lemma crest_dyn n : crest n SDynRank = SDynRank.
Proof. induction n; auto. Qed.
Lemma layout_skipn {A} (ds : list A) n l (f : list A -> shty) :
  (forall ds, sh_layout (f ds) l = match ds with [] => l | _ => Strided end) ->
  sh_layout (f (skipn n ds)) l = if (length ds <=? n)%nat then l else Strided.
Proof.
  intros Hf. rewrite Hf. pose proof (skipn_length n ds) as H. destruct (skipn n ds); cbn [length] in H;
    destruct (Nat.leb_spec (length ds) n); auto; lia.
Qed.

Lemma keep_is ty dims a i l :
  typed ty dims -> is_axis a (length dims) i -> ax_keep a ty l = keep_table ty (length dims) a i l.
Proof.
  intros HT (Hi & HA). unfold ax_keep. destruct a as [n| | |n]; cbn [ax_rest keep_table].
  - subst i. destruct ty as [|ds]; [now rewrite crest_dyn|]. pose proof (Forall2_len HT) as HL.
    cbn [static_rank andb]. rewrite crest_tuple. rewrite layout_skipn with (f := STuple) by (now intros []).
    destruct (Nat.leb_spec (length ds) (S n)), (Nat.eqb_spec (n + 1) (length dims)); auto; lia.
  - cbn [cinit]. unfold sh_prepend. destruct ty; reflexivity.
  - reflexivity.
  - reflexivity.
Qed.
Lemma split_is ty dims a i l :
  typed ty dims -> is_axis a (length dims) i -> ax_split a ty l = split_table ty a i l.
Proof.
  intros HT (Hi & HA). unfold ax_split. destruct a as [n| | |n]; cbn [ax_init split_table].
  - subst i. destruct n as [|n]; cbn [cinit Nat.eqb]; [now destruct l|]. apply layout_nonempty.
  - destruct ty as [|ds]; [reflexivity|]. pose proof (Forall2_len HT) as HL. cbn [static_rank andb sh_reverse].
    rewrite crest_tuple. rewrite layout_skipn with (f := fun d => sh_reverse (STuple d)).
    + rewrite rev_length. destruct (Nat.leb_spec (length ds) 2), (Nat.eqb_spec i 0); auto; lia.
    + intros [|d ds']; auto. unfold sh_layout, sh_reverse. cbn [rev]. now destruct (rev ds').
  - destruct ty as [|ds]; [reflexivity|]. pose proof (Forall2_len HT) as HL. cbn [static_rank andb sh_reverse].
    rewrite crest_tuple. rewrite layout_skipn with (f := fun d => sh_reverse (STuple d)).
    + rewrite rev_length. destruct (Nat.leb_spec (length ds) 1), (Nat.eqb_spec i 0); auto; lia.
    + intros [|d ds']; auto. unfold sh_layout, sh_reverse. cbn [rev]. now destruct (rev ds').
  - reflexivity.
Qed.

(** ** Layouts of the results *)

Ltac lay := repeat match goal with
  | H : bind ?o _ = Ok _ |- _ => destruct o; cbn [bind] in H; try discriminate H
  end.
Lemma remap_layout l ty m m' : m_remap l ty m = Ok m' -> m_layout m' = l.
Proof. unfold m_remap. destruct l; intros H; lay; injection H as <-; reflexivity. Qed.
Lemma prepend_layout l ty m s st m' : m_prepend_dim l ty m s st = Ok m' -> m_layout m' = l.
Proof. unfold m_prepend_dim. destruct l; intros H; lay; injection H as <-; reflexivity. Qed.
Lemma remove_layout l ty m i m' : m_remove_dim l ty m i = Ok m' -> m_layout m' = l.
Proof. unfold m_remove_dim. destruct l; intros H; lay; injection H as <-; reflexivity. Qed.
Lemma resize_layout l ty m i n m' : m_resize_dim l ty m i n = Ok m' -> m_layout m' = l.
Proof. unfold m_resize_dim. destruct l; intros H; lay; injection H as <-; reflexivity. Qed.
Lemma reorder_layout l m m' : m_reorder l m = Ok m' -> m_layout m' = l.
Proof. unfold m_reorder. destruct l; intros H; lay; injection H as <-; reflexivity. Qed.
Lemma permute_layout l ty m p m' : m_permute l ty m p = Ok m' -> m_layout m' = l.
Proof.
  unfold m_permute. destruct l; intros H.
  - destruct (assert _); try discriminate H. cbn [bind] in H. destruct (assert _); try discriminate H. cbn [bind] in H.
    now apply remap_layout in H.
  - lay. injection H as <-. reflexivity.
Qed.
Lemma reshape_layout m ty d m' : m_reshape m ty d = Ok m' -> m_layout m' = m_layout m.
Proof.
  unfold m_reshape. destruct m as [t ds|t ds ss]; intros H; lay; [now injection H as <-|].
  destruct (reshape_rest _ _ _ _ _). lay. now injection H as <-.
Qed.
Lemma view_layout xs : forall s m o m', view_index xs s m = Ok (o, m') -> m_layout m' = vi_layout xs (m_layout m).
Proof.
  destruct xs as [|x xs]; intros s m o m' H.
  - cbn in H. injection H as _ <-. cbn [vi_layout]. now destruct (m_layout m).
  - cbn [view_index] in H. destruct (view_index xs _ m) as [[p inner]| | |]; try discriminate H. cbn [bind] in H.
    destruct (m_dim m _); try discriminate H. cbn [bind] in H. destruct (m_stride m _); try discriminate H. cbn [bind] in H.
    destruct x as [i| |lo hi|lo hi st]; repeat (match goal with
      | H : bind ?o _ = Ok _ |- _ => destruct o as [?r| | |] eqn:?E; cbn [bind] in H; try discriminate H; try destruct r
      end); injection H as _ <-;
    match goal with
    | E : m_remap _ _ _ = Ok _ |- _ => now apply remap_layout in E
    | E : m_prepend_dim _ _ _ _ _ = Ok _ |- _ => now apply prepend_layout in E
    end.
Qed.

(** Indices that leave a contiguous part: some fixed coordinates, then at most one range, then full dimensions. *)
Definition is_fixed (x : dim_index) : Prop := match x with IxUsize _ => True | _ => False end.
Definition is_plain (x : dim_index) : Prop := match x with IxFull | IxRange _ _ => True | _ => False end.
Definition block (xs : list dim_index) : Prop :=
  exists fixed rest, xs = fixed ++ rest /\ Forall is_fixed fixed /\
    (rest = [] \/ exists x n, rest = x :: repeat IxFull n /\ is_plain x).

Lemma outer_dense xs l : vi_outer xs l = Dense <-> l = Dense /\ xs = repeat IxFull (length xs).
Proof.
  induction xs as [|x xs IH]; cbn [vi_outer length repeat]; [intuition|].
  destruct x; try (split; [discriminate|intros [_ H]; discriminate]). rewrite IH.
  split; intros [H1 H2]; split; auto; [now rewrite H2 at 1|now injection H2].
Qed.
Lemma block_dense xs l : vi_layout xs l = Dense <-> l = Dense /\ block xs.
Proof.
  induction xs as [|x xs IH]; cbn [vi_layout].
  - split; [|tauto]. intros H. split; auto. exists [], []. repeat split; auto.
  - assert (HP : is_plain x -> (vi_outer xs l = Dense <-> l = Dense /\ block (x :: xs))).
    { intros Hx. rewrite outer_dense. split; intros [Hl H]; split; auto.
      - exists [], (x :: xs). repeat split; auto. right. exists x, (length xs). split; auto. now rewrite H at 1.
      - destruct H as ([|f fx] & rest & E & HF & HR).
        + cbn [app] in E. subst rest. destruct HR as [HR|(y & n & HR & _)]; [discriminate|]. injection HR as -> ->.
          now rewrite repeat_length.
        + injection E as <- _. inversion HF as [|? ? Hf]; subst. destruct x; contradiction. }
    destruct x as [i| |lo hi|lo hi st]; try (apply HP; exact I).
    + rewrite IH. split; intros [Hl H]; split; auto.
      * destruct H as (fx & rest & -> & HF & HR). exists (IxUsize i :: fx), rest. repeat split; auto. constructor; [exact I|auto].
      * destruct H as ([|f fx] & rest & E & HF & HR).
        { cbn [app] in E. subst rest. destruct HR as [HR|(y & n & HR & Hy)]; [discriminate|]. injection HR as <- _. contradiction. }
        injection E as _ ->. inversion HF; subst. exists fx, rest. auto.
    + split; [discriminate|]. intros [_ ([|f fx] & rest & E & HF & HR)].
      * cbn [app] in E. subst rest. destruct HR as [HR|(y & n & HR & Hy)]; [discriminate|]. injection HR as <- _. contradiction.
      * injection E as <- _. inversion HF as [|? ? Hf]; subst. contradiction.
Qed.
