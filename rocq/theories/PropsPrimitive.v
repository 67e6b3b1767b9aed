(** C70: the operations on mappings, asked for either layout, give the right mapping or panic. *)
From Verif Require Import Base Spec SpecFacts Shape Mapping Index View Wf MappingFacts MapOps IndexFacts.
Unset Strict Implicit.

Lemma lay_dense m : is_dense (m_layout m) = true -> m_strides m = row_major (m_dims m).
Proof. now destruct m. Qed.

Ltac dots := rewrite !m_offset_dot by (cbn [m_strides m_dims]; rewrite ?row_major_length, ?rev_length, ?insert_at_length, ?upd_length; cbn [length]; auto; try lia).

(** [prepend_dim] succeeds exactly if the target type takes the dimensions and, asked for a dense mapping, the given
    mapping is dense and the stride is its length; the result then addresses what was asked for. *)
Theorem c70_prepend : forall l ty m n s,
  length (m_strides m) = length (m_dims m) ->
  let fine := typed ty (n :: m_dims m) /\
    (l = Dense -> m_layout m = Dense /\ s = prodZ (m_dims m)) in
  (fine -> exists m', m_prepend_dim l ty m n s = Ok m' /\ m_layout m' = l /\ m_ty m' = ty /\
     m_dims m' = n :: m_dims m /\
     forall i idx, length idx = length (m_dims m) -> m_offset m' (i :: idx) = i * s + m_offset m idx) /\
  (~ fine -> m_prepend_dim l ty m n s = Panic).
Proof.
  intros l ty m n s HL fine. subst fine. rewrite <- accepts_typed. destruct l.
  - rewrite m_prepend_dense. destruct (is_dense (m_layout m)) eqn:D.
    + destruct (Z.eqb_spec s (prodZ (m_dims m))) as [->|N]; cbn [andb].
      * destruct (accepts ty (n :: m_dims m)) eqn:A.
        -- split; intros H.
           ++ eexists. split; [reflexivity|]. repeat split. intros i idx HI. dots.
              rewrite (lay_dense D). cbn [m_strides m_dims row_major dot]. lia.
           ++ exfalso. apply H. split; auto. intros _. split; auto. destruct m; [reflexivity|discriminate].
        -- split; intros H; [|reflexivity]. destruct H; discriminate.
      * split; intros H; [|reflexivity]. exfalso. now apply N, (proj2 H).
    + cbn [andb]. split; intros H; [|reflexivity]. destruct H as [_ H]. destruct (H eq_refl) as [E _]. now rewrite E in D.
  - rewrite m_prepend_strided by auto. destruct (accepts ty (n :: m_dims m)) eqn:A.
    + split; intros H.
      * eexists. split; [reflexivity|]. repeat split. intros i idx HI. dots.
        cbn [m_strides dot]. lia.
      * exfalso. apply H. split; auto. discriminate.
    + split; intros H; [|reflexivity]. destruct H; discriminate.
Qed.

(** [remove_dim]: a dense mapping without its first dimension only. *)
Theorem c70_remove : forall l ty m k,
  length (m_strides m) = length (m_dims m) ->
  let fine := (k < length (m_dims m))%nat /\ typed ty (remove_at k (m_dims m)) /\
    (l = Dense -> m_layout m = Dense /\ k = 0%nat) in
  (fine -> exists m', m_remove_dim l ty m k = Ok m' /\ m_layout m' = l /\ m_ty m' = ty /\
     m_dims m' = remove_at k (m_dims m) /\
     forall idx, length idx = (length (m_dims m) - 1)%nat -> m_offset m' idx = m_offset m (insert_at k 0 idx)) /\
  (~ fine -> m_remove_dim l ty m k = Panic).
Proof.
  intros l ty m k HL fine. subst fine. rewrite <- accepts_typed. destruct l.
  - destruct (Nat.eq_dec (m_rank m) 0) as [R0|R].
    { unfold m_rank in R0. split; [lia|]. intros _. cbn [m_remove_dim].
      destruct (is_dense (m_layout m)); [|reflexivity]. cbn [assert bind].
      destruct (Nat.eqb_spec k 0) as [->|]; [|reflexivity]. cbn [assert bind]. unfold sh_remove_dim. now rewrite R0. }
    rewrite m_remove_dense by lia. unfold m_rank in R. destruct (is_dense (m_layout m)) eqn:D.
    + destruct (Nat.eqb_spec k 0) as [->|N]; cbn [andb].
      * destruct (accepts ty (remove_at 0 (m_dims m))) eqn:A.
        -- split; intros H.
           ++ eexists. split; [reflexivity|]. repeat split. intros idx HI.
              assert (LR : length (remove_at 0 (m_dims m)) = (length (m_dims m) - 1)%nat) by (apply remove_at_length; lia).
              dots. rewrite dot_remove by lia. rewrite (lay_dense D), row_major_remove0. cbn [m_strides]. lia.
           ++ exfalso. apply H. split; [lia|]. split; auto. intros _. split; auto. destruct m; [reflexivity|discriminate].
        -- split; intros H; [|reflexivity]. destruct H as (_ & H & _); discriminate.
      * split; intros H; [|reflexivity]. destruct H as (_ & _ & H). now destruct (H eq_refl).
    + cbn [andb]. split; intros H; [|reflexivity]. destruct H as (_ & _ & H). destruct (H eq_refl) as [E _]. now rewrite E in D.
  - destruct (Nat.ltb_spec k (length (m_dims m))) as [K|K].
    + rewrite m_remove_strided by auto. destruct (accepts ty (remove_at k (m_dims m))) eqn:A.
      * split; intros H.
        -- eexists. split; [reflexivity|]. repeat split. intros idx HI.
           assert (LR : length (remove_at k (m_dims m)) = (length (m_dims m) - 1)%nat) by (apply remove_at_length; lia).
           assert (LS : length (remove_at k (m_strides m)) = (length (m_dims m) - 1)%nat) by (rewrite remove_at_length; lia).
           dots. rewrite dot_remove by lia. cbn [m_strides]. lia.
        -- exfalso. apply H. split; auto. split; auto. discriminate.
      * split; intros H; [|reflexivity]. destruct H as (_ & H & _); discriminate.
    + split; [lia|]. intros _. cbn [m_remove_dim]. unfold m_rank. destruct (Nat.ltb_spec k (length (m_dims m))); [lia|]. reflexivity.
Qed.

(** [resize_dim]: of a dense mapping the first dimension only. *)
Theorem c70_resize : forall l ty m k n,
  length (m_strides m) = length (m_dims m) ->
  let fine := (k < length (m_dims m))%nat /\ typed ty (upd (m_dims m) k n) /\
    (l = Dense -> m_layout m = Dense /\ k = 0%nat) in
  (fine -> exists m', m_resize_dim l ty m k n = Ok m' /\ m_layout m' = l /\ m_ty m' = ty /\
     m_dims m' = upd (m_dims m) k n /\
     forall idx, length idx = length (m_dims m) -> m_offset m' idx = m_offset m idx) /\
  (~ fine -> m_resize_dim l ty m k n = Panic).
Proof.
  intros l ty m k n HL fine. subst fine. rewrite <- accepts_typed. destruct l.
  - destruct (Nat.eq_dec (m_rank m) 0) as [R0|R].
    { unfold m_rank in R0. split; [lia|]. intros _. cbn [m_resize_dim].
      destruct (is_dense (m_layout m)); [|reflexivity]. cbn [assert bind].
      destruct (Nat.eqb_spec k 0) as [->|]; [|reflexivity]. cbn [assert bind]. unfold sh_resize_dim. now rewrite R0. }
    rewrite m_resize_dense by lia. unfold m_rank in R. destruct (is_dense (m_layout m)) eqn:D.
    + destruct (Nat.eqb_spec k 0) as [->|N]; cbn [andb].
      * destruct (accepts ty (upd (m_dims m) 0 n)) eqn:A.
        -- split; intros H.
           ++ eexists. split; [reflexivity|]. repeat split. intros idx HI. dots.
              rewrite (lay_dense D). cbn [m_strides]. now destruct (m_dims m).
           ++ exfalso. apply H. split; [lia|]. split; auto. intros _. split; auto. destruct m; [reflexivity|discriminate].
        -- split; intros H; [|reflexivity]. destruct H as (_ & H & _); discriminate.
      * split; intros H; [|reflexivity]. destruct H as (_ & _ & H). now destruct (H eq_refl).
    + cbn [andb]. split; intros H; [|reflexivity]. destruct H as (_ & _ & H). destruct (H eq_refl) as [E _]. now rewrite E in D.
  - destruct (Nat.ltb_spec k (length (m_dims m))) as [K|K].
    + rewrite m_resize_strided by auto. destruct (accepts ty (upd (m_dims m) k n)) eqn:A.
      * split; intros H.
        -- eexists. split; [reflexivity|]. repeat split. intros idx HI. dots. reflexivity.
        -- exfalso. apply H. split; auto. split; auto. discriminate.
      * split; intros H; [|reflexivity]. destruct H as (_ & H & _); discriminate.
    + split; [lia|]. intros _. cbn [m_resize_dim]. unfold sh_resize_dim.
      destruct (Nat.ltb_spec k (length (m_dims m))); [lia|].
      destruct (dims_new_cases ty (m_rank m)) as [->| ->]; reflexivity.
Qed.

(** [reorder]: of a dense mapping with at most one dimension only.  The reversed type always takes the dimensions. *)
Theorem c70_reorder : forall l m,
  length (m_strides m) = length (m_dims m) -> typed (m_ty m) (m_dims m) ->
  let fine := l = Dense -> m_layout m = Dense /\ (length (m_dims m) < 2)%nat in
  (fine -> exists m', m_reorder l m = Ok m' /\ m_layout m' = l /\ m_ty m' = sh_reverse (m_ty m) /\
     m_dims m' = rev (m_dims m) /\
     forall idx, length idx = length (m_dims m) -> m_offset m' (rev idx) = m_offset m idx) /\
  (~ fine -> m_reorder l m = Panic).
Proof.
  intros l m HL HT fine. subst fine.
  assert (A : accepts (sh_reverse (m_ty m)) (rev (m_dims m)) = true).
  { apply accepts_typed. destruct (m_ty m) as [|ds]; [exact I|]. cbn [sh_reverse typed] in *.
    now apply Forall2_rev. }
  destruct l.
  - unfold m_reorder. rewrite sh_reverse_dims_spec, A. unfold m_rank.
    destruct (Nat.ltb_spec (length (m_dims m)) 2) as [R|R]; cbn [andb].
    + destruct (is_dense (m_layout m)) eqn:D.
      * split; intros H.
        -- eexists. split; [reflexivity|]. repeat split. intros idx HI. dots. rewrite (lay_dense D). cbn [m_strides].
           destruct (m_dims m) as [|a [|b r]]; cbn [length] in R, HI; try lia; cbn [rev app row_major dot].
           ++ reflexivity.
           ++ destruct idx as [|x [|y q]]; try discriminate HI. reflexivity.
        -- exfalso. apply H. intros _. split; auto. destruct m; [reflexivity|discriminate].
      * split; intros H; [|reflexivity]. destruct (H eq_refl) as [E _]. now rewrite E in D.
    + split; intros H; [|reflexivity]. destruct (H eq_refl); lia.
  - rewrite m_reorder_strided by auto. rewrite A. split; intros H.
    + eexists. split; [reflexivity|]. repeat split. intros idx HI. dots. cbn [m_strides]. apply dot_rev. lia.
    + exfalso. apply H. discriminate.
Qed.

(** A strided mapping of a 2 by 3 matrix in column-major order, asked for a dense one; a dense one of a matrix. *)
Example c70_example :
  let cm := StridedM (STuple [DDyn; DDyn]) [2; 3] [1; 2] in
  let d := DenseM (STuple [DDyn; DDyn]) [2; 3] in
  m_remove_dim Dense (STuple [DDyn]) cm 0 = Panic /\ m_resize_dim Dense (STuple [DDyn; DDyn]) cm 0 1 = Panic /\
  m_prepend_dim Dense (STuple [DDyn; DDyn; DDyn]) cm 4 6 = Panic /\
  m_prepend_dim Dense (STuple [DDyn; DDyn; DDyn]) d 4 6 = Ok (DenseM (STuple [DDyn; DDyn; DDyn]) [4; 2; 3]) /\
  m_prepend_dim Dense (STuple [DDyn; DDyn; DDyn]) d 4 7 = Panic /\
  m_remove_dim Dense (STuple [DDyn]) d 0 = Ok (DenseM (STuple [DDyn]) [3]) /\ m_remove_dim Dense (STuple [DDyn]) d 1 = Panic /\
  m_remove_dim Strided (STuple [DDyn]) d 1 = Ok (StridedM (STuple [DDyn]) [2] [3]) /\
  m_remove_dim Strided (STuple [DConst 2]) d 1 = Ok (StridedM (STuple [DConst 2]) [2] [3]) /\
  m_remove_dim Strided (STuple [DConst 3]) d 1 = Panic /\
  m_reorder Dense d = Panic /\ m_reorder Strided d = Ok (StridedM (STuple [DDyn; DDyn]) [3; 2] [1; 3]) /\
  m_reorder Dense (StridedM (STuple [DDyn]) [2] [3]) = Panic.
Proof. repeat split; reflexivity. Qed.

Print Assumptions c70_prepend.
Print Assumptions c70_remove.
Print Assumptions c70_resize.
Print Assumptions c70_reorder.
