(** Theorems for C67: a reference to a slice leads to its elements and its mapping.

    [wf_map m] is what the Rust types guarantee about mappings (Wf.v).  [Desc p m] at address [(o, 0)] of
    memory [h] is the descriptor inside a view or a tensor. *)
From Verif Require Import Base Spec SpecFacts Shape Mapping Index View Wf MapOps Tensor Handle PropsView.
Unset Strict Implicit.

Lemma bytes_nonneg ds : 0 <= fold_right Z.add 0 (map dim_bytes ds).
Proof. induction ds as [|[c|] ds IH]; cbn [map dim_bytes fold_right]; lia. Qed.

Lemma bytes_zero ds : fold_right Z.add 0 (map dim_bytes ds) = 0 -> Forall (fun d => exists c, d = DConst c) ds.
Proof.
  induction ds as [|[c|] ds IH]; cbn [map dim_bytes fold_right]; intros H.
  - constructor.
  - constructor; [eauto|]. apply IH. lia.
  - pose proof (@bytes_nonneg ds). lia.
Qed.

Lemma consts_dims ds dims : Forall (fun d => exists c, d = DConst c) ds -> Forall2 dim_ok ds dims -> dims = map dim_default ds.
Proof.
  intros H F. induction F as [|d n ds dims E F IH]; [reflexivity|]. inversion H as [|? ? [c ->] H']; subst.
  cbn in *. subst n. f_equal. now apply IH.
Qed.

(** If the mapping takes up no space, its type says what it is. *)
Lemma unit_only m : wf_map m -> map_bytes (m_layout m) (m_ty m) = 0 -> m = map_unit (m_layout m) (m_ty m).
Proof.
  intros [_ HT _ HL] H. destruct m as [[|ds] dims|[|ds] dims st]; cbn [m_layout m_ty map_bytes shape_bytes strides_bytes] in *; try discriminate.
  - cbn. f_equal. apply consts_dims; [now apply bytes_zero|exact HT].
  - pose proof (@bytes_nonneg ds). assert (ds = []) by (destruct ds; [reflexivity|cbn [length] in H; lia]). subst ds.
    cbn in HT. inversion HT; subst. cbn in HL. destruct st; [reflexivity|discriminate].
Qed.

(** ** What takes up no space carries no information, and the other way round *)

(** The size test of raw_slice.rs and slice.rs is right: the mapping takes up no space exactly if the type admits
    only one mapping. *)
Theorem c67_size : forall l ty m, wf_map m -> m_layout m = l -> m_ty m = ty ->
  (map_bytes l ty = 0 <-> forall m', wf_map m' -> m_layout m' = l -> m_ty m' = ty -> m' = m).
Proof.
  intros l ty m W <- <-. split.
  - intros H m' W' L T. rewrite (unit_only W H), (@unit_only m' W'); rewrite L, T; auto.
  - intros H. destruct (Z.eq_dec (map_bytes (m_layout m) (m_ty m)) 0) as [E|NE]; [exact E|exfalso].
    (* another mapping: with a run-time dimension changed, or another stride *)
    destruct W as [HN HT HW HL]. destruct m as [ty dims|ty dims st]; cbn [m_layout m_ty m_dims m_strides map_bytes] in *.
    + assert (X : exists dims', dims' <> dims /\ nonneg dims' /\ typed ty dims').
      { destruct ty as [|ds].
        { exists (0 :: dims). split; [intros E; apply (f_equal (@length Z)) in E; cbn in E; lia|]. split; [constructor; [lia|exact HN]|exact I]. }
        cbn [typed shape_bytes] in *. clear H HL HW. revert dims HN HT. induction ds as [|d ds IH]; intros dims HN HT; [now destruct NE|].
        inversion HT as [|? n ? dims0 D F]; subst. inversion HN; subst. destruct d as [c|].
        - destruct (IH NE dims0) as (d' & A & B & C); auto. exists (n :: d'). split; [congruence|]. split; constructor; auto.
        - exists (n + 1 :: dims0). split; [intros E; injection E; lia|]. split; (constructor; [first [exact I|lia]|assumption]). }
      destruct X as (dims' & A & B & C). apply A.
      enough (E : DenseM ty dims' = DenseM ty dims) by congruence. apply H; try reflexivity.
      constructor; auto. cbn. apply row_major_length.
    + destruct st as [|s st].
      * destruct dims as [|d dims]; [|discriminate]. destruct ty as [|ds].
        -- enough (E : StridedM SDynRank [0] [0] = StridedM SDynRank [] []) by congruence. apply H; try reflexivity.
           constructor; cbn; auto. constructor; [lia|constructor].
        -- cbn in HT. inversion HT; subst. now apply NE.
      * enough (E : StridedM ty dims (s + 1 :: st) = StridedM ty dims (s :: st)) by (injection E; lia).
        apply H; try reflexivity. constructor; auto.
Qed.
Print Assumptions c67_size.

(** ** Following a reference *)

(** A view or tensor dereferenced to a slice: the slice has its pointer and its mapping.  In particular the
    assertion "ZST not allowed" never fails and elements are never taken for a descriptor. *)
Theorem c67_deref : forall T (h : list (object T)) o p m,
  nth_error h o = Some (Desc p m) -> wf_map m ->
  exists s, as_slice h (m_layout m) (m_ty m) (o, 0) = Ok s /\
            slice_ptr h (m_layout m) (m_ty m) s = Ok p /\ slice_mapping h (m_layout m) (m_ty m) s = Ok m.
Proof.
  intros T h o p m E W. unfold as_slice, slice_ptr, slice_mapping, from_slice.
  destruct (Z.ltb_spec 0 (map_bytes (m_layout m) (m_ty m))) as [H|H]; cbn [assert bind].
  - exists (o, 0). unfold desc_at. cbn [fst snd]. rewrite E. repeat split; reflexivity.
  - exists p. unfold desc_at. cbn [fst snd]. rewrite E. split; [reflexivity|]. split; [reflexivity|]. f_equal. symmetry. apply unit_only; [exact W|].
    assert (0 <= map_bytes (m_layout m) (m_ty m)); [|lia]. clear. unfold map_bytes, shape_bytes, strides_bytes. destruct (m_layout m), (m_ty m) as [|ds]; try lia; pose proof (@bytes_nonneg ds); lia.
Qed.
Print Assumptions c67_deref.

(** An array dereferenced to a slice: the slice is its elements with the constant dimensions; it panics
    exactly if the number of elements is no [usize]. *)
Theorem c67_array : forall T (h : list (object T)) cs a, let ds := map DConst cs in let ty := STuple ds in
  array_deref ds a = Panic /\ sh_checked_len cs = None \/
  array_deref ds a = Ok a /\ slice_ptr h Dense ty a = Ok a /\ slice_mapping h Dense ty a = Ok (DenseM ty cs) /\
    slice_as_nested a = a.
Proof.
  intros T h cs a ds ty. assert (D : map dim_default ds = cs) by (unfold ds; rewrite map_map; apply map_id).
  unfold array_deref. rewrite D. destruct (sh_checked_len cs) as [n|] eqn:E; [right|now left].
  assert (Z0 : map_bytes Dense ty = 0).
  { cbn. unfold ds. clear. induction cs as [|c cs IH]; [reflexivity|]. cbn [map dim_bytes fold_right]. lia. }
  unfold slice_ptr, slice_mapping. rewrite Z0. cbn [Z.ltb Z.compare]. unfold map_unit, ty. rewrite D. repeat split.
Qed.
Print Assumptions c67_array.

(** A slice with constant dimensions is its elements, whoever owns it: taking it for a nested array gives the
    address of the first element. *)
Theorem c67_nested : forall T (h : list (object T)) o p cs, let ty := STuple (map DConst cs) in
  nth_error h o = Some (Desc p (DenseM ty cs)) ->
  exists s, as_slice h Dense ty (o, 0) = Ok s /\ slice_as_nested s = p.
Proof.
  intros T h o p cs ty E. exists p. split; [|reflexivity]. unfold as_slice, desc_at. cbn [fst snd]. rewrite E.
  assert (Z0 : map_bytes Dense ty = 0).
  { cbn. unfold ty. clear. induction cs as [|c cs IH]; [reflexivity|]. cbn [map dim_bytes fold_right]. lia. }
  rewrite Z0. reflexivity.
Qed.
Print Assumptions c67_nested.

(** Going back and forth between views and slices any number of times changes nothing: every descriptor made on the way,
    and with it the last one, has the pointer and the mapping of the first, and the descriptors there were are
    left alone. *)
Theorem c67_back_and_forth : forall T k (h : list (object T)) o p m,
  nth_error h o = Some (Desc p m) -> wf_map m ->
  exists ob, deref_expr k h (m_layout m) (m_ty m) (o, 0) = Ok (h ++ repeat (Desc p m) k, (ob, 0)) /\
    nth_error (h ++ repeat (Desc p m) k) ob = Some (Desc p m).
Proof.
  induction k as [|k IH]; intros h o p m E W.
  - exists o. cbn [deref_expr repeat]. rewrite app_nil_r. now split.
  - destruct (c67_deref E W) as (s & A & B & C). cbn [deref_expr]. rewrite A. cbn [bind]. unfold slice_expr. rewrite B, C. cbn [bind].
    destruct (IH (h ++ [Desc p m]) (length h) p m) as (ob & X & Y); auto.
    { rewrite nth_error_app2 by lia. now rewrite Nat.sub_diag. }
    rewrite <- app_assoc in X, Y. exists ob. split; [exact X|exact Y].
Qed.
Print Assumptions c67_back_and_forth.

(** A tensor of run-time shape, a strided view of its column, a view of a 2x2 array and a view of one element in strided
    layout, which has no strides. *)
Example c67_example :
  let d2 := STuple [DDyn; DDyn] in let d1 := STuple [DDyn] in let c22 := STuple [DConst 2; DConst 2] in
  let h := [Block [1; 2; 3; 4; 5; 6]; Desc (0%nat, 0) (DenseM d2 [2; 3]); Desc (0%nat, 1) (StridedM d1 [2] [3]);
            Desc (0%nat, 2) (DenseM c22 [2; 2]); Desc (0%nat, 5) (StridedM (STuple []) [] [])] in
  Forall (fun o => match o with Desc _ m => wf_map m | Block _ => True end) h /\
  map_bytes Dense d2 = 16 /\ map_bytes Strided d1 = 16 /\ map_bytes Dense c22 = 0 /\ map_bytes Strided (STuple []) = 0 /\
  map_bytes Strided c22 = 16 /\
  as_slice h Dense d2 (1%nat, 0) = Ok (1%nat, 0) /\ slice_ptr h Dense d2 (1%nat, 0) = Ok (0%nat, 0) /\
  as_slice h Strided d1 (2%nat, 0) = Ok (2%nat, 0) /\ slice_mapping h Strided d1 (2%nat, 0) = Ok (StridedM d1 [2] [3]) /\
  as_slice h Dense c22 (3%nat, 0) = Ok (0%nat, 2) /\ slice_mapping h Dense c22 (0%nat, 2) = Ok (DenseM c22 [2; 2]) /\
  as_slice h Strided (STuple []) (4%nat, 0) = Ok (0%nat, 5) /\ slice_ptr h Strided (STuple []) (0%nat, 5) = Ok (0%nat, 5) /\
  (* a slice of the wrong kind would be undefined *)
  slice_ptr h Dense d2 (0%nat, 2) = UB /\
  array_deref [DConst (2 ^ 32); DConst (2 ^ 32)] (0%nat, 0) = Panic.
Proof.
  cbv zeta. split; [repeat constructor; cbn; lia|]. repeat split; reflexivity.
Qed.
