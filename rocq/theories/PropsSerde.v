(** The properties of serialization: C42, C43. *)
From Verif Require Import Base Spec SpecFacts Shape Mapping Index View Wf MappingFacts MapOps
  ReshapeFacts IndexFacts ViewFacts ViewMore PropsView.
From Verif Require Import Expr ExprSpec ExprFacts IterFacts SourceFacts ExprTree ExprMore PropsExpr.
From Verif Require Import Tensor TraceFacts TensorSpec TensorFacts ResizeFacts TensorOps DrainFacts OwnFacts ZipFacts.
From Verif Require Import Ops OpsFacts OpsMore Serde SerdeSpec SerdeFacts SerdeMore.
Unset Strict Implicit.

(** ** C43: deserialization rejects ragged input *)

(** Examples: elements are integers; 99 does not decode. *)
Definition zdec (v : sdata Z) : option Z :=
  match v with SItem x => if x =? 99 then None else Some x | SSeq _ _ => None end.
Definition zde (v : sdata Z) (c : Z) : call (option Z) Z := Gives (zdec v) (c + 1).
Definition zseq (l : list (sdata Z)) : sdata Z := SSeq (Some (zlen l)) l.
Definition zrow (l : list Z) : sdata Z := zseq (map SItem l).
Definition zmem : allocator := mkAlloc (fun n => n * 8 <=? isize_max) (fun a b => Z.max b (2 * a)).
Definition w0 : world Z Z := mkWorld 0 [] [] [].

Lemma zde_decides : decides zde zdec.
Proof. intros v c r c' H. unfold zde in H. congruence. Qed.
Lemma zde_returns : ~ throws zde.
Proof. intros (v & c & c' & H). discriminate. Qed.

(** Success exactly for the rectangular nests that agree with the constant dimensions, with the
    leaves as contents; an error otherwise, with every element deserialized so far dropped.
    Missing for the full statement: the size hints of the input must be small enough for the
    allocations they cause ([adequate]; see [c43_refuted]). *)
Theorem c43_partial : forall (T C E : Type) (al : allocator) (de : sdata E -> C -> call (option T) C) (dec : sdata E -> option T)
    (ds : list dimty) (v : sdata E) (w : world T C),
  nonneg (map dim_default ds) -> const_small (STuple ds) -> ty_wf (STuple ds) ->
  decides de dec -> ~ throws de -> adequate al (length ds) v ->
  (forall dims xs, typed (STuple ds) dims -> rect dec dims v xs ->
     exists cap c, zlen xs <= cap /\
       tn_deserialize al de (STuple ds) v w =
         Done (Some (mkTensor (STuple ds) (settle ds dims) xs cap)) (after c xs [] w)) /\
  ((forall dims xs, typed (STuple ds) dims -> ~ rect dec dims v xs) ->
     exists c ms dr, tn_deserialize al de (STuple ds) v w = Done None (after c ms dr w) /\ Permutation ms dr).
Proof.
  intros T C E al de dec ds v w HN CS W D NT A. destruct (deserialize_iff w HN CS W D NT A) as [H1 H2]. split; [exact H1|].
  intros H. destruct (H2 H) as (w' & E1 & c & ms & dr & -> & P). exists c, ms, dr. auto.
Qed.
Print Assumptions c43_partial.

(** Two rows of three, and the same with a constant number of columns. *)
Example c43_ex : exists cap, tn_deserialize zmem zde (STuple [DDyn; DConst 3]) (zseq [zrow [1; 2; 3]; zrow [4; 5; 6]]) w0 =
  Done (Some (mkTensor (STuple [DDyn; DConst 3]) [2; 3] [1; 2; 3; 4; 5; 6] cap)) (mkWorld 6 [1; 2; 3; 4; 5; 6] [] []).
Proof. eexists. vm_compute. reflexivity. Qed.
Example c43_ex_adequate : adequate zmem 2 (zseq [zrow [1; 2; 3]; zrow [4; 5; 6]]).
Proof. split; [reflexivity|]. intros k H. assert (E : box 2 (zseq [zrow [1; 2; 3]; zrow [4; 5; 6]]) = 6) by reflexivity. rewrite E in H. cbn [al_ok zmem]. apply Z.leb_le. unfold isize_max. lia. Qed.
(** Ragged; wrong number of columns; too shallow; too deep; an element that does not decode: errors,
    with what was deserialized dropped. *)
Example c43_ex_errors :
  tn_deserialize zmem zde (STuple [DDyn; DDyn]) (zseq [zrow [1; 2; 3]; zrow [4; 5]]) w0 = Done None (mkWorld 5 [1; 2; 3; 4; 5] [] [4; 5; 1; 2; 3]) /\
  tn_deserialize zmem zde (STuple [DDyn; DConst 2]) (zseq [zrow [1; 2; 3]]) w0 = Done None (mkWorld 3 [1; 2; 3] [] [1; 2; 3]) /\
  tn_deserialize zmem zde (STuple [DConst 2; DDyn]) (zseq [zrow [1]]) w0 = Done None (mkWorld 1 [1] [] [1]) /\
  tn_deserialize zmem zde (STuple [DDyn; DDyn]) (zrow [1; 2]) w0 = Done None w0 /\
  tn_deserialize zmem zde (STuple [DDyn]) (zseq [zrow [1; 2]]) w0 = Done None (mkWorld 1 [] [] []) /\
  tn_deserialize zmem zde (STuple [DDyn; DDyn]) (zseq [zrow [1; 2]; zrow [3; 99]]) w0 = Done None (mkWorld 4 [1; 2; 3] [] [3; 1; 2]).
Proof. vm_compute. auto 10. Qed.

(** For every input, hint, allocator and element deserializer (it may panic at any call and answer
    differently each time): the process is not aborted and nothing undefined happens; a tensor that
    is returned is consistent and holds exactly the deserialized elements; on an error and on a panic
    every element deserialized so far is dropped, once. *)
Theorem c43_safe : forall (T C E : Type) (al : allocator) (de : sdata E -> C -> call (option T) C)
    (ds : list dimty) (v : sdata E) (w : world T C),
  nonneg (map dim_default ds) -> const_small (STuple ds) -> ty_wf (STuple ds) ->
  match tn_deserialize al de (STuple ds) v w with
  | Done (Some t) w' => tensor_ok t /\ tn_ty t = STuple ds /\ exists c, w' = after c (tn_mem t) [] w
  | Done None w' | Unwound w' => exists c ms dr, w' = after c ms dr w /\ Permutation ms dr
  | Aborted | Fault => False
  end.
Proof.
  intros T C E al de ds v w HN CS W. pose proof (@de_tensor_post T C E al de (fun _ => None) ds HN CS W v w) as H.
  cbn [tn_deserialize]. destruct (de_tensor al de ds v w) as [[t|] w'|w'| |]; cbn [dpost] in H; try contradiction.
  - destruct H as (OK & TT & _ & _ & _ & X & _). auto.
  - destruct H as [(c & ms & dr & -> & P) _]. exists c, ms, dr. auto.
  - destruct H as [(c & ms & dr & -> & P) _]. exists c, ms, dr. auto.
Qed.
Print Assumptions c43_safe.
(** Whenever it returns, with any allocator and any size hints, the answer is right; it panics only if the size
    hints exceed the memory or the deserializer of the elements panics. *)
Theorem c43_returns : forall (T C E : Type) (al : allocator) (de : sdata E -> C -> call (option T) C) (dec : sdata E -> option T)
    (ds : list dimty) (v : sdata E) (w : world T C),
  nonneg (map dim_default ds) -> const_small (STuple ds) -> ty_wf (STuple ds) -> decides de dec ->
  match tn_deserialize al de (STuple ds) v w with
  | Done (Some t) _ => typed (STuple ds) (tn_dims t) /\ rect dec (tn_dims t) v (tn_mem t)
  | Done None _ => forall dims xs, typed (STuple ds) dims -> ~ rect dec dims v xs
  | Unwound _ => adequate al (length ds) v -> throws de
  | Aborted | Fault => False
  end.
Proof.
  intros T C E al de dec ds v w HN CS W D. pose proof (@de_tensor_post T C E al de dec ds HN CS W v w) as H.
  cbn [tn_deserialize]. destruct (de_tensor al de ds v w) as [[t|] w'|w'| |]; cbn [dpost] in H; try contradiction.
  - destruct H as (OK & TT & _ & _ & _ & _ & RC). split; [rewrite <- TT; apply (to_typed OK)|auto].
  - destruct H as [_ H]. auto.
  - apply H.
Qed.
Print Assumptions c43_returns.
Theorem c43_array_returns : forall (T C E : Type) (al : allocator) (de : sdata E -> C -> call (option T) C) (dec : sdata E -> option T)
    (ds : list dimty) (v : sdata E) (w : world T C),
  consts ds -> nonneg (map dim_default ds) -> const_small (STuple ds) -> ty_wf (STuple ds) -> decides de dec ->
  match ar_deserialize al de ds v w with
  | Done (Some xs) _ => rect dec (map dim_default ds) v xs
  | Done None _ => forall xs, ~ rect dec (map dim_default ds) v xs
  | Unwound _ => adequate al (length ds) v -> throws de
  | Aborted | Fault => False
  end.
Proof. exact @ar_deserialize_returns. Qed.
Print Assumptions c43_array_returns.
Print Assumptions c43_array_returns.
(** A hint that is too large, in the first row only: the ragged nest is refused by a panic, ... *)
Example c43_returns_ex :
  (exists w', tn_deserialize zmem zde (STuple [DDyn; DDyn]) (SSeq (Some (2 ^ 63)) [zrow [1; 2]; zrow [3]]) w0 = Unwound w') /\
  ~ adequate zmem 2 (SSeq (Some (2 ^ 63)) [zrow [1; 2]; zrow [3]]) /\
  (exists w', tn_deserialize zmem zde (STuple [DDyn; DDyn]) (SSeq (Some 4) [zrow [1; 2]; zrow [3]]) w0 = Done None w').
Proof.
  split; [eexists; vm_compute; reflexivity|]. split; [|eexists; vm_compute; reflexivity].
  intros [H _]. vm_compute in H. discriminate.
Qed.
Definition zde_throws (v : sdata Z) (c : Z) : call (option Z) Z := if c =? 3 then Throws c else Gives (zdec v) (c + 1).
Example c43_safe_ex : tn_deserialize zmem zde_throws (STuple [DDyn; DDyn]) (zseq [zrow [1; 2]; zrow [3; 4]]) w0 =
  Unwound (mkWorld 3 [1; 2; 3] [] [3; 1; 2]).
Proof. vm_compute. reflexivity. Qed.
(** More elements than announced, and no more storage; rows of the same length but another shape. *)
Example c43_edges :
  tn_deserialize (mkAlloc (fun n => n <=? 4) (fun _ n => n)) zde (STuple [DDyn]) (SSeq (Some 3) (map SItem [1; 2; 3; 4; 5])) w0 =
    Unwound (mkWorld 5 [1; 2; 3; 4; 5] [] [5; 1; 2; 3; 4]) /\
  tn_deserialize zmem zde (STuple [DDyn; DDyn; DDyn]) (zseq [zseq [zrow [1; 2]]; zseq [zrow [3]; zrow [4]]]) w0 =
    Done None (mkWorld 4 [1; 2; 3; 4] [] [3; 4; 1; 2]) /\
  (exists cap, tn_deserialize zmem zde (STuple [DDyn; DDyn]) (zseq [zrow [1; 2; 3]; zrow [4; 5; 6]]) w0 =
    Done (Some (mkTensor (STuple [DDyn; DDyn]) [2; 3] [1; 2; 3; 4; 5; 6] cap)) (mkWorld 6 [1; 2; 3; 4; 5; 6] [] [])).
Proof. split; [vm_compute; reflexivity|]. split; [vm_compute; reflexivity|]. eexists. vm_compute. reflexivity. Qed.

(** The same for arrays: the nest must have exactly the dimensions of the shape. *)
Theorem c43_array_partial : forall (T C E : Type) (al : allocator) (de : sdata E -> C -> call (option T) C) (dec : sdata E -> option T)
    (ds : list dimty) (v : sdata E) (w : world T C),
  consts ds -> nonneg (map dim_default ds) -> const_small (STuple ds) -> ty_wf (STuple ds) ->
  decides de dec -> ~ throws de -> adequate al (length ds) v ->
  (forall xs, rect dec (map dim_default ds) v xs ->
     exists c, ar_deserialize al de ds v w = Done (Some xs) (after c xs [] w)) /\
  ((forall xs, ~ rect dec (map dim_default ds) v xs) ->
     exists c ms dr, ar_deserialize al de ds v w = Done None (after c ms dr w) /\ Permutation ms dr).
Proof.
  intros T C E al de dec ds v w HC HN CS W D NT A. destruct (ar_deserialize_iff w HC HN CS W D NT A) as [H1 H2]. split; [exact H1|].
  intros H. destruct (H2 H) as (w' & E1 & c & ms & dr & -> & P). exists c, ms, dr. auto.
Qed.
Print Assumptions c43_array_partial.
Example c43_array_ex :
  ar_deserialize zmem zde [DConst 2; DConst 2] (zseq [zrow [1; 2]; zrow [3; 4]]) w0 = Done (Some [1; 2; 3; 4]) (mkWorld 4 [1; 2; 3; 4] [] []) /\
  ar_deserialize zmem zde [DConst 2; DConst 2] (zseq [zrow [1; 2]]) w0 = Done None (mkWorld 2 [1; 2] [] [1; 2]) /\
  ar_deserialize zmem zde [] (SItem 7) w0 = Done (Some [7]) (mkWorld 1 [7] [] []).
Proof. vm_compute. auto. Qed.

(** What a rectangular nest is, element by element: following the sequences to the indices in
    row-major order gives values that decode to the elements, in order. *)
Theorem c43_rect_elements : forall (T E : Type) (dec : sdata E -> option T) dims v xs,
  rect dec dims v xs ->
  Forall2 (fun idx x => exists u, sub_at v idx = Some u /\ dec u = Some x) (indices dims) xs.
Proof. exact @rect_elements. Qed.
Print Assumptions c43_rect_elements.
Example c43_rect_ex : rect zdec [2; 3] (zseq [zrow [1; 2; 3]; zrow [4; 5; 6]]) [1; 2; 3; 4; 5; 6] /\
  sub_at (zseq [zrow [1; 2; 3]; zrow [4; 5; 6]]) [1; 2] = Some (SItem 6).
Proof.
  split.
  - exists (Some 2), [zrow [1; 2; 3]; zrow [4; 5; 6]], [[1; 2; 3]; [4; 5; 6]]. repeat split.
    repeat constructor.
    + exists (Some 3), (map SItem [1; 2; 3]), [[1]; [2]; [3]]. repeat split. repeat constructor; eexists; split; reflexivity.
    + exists (Some 3), (map SItem [4; 5; 6]), [[4]; [5]; [6]]. repeat split. repeat constructor; eexists; split; reflexivity.
  - reflexivity.
Qed.

(** "No panic" fails for some inputs: [visit_seq] reserves what the size hint says, so a large hint
    panics with a capacity overflow even when the sequence is short or empty. *)
Theorem c43_refuted : exists v : sdata Z,
  rect zdec [0] v [] /\ tn_deserialize zmem zde (STuple [DDyn]) v w0 = Unwound w0.
Proof.
  exists (SSeq (Some (2 ^ 63)) []). split.
  - exists (Some (2 ^ 63)), [], []. repeat split. constructor.
  - vm_compute. reflexivity.
Qed.
Print Assumptions c43_refuted.
(** For higher ranks the hint is multiplied by the length of the first row, which can overflow.
    The allocator here never fails. *)
Theorem c43_overflow_refuted : exists v : sdata Z,
  rect zdec [1; 2] v [1; 2] /\
  exists w', tn_deserialize (mkAlloc (fun _ => true) (fun a b => b)) zde (STuple [DDyn; DDyn]) v w0 = Unwound w' /\ w_dropped w' = [1; 2].
Proof.
  exists (SSeq (Some (2 ^ 63)) [zrow [1; 2]]). split.
  - exists (Some (2 ^ 63)), [zrow [1; 2]], [[1; 2]]. repeat split. repeat constructor.
    exists (Some 2), (map SItem [1; 2]), [[1]; [2]]. repeat split. repeat constructor; eexists; split; reflexivity.
  - eexists. vm_compute. auto.
Qed.
Print Assumptions c43_overflow_refuted.

(** ** C42: serialization round-trips *)

(** The serialized form of a view: sequences nested as deep as the rank, of the lengths given by the
    dimensions, whose leaf at [idx] is the serialized element at [idx]. *)
Theorem c42_serialized : forall (T E : Type) (enc : T -> sdata E) mem v rank,
  valid_view (Z.of_nat (length mem)) v -> fits (v_dims v) -> sh_rank (v_ty v) = Some rank ->
  exists f, v_serialize (fun x => Ok (enc x)) mem v = Ok (encoded f (v_dims v)) /\
    forall idx, in_bounds (v_dims v) idx ->
      sub_at (encoded f (v_dims v)) idx = Some (f idx) /\ exists x, v_get mem v idx = Ok x /\ f idx = enc x.
Proof. exact @serialized_elements. Qed.
Print Assumptions c42_serialized.

(** Deserializing it gives the same contents; the dimensions below an empty one are forgotten.
    Missing for the full statement: see [c42_refuted].  [room]: memory for the elements, and dimensions
    below [usize::MAX]. *)
Theorem c42_partial : forall (T C E : Type) al (enc : T -> sdata E) (de : sdata E -> C -> call (option T) C) dec mem v ds xs (w : world T C),
  (forall x, dec (enc x) = Some x) -> decides de dec -> ~ throws de -> const_small (STuple ds) -> nonneg (map dim_default ds) ->
  valid_view (Z.of_nat (length mem)) v -> v_ty v = STuple ds -> room al (v_dims v) -> contents mem v xs ->
  exists data cap c, zlen xs <= cap /\
    v_serialize (fun x => Ok (enc x)) mem v = Ok data /\
    tn_deserialize al de (STuple ds) data w = Done (Some (mkTensor (STuple ds) (settle ds (v_dims v)) xs cap)) (after c xs [] w).
Proof. exact @round_trip. Qed.
Print Assumptions c42_partial.
(** Exactly when the dimensions come back: every dynamic dimension after an empty one is empty too.
    In particular always for arrays with elements and for shapes without dynamic dimensions. *)
Theorem c42_shape_iff : forall ds dims, typed (STuple ds) dims ->
  (settle ds dims = dims <->
   forall i j, (i < j)%nat -> nth_error dims i = Some 0 -> nth_error ds j = Some DDyn -> nth_error dims j = Some 0).
Proof. exact settle_iff. Qed.
Print Assumptions c42_shape_iff.
Theorem c42_nonempty : forall ds dims, typed (STuple ds) dims -> positive dims -> settle ds dims = dims.
Proof. intros ds dims TY P. apply settle_fixed; auto. apply Forall2_len in TY. auto. Qed.
Print Assumptions c42_nonempty.
Example c42_ex : forall v, v = mkView 0 (DenseM (STuple [DDyn; DConst 2]) [3; 2]) ->
  exists data cap, v_serialize (fun x => Ok (SItem x)) [1; 2; 3; 4; 5; 6] v = Ok data /\
    data = zseq [zrow [1; 2]; zrow [3; 4]; zrow [5; 6]] /\
    tn_deserialize zmem zde (STuple [DDyn; DConst 2]) data w0 =
      Done (Some (mkTensor (STuple [DDyn; DConst 2]) [3; 2] [1; 2; 3; 4; 5; 6] cap)) (mkWorld 6 [1; 2; 3; 4; 5; 6] [] []).
Proof. intros v ->. exists (zseq [zrow [1; 2]; zrow [3; 4]; zrow [5; 6]]). eexists. vm_all. Qed.
(** A transposed view is serialized in its own order. *)
Example c42_ex_permuted :
  v_serialize (fun x => Ok (SItem x)) [1; 2; 3; 4; 5; 6] (mkView 0 (StridedM (STuple [DDyn; DDyn]) [2; 3] [1; 2])) =
  Ok (zseq [zrow [1; 3; 5]; zrow [2; 4; 6]]).
Proof. vm_compute. reflexivity. Qed.
Example c42_room_ex : room zmem [3; 2] /\ room zmem [0; 3].
Proof.
  split; [exists 6|exists 1]; (split; [intros [|[|[|k]]]; vm_compute; discriminate|split; [reflexivity|]]);
    intros n H; cbn [al_ok zmem]; apply Z.leb_le; unfold isize_max; lia.
Qed.

(** Arrays have constant dimensions only: they always round-trip. *)
Theorem c42_array : forall (T C E : Type) al (enc : T -> sdata E) (de : sdata E -> C -> call (option T) C) dec ds xs (w : world T C),
  (forall x, dec (enc x) = Some x) -> decides de dec -> ~ throws de -> const_small (STuple ds) ->
  consts ds -> nonneg (map dim_default ds) -> ty_wf (STuple ds) -> zlen xs = prodZ (map dim_default ds) -> room al (map dim_default ds) ->
  exists data c,
    v_serialize (fun x => Ok (enc x)) xs (whole (STuple ds) (map dim_default ds)) = Ok data /\
    ar_deserialize al de ds data w = Done (Some xs) (after c xs [] w).
Proof. exact @array_round_trip. Qed.
Print Assumptions c42_array.
Example c42_array_ex :
  (exists data, v_serialize (fun x => Ok (SItem x)) [1; 2; 3; 4] (whole (STuple [DConst 2; DConst 2]) [2; 2]) = Ok data /\
    ar_deserialize zmem zde [DConst 2; DConst 2] data w0 = Done (Some [1; 2; 3; 4]) (mkWorld 4 [1; 2; 3; 4] [] [])) /\
  (exists data, v_serialize (fun x => Ok (SItem x)) [] (whole (STuple [DConst 0; DConst 3]) [0; 3]) = Ok data /\
    ar_deserialize zmem zde [DConst 0; DConst 3] data w0 = Done (Some []) w0).
Proof. split; [exists (zseq [zrow [1; 2]; zrow [3; 4]])|exists (SSeq (Some 0) [])]; vm_all. Qed.

(** An empty tensor of dimensions [0, 3] comes back with dimensions [0, 0]. *)
Theorem c42_refuted : exists dims, exists data t,
  valid_view 0 (whole (STuple [DDyn; DDyn]) dims) /\ room zmem dims /\
  v_serialize (fun x => Ok (SItem x)) [] (whole (STuple [DDyn; DDyn]) dims) = Ok data /\
  tn_deserialize zmem zde (STuple [DDyn; DDyn]) data w0 = Done (Some t) w0 /\ tn_dims t <> dims.
Proof.
  exists [0; 3], (SSeq (Some 0) []), (mkTensor (STuple [DDyn; DDyn]) [0; 0] [] 0). split; [apply empty_valid; wf_tac|]. split; [apply c42_room_ex|].
  repeat split; try (vm_compute; reflexivity). discriminate.
Qed.
Print Assumptions c42_refuted.

(** Serialization and deserialization of dynamic ranks are refused. *)
Theorem c42_dynrank : forall (T C E : Type) al (ser : T -> outcome (sdata E)) (de : sdata E -> C -> call (option T) C) mem v data (w : world T C),
  v_ty v = SDynRank -> v_serialize ser mem v = Panic /\ tn_deserialize al de SDynRank data w = Unwound w.
Proof. intros T C E al ser de mem v data w H. unfold v_serialize. rewrite H. split; reflexivity. Qed.
Print Assumptions c42_dynrank.
