(** Theorems for C57, continued: arrays, conversions and deserialization with destructors that panic.
    See [PropsDtor.v] for the words used. *)
From Verif Require Import Base Spec SpecFacts Shape Mapping Index View Wf MappingFacts MapOps
  ReshapeFacts IndexFacts ViewFacts ViewMore PropsView.
From Verif Require Import Expr ExprSpec ExprFacts IterFacts SourceFacts ExprTree ExprMore PropsExpr.
From Verif Require Import Tensor TraceFacts TensorSpec TensorFacts ResizeFacts TensorOps DrainFacts OwnFacts
  ZipFacts OwnMore History HistoryFacts OwnProps PropsTensor Dtor DtorFacts PropsDtor.
From Verif Require Import Ops Serde SerdeSpec SerdeFacts SerdeMore PropsSerde Nested DtorMore DtorMoreFacts.
Unset Strict Implicit.

(** ** Arrays *)

(** [Array::map]: when the closure panics, the elements not yet given to it are dropped, then the
    results; a destructor that panics then ends the process. *)
Theorem c57_array_map : forall T C (dtor : T -> C -> call unit C) ds (l : list T) (f : T -> C -> call T C) w,
  fits (map dim_default ds) -> typed (STuple ds) (map dim_default ds) -> zlen l = prodZ (map dim_default ds) ->
  ar_map_d dtor ds l f w =
  let '(rs, c, b) := gives (map f l) (w_clo w) in
  if b then Done rs (worked c rs l w)
  else dropped_unwinding dtor (skipn (S (length rs)) l ++ rs) (worked c rs (firstn (S (length rs)) l) w) (fun w => w).
Proof.
  intros. rewrite map_exact by assumption. destruct (gives _ _) as [[rs c] []]; [reflexivity|]. apply unwinding_dropped.
Qed.
Print Assumptions c57_array_map.

(** [Array::zip_with], where the operand gives the items [ys] and then ends or panics. *)
Theorem c57_array_zip : forall T Y C (dtor : T -> C -> call unit C) ds (l : list T) (e : expression Y)
    (f : T * Y -> C -> call T C) w z ys o,
  fits (map dim_default ds) -> typed (STuple ds) (map dim_default ds) -> zlen l = prodZ (map dim_default ds) ->
  e_zip (e_into (STuple ds) (map dim_default ds) l) e = Ok z -> e_dims z = map dim_default ds ->
  e_trace z = (combine l ys, o) -> (length ys <= length l)%nat -> (o = Ok tt /\ length ys = length l) \/ o = Panic ->
  ar_zip_with_d dtor ds l e f w =
  let '(rs, c, b) := gives (map f (combine l ys)) (w_clo w) in
  if b
  then match o with
       | Ok _ => Done rs (worked c rs l w)
       | _ => dropped_unwinding dtor (skipn (length rs) l ++ rs) (worked c rs (firstn (length rs) l) w) (fun w => w)
       end
  else dropped_unwinding dtor (skipn (S (length rs)) l ++ rs) (worked c rs (firstn (S (length rs)) l) w) (fun w => w).
Proof.
  intros T Y C dtor ds l e f w z ys o H1 H2 H3 H4 H5 H6 H7 H8. rewrite (zip_exact dtor f w H1 H2 H3 H4 H5 H6 H7 H8).
  destruct (gives _ _) as [[rs c] []]; [destruct o; [reflexivity| | |]|]; apply unwinding_dropped.
Qed.
Print Assumptions c57_array_zip.
Theorem c57_array_refused : forall T Y C (dtor : T -> C -> call unit C) ds (l : list T) (e : expression Y)
    (f : T * Y -> C -> call T C) g w,
  (e_zip (e_into (STuple ds) (map dim_default ds) l) e = Panic ->
   ar_zip_with_d dtor ds l e f w = dropped_unwinding dtor l w (fun w => w)) /\
  (~ fits (map dim_default ds) -> ar_map_d dtor ds l g w = dropped_unwinding dtor l w (fun w => w)).
Proof.
  intros T Y C dtor ds l e f g w. split; intros H.
  - rewrite (zip_refused dtor f w H). apply unwinding_dropped.
  - unfold ar_map_d. destruct (ar_length_cases ds) as [F| ->]; [contradiction|]. apply unwinding_dropped.
Qed.
Print Assumptions c57_array_refused.

(** An expression that panics after giving [xs]. *)
Theorem c57_array_from_expr : forall T C (dtor : T -> C -> call unit C) ds (e : expression T) (w : world T C),
  consts ds -> honest e ->
  (typed (STuple ds) (e_dims e) ->
   ar_from_expr_d dtor ds e w =
   let xs := fst (e_trace e) in
   match snd (e_trace e) with
   | Ok _ => Done xs (after (w_clo w) xs [] w)
   | _ => dropped_unwinding dtor xs (after (w_clo w) xs [] w) (fun w => w)
   end) /\
  (~ typed (STuple ds) (e_dims e) -> ar_from_expr_d dtor ds e w = Unwound w).
Proof.
  intros T C dtor ds e w HC HE. destruct (ar_from_expr_eq w HC HE) as [H1 H2].
  pose proof (from_expr_shed dtor ds e w) as S. split; intros HT.
  - rewrite (H1 HT) in S. cbn zeta in *. destruct (snd (e_trace e)); cbn [shed] in S.
    1: apply S.
    all: destruct S as (es & w1 & EW & D & ->); 
      assert (X : w_drop (fst (e_trace e)) (after (w_clo w) (fst (e_trace e)) [] w) = w_drop es w1)
        by (rewrite <- EW; unfold w_drop, after; cbn; now rewrite <- app_assoc);
      apply drop_inj in X; [|cbn; rewrite app_nil_r; congruence]; destruct X as [<- <-]; apply unwinding_dropped.
  - rewrite (H2 HT) in S. destruct S as (es & w1 & EW & D & ->).
    assert (X : w_drop [] w = w_drop es w1) by now rewrite w_drop_nil.
    apply drop_inj in X; [|congruence]. destruct X as [<- <-]. apply unwinding_nil.
Qed.
Print Assumptions c57_array_from_expr.

(** ** Conversions *)

(** [rd] does what [r] does, and where [r] drops elements, [rd] gives them to the destructors in the
    same order, while a panic unwinds. *)
Definition unwinds_like {T C A} (dtor : T -> C -> call unit C) (w0 : world T C) (r rd : result (world T C) A) : Prop :=
  match r with
  | Done a w => rd = Done a w /\ w_dropped w = w_dropped w0
  | Unwound w => exists xs w1, w = w_drop xs w1 /\ w_dropped w1 = w_dropped w0 /\
                   rd = dropped_unwinding dtor xs w1 (fun w => w)
  | Aborted => rd = Aborted
  | Fault => rd = Fault
  end.
Lemma shed_like {T C A} (dtor : T -> C -> call unit C) w0 (r rd : result (world T C) A) :
  shed dtor (w_dropped w0) r rd -> unwinds_like dtor w0 r rd.
Proof.
  unfold shed, unwinds_like. destruct r; auto. intros (es & w1 & H1 & H2 & ->). exists es, w1.
  split; auto. split; auto. apply unwinding_dropped.
Qed.

Theorem c57_conversions : forall T C (dtor : T -> C -> call unit C) al (w : world T C),
  (forall ds ds' l, unwinds_like dtor w (ar_into_shape ds ds' l w) (ar_into_shape_d dtor ds ds' l w)) /\
  (forall ds l, unwinds_like dtor w (ar_into_scalar ds l w) (ar_into_scalar_d dtor ds l w)) /\
  (forall ds t, unwinds_like dtor w (ar_from_tensor ds t w) (ar_from_tensor_d dtor ds t w)) /\
  (forall ds l, unwinds_like dtor w (tn_from_array al ds l w) (tn_from_array_d dtor al ds l w)) /\
  (forall ds cs n, unwinds_like dtor w (tn_from_nested ds cs n w) (tn_from_nested_d dtor ds cs n w)) /\
  (forall clone n, unwinds_like dtor w (ar_from_nested_ref clone n w) (ar_from_nested_ref_d dtor clone n w)).
Proof.
  intros T C dtor al w. repeat split; intros; apply shed_like.
  - apply into_shape_shed.
  - apply into_scalar_shed.
  - apply from_tensor_shed.
  - apply from_array_shed.
  - apply from_nested_shed.
  - unfold ar_from_nested_ref, ar_from_nested_ref_d. apply shed_seq; [apply clone_nested_shed|]. intros a w1 E. now apply shed_ret.
Qed.
Print Assumptions c57_conversions.

(** ** Deserialization *)

(** A tensor is deserialized exactly when it is without destructors.  When there is an error the
    elements deserialized so far are dropped as [dropped] says, when there is a panic as
    [dropped_unwinding] says, in the same order as without destructors. *)
Definition fails_like {T C A} (dtor : T -> C -> call unit C) (w0 : world T C) (r rd : result (world T C) (option A)) : Prop :=
  match r with
  | Done (Some a) w => rd = Done (Some a) w /\ w_dropped w = w_dropped w0
  | Done None w => exists xs w1, w = w_drop xs w1 /\ w_dropped w1 = w_dropped w0 /\
                     rd = match dropped dtor xs w1 (fun w => w) with
                          | Done _ w => Done None w
                          | Unwound w => Unwound w
                          | Aborted => Aborted
                          | Fault => Fault
                          end
  | Unwound w => exists xs w1, w = w_drop xs w1 /\ w_dropped w1 = w_dropped w0 /\
                   rd = dropped_unwinding dtor xs w1 (fun w => w)
  | Aborted => rd = Aborted
  | Fault => rd = Fault
  end.
Lemma wshed_like {T C A} (dtor : T -> C -> call unit C) w0 (r rd : result (world T C) (option A)) :
  wshed dtor (w_dropped w0) r rd -> fails_like dtor w0 r rd.
Proof.
  unfold wshed, fails_like. destruct r as [[a|] w|w| |]; auto.
  - intros (es & w1 & H1 & H2 & ->). exists es, w1. split; auto. split; auto. rewrite dropping_panics. unfold dropped.
    destruct (fst (panics dtor es (w_clo w1))) as [|[|n]]; reflexivity.
  - intros (es & w1 & H1 & H2 & ->). exists es, w1. split; auto. split; auto. apply unwinding_dropped.
Qed.

Theorem c57_deserialize : forall T C E (dtor : T -> C -> call unit C) al (de : sdata E -> C -> call (option T) C) v (w : world T C),
  (forall ty, fails_like dtor w (tn_deserialize al de ty v w) (tn_deserialize_d dtor al de ty v w)) /\
  (forall ds, fails_like dtor w (ar_deserialize al de ds v w) (ar_deserialize_d dtor al de ds v w)).
Proof. intros. split; intros; apply wshed_like; [apply deserialize_shed|apply ar_deserialize_shed]. Qed.
Print Assumptions c57_deserialize.

(** Every element deserialized is in the tensor returned or has its destructor called once. *)
Theorem c57_deserialize_safe : forall T C E (dtor : T -> C -> call unit C) al (de : sdata E -> C -> call (option T) C)
    ds v (w : world T C),
  nonneg (map dim_default ds) -> const_small (STuple ds) -> ty_wf (STuple ds) ->
  match tn_deserialize_d dtor al de (STuple ds) v w with
  | Done (Some t) w' => tensor_ok t /\ tn_ty t = STuple ds /\ exists c, w' = after c (tn_mem t) [] w
  | Done None w' | Unwound w' => exists c ms dr, w' = after c ms dr w /\ Permutation ms dr
  | Aborted => exists x c1 c2, dtor x c1 = Throws c2
  | Fault => False
  end.
Proof.
  intros T C E dtor al de ds v w HN CS W. pose proof (@c43_safe T C E al de ds v w HN CS W) as H.
  pose proof (deserialize_shed dtor al de (STuple ds) v w) as S. unfold wshed in S.
  assert (K : forall es (w1 : world T C) c0 ms dr, w_drop es w1 = after c0 ms dr w -> w_dropped w1 = w_dropped w ->
    forall c, w_drop es (w_set c w1) = after c ms dr w).
  { intros es w1 c0 ms dr EE D c. destruct w1, w. unfold w_drop, w_set, after in *. cbn in *. injection EE as -> -> -> EE.
    now rewrite EE. }
  destruct (tn_deserialize al de (STuple ds) v w) as [[t|] w'|w'| |]; try contradiction.
  - destruct S as [-> _]. exact H.
  - destruct H as (c0 & ms & dr & EW & P). destruct S as (es & w1 & EW1 & D & ->). rewrite EW in EW1. symmetry in EW1.
    destruct (dropping_cases dtor es w1 (@None (tensor T)) (fun w => w)) as [(c & ->)|[(c & ->)|[-> L]]].
    + exists c, ms, dr. split; auto. now apply (K es w1 c0).
    + exists c, ms, dr. split; auto. now apply (K es w1 c0).
    + exact L.
  - destruct H as (c0 & ms & dr & EW & P). destruct S as (es & w1 & EW1 & D & ->). rewrite EW in EW1. symmetry in EW1.
    destruct (unwinding_cases dtor es w1 (A := option (tensor T)) (fun w => w)) as [(c & ->)|[-> L]].
    + exists c, ms, dr. split; auto. now apply (K es w1 c0).
    + exact L.
Qed.
Print Assumptions c57_deserialize_safe.

(** ** Examples *)

(** The destructor of 5 panics: [throw5] panics at 5, which it owns by then; with [throw4] the 5 is dropped
    by unwinding. *)
Definition throw4 (x c : Z) : call Z Z := if x =? 4 then Throws c else Gives (x * 10) c.
Definition zloud (x c : Z) : call unit Z := if x =? 5 then Throws (c + 1) else Gives tt (c + 1).
Example c57_array_example :
  let ds := [DConst 2; DConst 3] in
  fits (map dim_default ds) /\ typed (STuple ds) (map dim_default ds) /\
  ar_map_d dtor5 ds [1; 2; 3; 4; 5; 6] throw5 w0 = Unwound (mkWorld 5 [10; 20; 30; 40] [1; 2; 3; 4; 5] [6; 10; 20; 30; 40]) /\
  ar_map_d dtor5 ds [1; 2; 3; 4; 5; 6] throw4 w0 = Aborted /\
  ar_into_shape_d dtor5 ds [DConst 5] [1; 2; 3; 4; 5; 6] w0 = Aborted /\
  ar_into_shape_d dtor5 ds [DConst 5] [1; 2; 3; 4; 6; 6] w0 = Unwound (mkWorld 6 [] [] [1; 2; 3; 4; 6; 6]) /\
  ar_into_shape_d dtor5 ds [DConst 6] [1; 2; 3; 4; 5; 6] w0 = Done [1; 2; 3; 4; 5; 6] w0.
Proof.
  cbv zeta. split; [apply fits_positive; [repeat constructor|vm_compute; discriminate]|].
  split; [wf_tac|]. vm_all.
Qed.

(** The error of the second row is reported as a panic when the destructor of a row already read panics; two
    such rows end the process. *)
Example c57_deserialize_example :
  tn_deserialize_d zloud zmem zde (STuple [DDyn; DDyn]) (zseq [zrow [1; 5]; zrow [3; 99]]) w0 =
    Unwound (mkWorld 7 [1; 5; 3] [] [3; 1; 5]) /\
  tn_deserialize_d zloud zmem zde (STuple [DDyn; DDyn]) (zseq [zrow [1; 4]; zrow [3; 99]]) w0 =
    Done None (mkWorld 7 [1; 4; 3] [] [3; 1; 4]) /\
  tn_deserialize_d zloud zmem zde (STuple [DDyn; DDyn]) (zseq [zrow [1; 5]; zrow [5]]) w0 = Aborted /\
  tn_deserialize_d zloud zmem zde (STuple [DDyn; DDyn]) (zseq [zrow [1; 5]; zrow [5; 6]]) w0 =
    tn_deserialize zmem zde (STuple [DDyn; DDyn]) (zseq [zrow [1; 5]; zrow [5; 6]]) w0.
Proof. vm_all. Qed.
