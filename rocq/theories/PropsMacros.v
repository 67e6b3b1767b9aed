(** Iterators in use (C58), the macros (C59) and the ways to give a shape (C60). *)
From Verif Require Import Base Spec SpecFacts Shape Mapping Index View Wf MappingFacts MapOps ReshapeFacts ViewFacts PropsView.
From Verif Require Import Expr ExprSpec ExprFacts IterFacts SourceFacts ExprTree ExprMore PropsExpr.
From Verif Require Import Tensor TraceFacts TensorSpec TensorFacts OwnFacts ZipFacts OwnMore PropsTensor.
From Verif Require Import Ops OpsFacts PropsOps SerdeMore Nested NestedSpec NestedFacts PropsNested DrainFacts Consume ConsumeSpec ConsumeFacts.
From Verif Require Import Macros MacroSpec MacroFacts.
Unset Strict Implicit.

(** ** C58: iterators in use are neither shown nor cloned *)

Lemma somes_nil {A} (xs : list (option A)) : somes xs = [] <-> forall a, ~ In (Some a) xs.
Proof.
  induction xs as [|[a|] xs IH]; cbn [somes In].
  - split; auto.
  - split; [discriminate|]. intros H. exfalso. apply (H a). auto.
  - rewrite IH. split; intros H a; [intros [|]; [discriminate|now apply (H a)]|intros K; apply (H a); auto].
Qed.

(** Once an item is given, showing the iterator panics, whatever expression it iterates over and however
    that is shown. *)
Theorem c58_used : forall (A R : Type) (e : expression A) (show : e_st e -> outcome R) (n : nat) xs (it : iter e),
  it_nexts n (it_new e) = Ok (xs, it) -> (exists a, In (Some a) xs) -> it_fmt show it = Panic.
Proof.
  intros A R e show n xs it H (a & Ha). destruct (nexts_new H) as [H1 H2]. unfold it_fmt.
  destruct (Z.eqb_spec (it_index it) 0) as [E|E]; [|reflexivity].
  apply H1 in E. apply somes_nil with (a := a) in E. contradiction.
Qed.
Print Assumptions c58_used.

(** Before that, the expression is shown. *)
Theorem c58_unused : forall (A R : Type) (e : expression A) (show : e_st e -> outcome R) (n : nat) xs (it : iter e),
  it_nexts n (it_new e) = Ok (xs, it) -> (forall a, ~ In (Some a) xs) -> it_fmt show it = show (it_st it).
Proof.
  intros A R e show n xs it H Ha. destruct (nexts_new H) as [H1 H2]. unfold it_fmt.
  apply somes_nil in Ha. apply H1 in Ha. rewrite Ha. reflexivity.
Qed.
Print Assumptions c58_unused.

(** An iterator over a consumed array never shows an element that is moved out: it shows all elements or
    panics. *)
Theorem c58_into : forall (A : Type) ty dims (l : list A) (n : nat) xs it,
  it_nexts n (it_new (e_into ty dims l)) = Ok (xs, it) ->
  ((forall a, ~ In (Some a) xs) -> @it_fmt _ _ (e_into ty dims l) (into_show l) it = Ok l) /\
  ((exists a, In (Some a) xs) -> @it_fmt _ _ (e_into ty dims l) (into_show l) it = Panic).
Proof.
  intros A ty dims l n xs it H. split; [|apply (@c58_used _ _ (e_into ty dims l) (into_show l) _ _ _ H)]. intros Ha.
  rewrite (@c58_unused _ _ (e_into ty dims l) (into_show l) _ _ _ H Ha). pose proof (@nexts_moves _ _ _ _ _ _ (into_moves ty dims l) n (it_new _) 0%nat xs it eq_refl H) as (K & _).
  apply somes_nil in Ha. rewrite Ha in K. cbn in K. unfold into_show. now rewrite K.
Qed.
Print Assumptions c58_into.

(** Nor does one over a zip with a consumed array on either side. *)
Theorem c58_zip : forall (A B R : Type) ty dims (l : list A) (b : expression B) (show : e_st b -> outcome R) d (n : nat),
  (forall xs it, it_nexts n (it_new (zip_expr (e_into ty dims l) b d)) = Ok (xs, it) ->
     @it_fmt _ _ (zip_expr (e_into ty dims l) b d) (zip_show (into_show l) show) it = Panic \/
     @it_fmt _ _ (zip_expr (e_into ty dims l) b d) (zip_show (into_show l) show) it = (let* r := show (snd (it_st it)) in Ok (l, r))) /\
  (forall xs it, it_nexts n (it_new (zip_expr b (e_into ty dims l) d)) = Ok (xs, it) ->
     @it_fmt _ _ (zip_expr b (e_into ty dims l) d) (zip_show show (into_show l)) it = Panic \/
     @it_fmt _ _ (zip_expr b (e_into ty dims l) d) (zip_show show (into_show l)) it = (let* r := show (fst (it_st it)) in Ok (r, l))).
Proof.
  intros A B R ty dims l b show d n. split; intros xs it H; destruct (nexts_new H) as [H1 H2];
    unfold it_fmt; (destruct (Z.eqb_spec (it_index it) 0) as [E|E]; [|left; reflexivity]); right; apply H1 in E; cbn [assert bind]; unfold zip_show.
  - pose proof (zip_left_moves b d (into_moves ty dims l)) as HM.
    pose proof (@nexts_moves _ _ _ _ _ _ HM n (it_new _) 0%nat xs it eq_refl H) as (K & _). rewrite E in K. cbn in K.
    change (e_st (zip_expr (e_into ty dims l) b d)) with (Z * e_st b)%type in *.
    unfold into_show. rewrite K. cbn [Z.eqb bind]. reflexivity.
  - pose proof (zip_right_moves b d (into_moves ty dims l)) as HM.
    pose proof (@nexts_moves _ _ _ _ _ _ HM n (it_new _) 0%nat xs it eq_refl H) as (K & _). rewrite E in K. cbn in K.
    unfold into_show. rewrite K. cbn [Z.eqb bind]. reflexivity.
Qed.
Print Assumptions c58_zip.

(** Cloning an iterator over a consumed tensor: no clone is made once an item is given; before that,
    all elements are cloned in order and the clone is at the start. *)
Theorem c58_clone : forall (T C : Type) (clone : T -> C -> call T C) (t : tensor T) (n : nat) xs it (w : world T C),
  tensor_ok t -> it_nexts n (it_new (e_into (tn_ty t) (tn_dims t) (tn_mem t))) = Ok (xs, it) ->
  ((exists a, In (Some a) xs) -> it_clone clone t it w = Unwound w) /\
  ((forall a, ~ In (Some a) xs) ->
   let '(ys, c, b) := gives (map clone (tn_mem t)) (w_clo w) in
   if b
   then exists cp ix, it_clone clone t it w = Done (cp, ix) (after c ys [] w) /\ fst (fst (fst ix)) = 0 /\
          in_index cp = 0 /\ tn_mem (in_buf cp) = ys /\ tn_ty (in_buf cp) = tn_ty t /\ tn_dims (in_buf cp) = tn_dims t
   else it_clone clone t it w = Unwound (after c ys [] w)).
Proof.
  intros T C clone t n xs it w Ht H. destruct (nexts_new H) as [H1 H2].
  pose proof (@nexts_moves _ _ _ _ _ _ (into_moves _ _ _) n (it_new _) 0%nat xs it eq_refl H) as (K & _). cbn beta in K. split.
  - intros (a & Ha). assert (N : somes xs <> []) by (intros E; apply somes_nil with (a := a) in E; contradiction).
    assert (KN : it_st it <> 0) by (rewrite K; destruct (somes xs); [contradiction|cbn; lia]).
    unfold it_clone, in_clone, seqM, check. cbn [in_index in_buf].
    change (e_st (e_into (tn_ty t) (tn_dims t) (tn_mem t))) with Z in *.
    destruct (Z.eqb_spec (it_st it) 0); [contradiction|reflexivity].
  - intros Ha. apply somes_nil in Ha. rewrite Ha in K. cbn in K. unfold it_clone, seqM.
    pose proof (@in_clone_eq T C clone (mkInto t (it_st it)) w Ht K) as E. cbn [in_buf] in E.
    destruct (gives (map clone (tn_mem t)) (w_clo w)) as [[ys c] b]. destruct b; rewrite E; [|reflexivity].
    eexists _, _. split; [reflexivity|]. cbn [fst in_index in_buf tn_mem tn_ty tn_dims]. split; [apply H1; exact Ha|auto].
Qed.
Print Assumptions c58_clone.

(** The first of six elements is taken: not shown, not cloned; nothing taken: shown and cloned. *)
Example c58_example :
  (exists it, it_nexts 1 (it_new (e_into ty2 [2; 3] [1; 2; 3; 4; 5; 6])) = Ok ([Some 1], it) /\
     @it_fmt _ _ (e_into ty2 [2; 3] [1; 2; 3; 4; 5; 6]) (into_show [1; 2; 3; 4; 5; 6]) it = Panic /\ into_show [1; 2; 3; 4; 5; 6] (it_st it) = UB) /\
  (exists it, it_nexts 0 (it_new (e_into ty2 [2; 3] [1; 2; 3; 4; 5; 6])) = Ok ([], it) /\
     @it_fmt _ _ (e_into ty2 [2; 3] [1; 2; 3; 4; 5; 6]) (into_show [1; 2; 3; 4; 5; 6]) it = Ok [1; 2; 3; 4; 5; 6]) /\
  (exists it, it_nexts 2 (it_new (e_into ty2 [0; 3] ([] : list Z))) = Ok ([None; None], it) /\ @it_fmt _ _ (e_into ty2 [0; 3] ([] : list Z)) (@into_show Z []) it = Ok []).
Proof. split; [|split]; eexists; repeat (split; [vm_compute; reflexivity|]); vm_compute; reflexivity. Qed.

(** ** C59: the macros *)

(** A literal of lists [cs = [a; b; ..]], of which only the innermost may be empty, makes a tensor of as
    many dimensions, but at most 6, whose element at [[i, j, ..]] is what is written there. *)
Theorem c59_tensor : forall (T C F : Type) al (cl : nested T -> F -> outcome (nested T * F)) (f0 : F) cs (l : list (tok T))
    (w : world (nested T) C),
  written cs (Lst l) -> positive (removelast cs) -> fits (firstn 6 cs) ->
  exists m t, tensor_mac al cl f0 (Items l) = Some m /\ m w = Done t w /\ tensor_ok t /\
    tn_ty t = STuple (repeat DDyn (Nat.min 6 (length cs))) /\ tn_dims t = firstn 6 cs /\
    forall idx, in_bounds (firstn 6 cs) idx ->
      exists x, t_at (Lst l) idx = Some x /\ v_get (tn_mem t) (whole (tn_ty t) (tn_dims t)) idx = Ok (value x).
Proof.
  intros T C F al cl f0 cs l w HW HP HF. destruct (list_arms_ok HW HP) as (n & E & H1 & H2 & H3).
  assert (HN : nonneg (firstn 6 cs)) by (rewrite <- H2; apply lens_nonneg).
  pose proof (dyns_typed (firstn 6 cs)) as HT. rewrite firstn6_len in HT.
  pose proof (@dyns_wf (Nat.min 6 (length cs)) ltac:(lia)) as HWF.
  unfold tensor_mac. rewrite E. eexists _, _. split; [reflexivity|]. rewrite H2.
  destruct (@tn_from_nested_done _ C _ _ n w HT HN HWF H1 HF) as [-> HO]. split; [reflexivity|]. split; [exact HO|].
  split; [reflexivity|]. split; [reflexivity|]. intros idx HI. destruct (H3 idx HI) as (t & Ht & Hn). exists t. split; [exact Ht|].
  destruct (@flatten_get _ _ _ n idx HT HN HWF H1 HF HI) as (x & Hx & HG). rewrite Hn in Hx. injection Hx as <-. exact HG.
Qed.
Print Assumptions c59_tensor.

(** [array!]: the dimensions are constants. *)
Theorem c59_array : forall (T : Type) cs (l : list (tok T)),
  written cs (Lst l) -> positive (removelast cs) -> fits (firstn 6 cs) ->
  exists xs, array_mac (Items l) = Some (firstn 6 cs, xs) /\ zlen xs = prodZ (firstn 6 cs) /\
    forall idx, in_bounds (firstn 6 cs) idx ->
      exists x, t_at (Lst l) idx = Some x /\ v_get xs (whole (STuple (map DConst (firstn 6 cs))) (firstn 6 cs)) idx = Ok (value x).
Proof.
  intros T cs l HW HP HF. destruct (list_arms_ok HW HP) as (n & E & H1 & H2 & H3).
  assert (HN : nonneg (firstn 6 cs)) by (rewrite <- H2; apply lens_nonneg).
  assert (HT : typed (STuple (map DConst (firstn 6 cs))) (firstn 6 cs)).
  { cbn [typed]. generalize (firstn 6 cs) as c. induction c; constructor; auto. reflexivity. }
  assert (HWF : ty_wf (STuple (map DConst (firstn 6 cs)))) by (cbn [ty_wf]; rewrite map_length, firstn6_len; lia).
  unfold array_mac, ar_from_nested. rewrite E, H2. eexists. split; [reflexivity|]. split; [apply flatten_len; exact H1|].
  intros idx HI. destruct (H3 idx HI) as (t & Ht & Hn). exists t. split; [exact Ht|].
  destruct (@flatten_get _ _ _ n idx HT HN HWF H1 HF HI) as (x & Hx & HG). rewrite Hn in Hx. injection Hx as <-. exact HG.
Qed.
Print Assumptions c59_array.

(** [view!]: a dense view of the array that is written. *)
Theorem c59_view : forall (T : Type) cs (l : list (tok T)),
  written cs (Lst l) -> positive (removelast cs) -> fits (firstn 6 cs) ->
  exists mem v, view_mac (Items l) = Some (mem, Ok v) /\ valid_view (zlen mem) v /\
    v_ty v = STuple (repeat DDyn (Nat.min 6 (length cs))) /\ v_dims v = firstn 6 cs /\ v_layout v = Dense /\
    forall idx, in_bounds (firstn 6 cs) idx -> exists x, t_at (Lst l) idx = Some x /\ v_get mem v idx = Ok (value x).
Proof.
  intros T cs l HW HP HF. destruct (list_arms_ok HW HP) as (n & E & H1 & H2 & H3).
  assert (HN : nonneg (firstn 6 cs)) by (rewrite <- H2; apply lens_nonneg).
  pose proof (dyns_typed (firstn 6 cs)) as HT. rewrite firstn6_len in HT.
  pose proof (@dyns_wf (Nat.min 6 (length cs)) ltac:(lia)) as HWF.
  destruct (@v_from_nested_ok _ _ _ n HT HN HWF H1 HF) as (EV & HV & HG).
  unfold view_mac. rewrite E, H2, EV. eexists _, _. split; [reflexivity|]. split; [exact HV|].
  repeat (split; [reflexivity|]). intros idx HI. destruct (H3 idx HI) as (t & Ht & Hn). exists t. split; [exact Ht|].
  destruct (HG idx HI) as (x & Hx & HX). rewrite Hn in Hx. injection Hx as <-. exact HX.
Qed.
Print Assumptions c59_view.

(** [tensor![[[x; c]; b]; a]]: the dimensions [[a; b; c]]; the elements are the clones of [x], made in
    row-major order; when a clone panics those made are dropped. *)
Theorem c59_tensor_repeat : forall (T C F : Type) al (cl : nested T -> F -> outcome (nested T * F)) (f0 : F) a dims (x : tok T)
    (w : world (nested T) C) xs o,
  (forall n, al_ok al n = true) -> (forall v s, proper (cl v s)) -> (forall t m, x <> Rep t m) ->
  nonneg (a :: dims) -> fits (firstn 6 (a :: dims)) ->
  produce (call_action (cl (value (reps (skipn 5 dims) x)))) (indices (firstn 6 (a :: dims))) f0 = (xs, o) ->
  exists m, tensor_mac al cl f0 (Repeat (reps dims x) a) = Some m /\
  match o with
  | Ok _ => exists cap, zlen xs = prodZ (firstn 6 (a :: dims)) /\ zlen xs <= cap /\
      m w = Done (mkTensor (STuple (repeat DDyn (Nat.min 6 (S (length dims))))) (firstn 6 (a :: dims)) xs cap) (after (w_clo w) xs [] w)
  | _ => m w = Unwound (after (w_clo w) xs xs w)
  end.
Proof.
  intros T C F al cl f0 a dims x w xs o HA HC HX HN HF HP.
  assert (HN' : nonneg (firstn 6 (a :: dims))) by now apply nonneg_firstn.
  pose proof (dyns_typed (firstn 6 (a :: dims))) as HT.
  destruct (@from_elem_tensor _ F C al _ _ (cl (value (reps (skipn 5 dims) x))) f0 w xs o HA HN' HT HF (HC _) HP) as (e & E & HE).
  unfold tensor_mac. rewrite rep_arms_ok by exact HX. eexists. split; [reflexivity|].
  unfold into_shape. rewrite dyn_store. unfold seqM. cbn [bind lift fst snd].
  change (firstn 6 (a :: dims)) with (a :: firstn 5 dims) in *. 
  assert (EL : length (a :: firstn 5 dims) = Nat.min 6 (S (length dims))) by (cbn [length]; rewrite firstn_length; lia).
  rewrite EL in *. rewrite E. cbn [bind lift]. exact HE.
Qed.
Print Assumptions c59_tensor_repeat.

(** Too many elements: a panic before anything is cloned. *)
Theorem c59_tensor_repeat_unfit : forall (T C F : Type) al (cl : nested T -> F -> outcome (nested T * F)) (f0 : F) a dims (x : tok T)
    (w : world (nested T) C),
  (forall t m, x <> Rep t m) -> ~ fits (firstn 6 (a :: dims)) ->
  exists m, tensor_mac al cl f0 (Repeat (reps dims x) a) = Some m /\ m w = Unwound w.
Proof.
  intros T C F al cl f0 a dims x w HX HF. unfold tensor_mac. rewrite rep_arms_ok by exact HX. eexists. split; [reflexivity|].
  unfold into_shape. rewrite dyn_store. unfold seqM. cbn [bind lift fst snd]. now rewrite (from_elem_panic _ _ _ HF).
Qed.
Print Assumptions c59_tensor_repeat_unfit.

(** [array!] and [view!] with repetitions: every element is [x]. *)
Theorem c59_repeat : forall (T : Type) a dims (x : tok T),
  (forall t m, x <> Rep t m) -> nonneg (a :: dims) -> fits (firstn 6 (a :: dims)) ->
  let D := firstn 6 (a :: dims) in
  (exists xs, array_mac (Repeat (reps dims x) a) = Some (D, xs) /\ zlen xs = prodZ D /\
     forall y, In y xs -> y = value (reps (skipn 5 dims) x)) /\
  (exists mem v, view_mac (Repeat (reps dims x) a) = Some (mem, Ok v) /\ valid_view (zlen mem) v /\
     v_ty v = STuple (repeat DDyn (Nat.min 6 (S (length dims)))) /\ v_dims v = D /\ v_layout v = Dense /\
     forall idx, in_bounds D idx -> v_get mem v idx = Ok (value (reps (skipn 5 dims) x))).
Proof.
  intros T a dims x HX HN HF D. assert (HN' : nonneg D) by now apply nonneg_firstn.
  set (y := value (reps (skipn 5 dims) x)). destruct (rep_nested_ok y HN') as [H1 H2].
  unfold array_mac, view_mac, ar_from_nested. rewrite rep_arms_ok by exact HX. fold D. split.
  - eexists. split; [reflexivity|]. split; [apply flatten_len; exact H1|].
    fold y. rewrite rep_nested_flat by exact HN'. intros z Hz. apply repeat_spec in Hz. exact Hz.
  - pose proof (dyns_typed D) as HT.
    assert (EL : length D = Nat.min 6 (S (length dims))) by (unfold D; rewrite firstn6_len; reflexivity). rewrite EL in HT.
    pose proof (@dyns_wf (Nat.min 6 (S (length dims))) ltac:(lia)) as HWF.
    destruct (@v_from_nested_ok _ _ _ _ HT HN' HWF H1 HF) as (EV & HV & HG).
    fold y. rewrite EV. eexists _, _. split; [reflexivity|]. split; [exact HV|]. repeat (split; [reflexivity|]).
    intros idx HI. destruct (HG idx HI) as (z & Hz & HZ). rewrite (H2 idx HI) in Hz. injection Hz as <-. exact HZ.
Qed.
Print Assumptions c59_repeat.

(** Writing repetitions out as lists gives the same array. *)
Theorem c59_agree : forall (T : Type) a dims (x : tok T) l,
  (forall t m, x <> Rep t m) -> (forall m, x <> Lst m) -> nonneg (a :: dims) -> positive (removelast (a :: dims)) ->
  lists (a :: dims) x = Lst l ->
  array_mac (Repeat (reps dims x) a) = array_mac (Items l) /\
  view_mac (Repeat (reps dims x) a) = view_mac (Items l).
Proof.
  intros T a dims x l HX HX' HN HP EL. pose proof (lists_written HX' HN) as HW. rewrite EL in HW.
  destruct (list_arms_ok HW HP) as (n & E & H1 & H2 & H3).
  assert (HN' : nonneg (firstn 6 (a :: dims))) by now apply nonneg_firstn.
  set (y := value (reps (skipn 5 dims) x)). destruct (rep_nested_ok y HN') as [R1 R2].
  assert (EN : n = rep_nested (firstn 6 (a :: dims)) y).
  { apply (@c44_unique _ (firstn 6 (a :: dims))); auto. intros idx HI.
    destruct (H3 idx HI) as (t & Ht & Hn). rewrite Hn, (R2 idx HI). f_equal.
    rewrite <- EL in Ht. rewrite (lists_at x HN HI) in Ht. injection Ht as <-. unfold y.
    assert (LI : length idx = length (firstn 6 (a :: dims))) by (symmetry; eapply Forall2_len; exact HI).
    rewrite rep_value by now apply nonneg_skipn; inversion HN. f_equal. f_equal.
    rewrite LI, firstn6_len. destruct (Nat.le_ge_cases 6 (length (a :: dims))) as [K|K].
    - rewrite Nat.min_l by lia. reflexivity.
    - rewrite Nat.min_r by lia. rewrite skipn_all. cbn [length] in K. now rewrite skipn_all2 by lia. }
  unfold array_mac, view_mac. rewrite rep_arms_ok by exact HX. rewrite E. fold y.
  change (length (a :: dims)) with (S (length dims)) in *. rewrite H2, EN. auto.
Qed.
Print Assumptions c59_agree.

(** [tensor![[1, 2, 3], [4, 5, 6]]], [tensor![[7; 3]; 2]], an empty innermost list, seven levels. *)
Definition lit (x : Z) : tok Z := Ex (NItem x).
Definition zkeep (x : nested Z) (s : Z) : outcome (nested Z * Z) := Ok (x, s + 1).
Definition ztens (b : body Z) : option (result (world (nested Z) Z) (tensor (nested Z))) :=
  match tensor_mac al0 zkeep 0 b with Some m => Some (m (mkWorld 0 [] [] [])) | None => None end.
Lemma lit_written : written [2; 3] (Lst [Lst [lit 1; lit 2; lit 3]; Lst [lit 4; lit 5; lit 6]]).
Proof.
  eexists. split; [reflexivity|]. split; [reflexivity|].
  repeat constructor; eexists; (split; [reflexivity|]); (split; [reflexivity|]); repeat constructor; discriminate.
Qed.
Example c59_example :
  ztens (Items [Lst [lit 1; lit 2; lit 3]; Lst [lit 4; lit 5; lit 6]]) =
    Some (Done (mkTensor ty2 [2; 3] (map NItem [1; 2; 3; 4; 5; 6]) 6) (mkWorld 0 [] [] [])) /\
  ztens (Repeat (Rep (lit 7) 3) 2) =
    Some (Done (mkTensor ty2 [2; 3] (repeat (NItem 7) 6) 6) (mkWorld 0 (repeat (NItem 7) 6) [] [])) /\
  ztens (Items [Lst []; Lst []]) = Some (Done (mkTensor ty2 [2; 0] [] 0) (mkWorld 0 [] [] [])) /\
  ztens (Items []) = Some (Done (mkTensor ty1 [0] [] 0) (mkWorld 0 [] [] [])) /\
  array_mac (Items [Rep (lit 7) 2; Lst [lit 1; lit 2]]) = Some ([2], [NArr [NItem 7; NItem 7]; NArr [NItem 1; NItem 2]]) /\
  array_mac (Items [Lst [Lst [Lst [Lst [Lst [Lst [lit 1; lit 2]]]]]]]) = Some ([1; 1; 1; 1; 1; 1], [NArr [NItem 1; NItem 2]]) /\
  view_mac (Repeat (Rep (lit 7) 3) 2) = Some (repeat (NItem 7) 6, Ok (whole ty2 [2; 3])) /\
  array_mac (Repeat (reps [2; 3; 1; 1; 1; 4] (lit 5)) 1) = Some ([1; 2; 3; 1; 1; 1], repeat (NArr (repeat (NItem 5) 4)) 6).
Proof. vm_all. Qed.

(** ** C60: the ways to give a shape *)

(** A shape, array, slice, box, vector or single dimension: the dimensions are the same whether taken as a
    shape or as a slice, and the shape is one of its type. *)
Theorem c60_into : forall a,
  match a with AShape ty dims => typed ty dims /\ ty_wf ty | AArr dims => (length dims <= 6)%nat | _ => True end ->
  exists ty, into_shape a = Ok (ty, into_dims a) /\ typed ty (into_dims a) /\ ty_wf ty /\
    match a with
    | AShape ty' _ => ty = ty'
    | ASlice _ | ABox _ => ty = SDynRank
    | AConst n => ty = STuple [DConst n]
    | ADyn _ => ty = STuple [DDyn]
    | AArr dims => ty = STuple (repeat DDyn (length dims))
    end.
Proof.
  intros [ty dims|dims|dims|n|n|dims] H; cbn [into_shape into_dims].
  - exists ty. tauto.
  - exists SDynRank. cbn [typed ty_wf]. auto.
  - exists SDynRank. cbn [typed ty_wf]. auto.
  - eexists. split; [reflexivity|]. cbn [typed ty_wf length]. repeat split; try lia. repeat constructor.
  - eexists. split; [reflexivity|]. cbn [typed ty_wf length]. repeat split; try lia. repeat constructor.
  - rewrite dyn_store. eexists. split; [reflexivity|]. split; [apply dyns_typed|]. split; [now apply dyns_wf|reflexivity].
Qed.
Print Assumptions c60_into.

(** Both representations of a dynamic rank that the conversions make stand for the dimensions given. *)
Theorem c60_dynrank : forall dims, dr_dims (dr_from_dims dims) = dims /\ dr_dims (dr_from_box dims) = dims /\
  dr_eq (dr_from_dims dims) (dr_from_box dims) = true.
Proof.
  intros dims. destruct (c50_from dims) as [H1 H2]. split; [exact H1|]. split; [exact H2|]. apply c50_eq. now rewrite H1, H2.
Qed.
Print Assumptions c60_dynrank.

Example c60_example :
  into_shape (AArr [2; 3]) = Ok (ty2, [2; 3]) /\ into_shape (ASlice [2; 3]) = Ok (SDynRank, [2; 3]) /\
  into_shape (AConst 4) = Ok (STuple [DConst 4], [4]) /\ into_shape (AShape (STuple [DConst 2; DDyn]) [2; 5]) = Ok (STuple [DConst 2; DDyn], [2; 5]).
Proof. vm_all. Qed.
