(** Property C84: equality, [contains], hashing, debug output and serialization with machine integers. *)
From Verif Require Import Base Spec SpecFacts Shape Mapping Index View Wf MappingFacts MapOps ReshapeFacts IndexFacts ViewFacts.
From Verif Require Import Expr ExprSpec ExprFacts IterFacts SourceFacts ExprTree ExprMore Tensor TensorSpec TensorFacts.
From Verif Require Import PropsView PropsExpr Ops OpsFacts Serde SerdeSpec SerdeFacts SerdeMore PropsTensor PropsOps PropsSerde.
From Verif Require Import Machine MachineSpec MachineFacts MachineViews MachineRun MachineIter MachineIterFacts MachineTensor MachineTensorFacts MachineTensorRun
  MachineSerde MachineSerdeFacts MachineRows MachineRowsFacts PropsMachineIter PropsMachineSerde.
Unset Strict Implicit.

(** Which views are meant: with elements, if the strides can be negated; dense ones, even if empty, whose
    dimensions leave room. *)
Theorem c84_walkable : forall dbg n v, walkable dbg n v -> modest dbg n v.
Proof. exact walkable_modest. Qed.
Print Assumptions c84_walkable.
Theorem c84_dense : forall dbg n v, valid_view n v -> n <= isize_max -> v_layout v = Dense -> roomy (v_dims v) -> modest dbg n v.
Proof. exact dense_modest. Qed.
Print Assumptions c84_dense.

Lemma modest_fits dbg n v : modest dbg n v -> fits (v_dims v).
Proof. intros (HV & _ & HR & _). apply mx_fits; [apply (wf_nonneg (vv_wf HV))|now apply roomy_usize]. Qed.

(** With and without overflow checks the operations do what they do with unbounded integers, for all element
    comparisons, formatters and serializers, panicking ones included. *)
Theorem c84_exact : forall (dbg : bool),
  (forall T U (eq : T -> U -> outcome bool) am bm a b,
     modest dbg (Z.of_nat (length am)) a -> modest dbg (Z.of_nat (length bm)) b -> x_v_eq dbg eq am bm a b = v_eq eq am bm a b) /\
  (forall T (eq : T -> T -> outcome bool) mem v value,
     modest dbg (Z.of_nat (length mem)) v -> x_v_contains dbg eq mem v value = v_contains eq mem v value) /\
  (forall T D (fmt : T -> outcome D) mem v,
     modest dbg (Z.of_nat (length mem)) v -> x_v_debug dbg fmt mem v = v_debug fmt mem v) /\
  (forall T E (ser : T -> outcome (sdata E)) mem v,
     modest dbg (Z.of_nat (length mem)) v -> x_v_serialize dbg ser mem v = v_serialize ser mem v).
Proof.
  intros dbg. split; [|split; [|split]]; intros.
  - now apply x_eq_fit.
  - now apply x_contains_fit.
  - now apply x_debug_fit.
  - unfold x_v_serialize, v_serialize. destruct (sh_rank (v_ty v)); [now apply x_ser_fit|reflexivity].
Qed.
Print Assumptions c84_exact.

(** Equality compares the dimensions, then the elements in row-major order up to the first difference. *)
Theorem c84_equal : forall dbg T U (eq : T -> U -> outcome bool) am bm a b xs ys,
  modest dbg (Z.of_nat (length am)) a -> modest dbg (Z.of_nat (length bm)) b -> contents am a xs -> contents bm b ys ->
  (v_dims a = v_dims b -> x_v_eq dbg eq am bm a b = list_eq eq xs ys) /\
  (v_dims a <> v_dims b -> x_v_eq dbg eq am bm a b = Ok false).
Proof.
  intros dbg T U eq am bm a b xs ys HA HB HX HY. rewrite (proj1 (c84_exact dbg)) by auto.
  apply v_eq_ok; auto; [apply HA|apply HB|apply (modest_fits HA)].
Qed.
Print Assumptions c84_equal.

(** [contains] searches the elements in row-major order. *)
Theorem c84_contains : forall dbg T (eq : T -> T -> outcome bool) mem v value xs,
  modest dbg (Z.of_nat (length mem)) v -> contents mem v xs ->
  x_v_contains dbg eq mem v value = list_any (fun x => eq x value) xs.
Proof.
  intros dbg T eq mem v value xs HV HX. rewrite (proj1 (proj2 (c84_exact dbg))) by auto.
  apply contains_loop_ok; auto; [apply HV|apply (modest_fits HV)].
Qed.
Print Assumptions c84_contains.

(** Debug output: lists nested by dimension, with the element at each index. *)
Theorem c84_debug : forall dbg T D (fmt : T -> outcome D) mem v, modest dbg (Z.of_nat (length mem)) v ->
  x_v_debug dbg fmt mem v = nested (fun idx => let* x := v_get mem v idx in fmt x) (v_dims v).
Proof.
  intros dbg T D fmt mem v HV. rewrite (proj1 (proj2 (proj2 (c84_exact dbg)))) by auto.
  apply c48_debug_partial; [apply HV|apply (modest_fits HV)].
Qed.
Print Assumptions c84_debug.

(** Hashing arrays with elements: the dimensions, then the elements in row-major order.  Without elements it is
    already wrong for unbounded integers, see [c39_refuted]. *)
Theorem c84_hash : forall dbg T H (hash : T -> list H) mem v xs,
  walkable dbg (Z.of_nat (length mem)) v -> contents mem v xs ->
  x_v_hash dbg hash mem v = Ok (map HDim (v_dims v) ++ map HElem (flat_map hash xs)).
Proof.
  intros dbg T H hash mem v xs HK HX. unfold x_v_hash. rewrite walk_view by exact HK. apply contents_read in HX.
  revert HX. generalize (map (v_addr v) (indices (v_dims v))). generalize (map (@HDim H) (v_dims v)). intros out l HX.
  revert out. induction HX as [|p x l xs HP HL IH]; intros out; cbn [foldM flat_map map].
  - now rewrite app_nil_r.
  - rewrite HP. cbn [bind]. rewrite IH. rewrite map_app, app_assoc. reflexivity.
Qed.
Print Assumptions c84_hash.

(** Hence equal arrays hash alike, each in any build. *)
Theorem c84_hash_equal : forall dbg dbg1 dbg2 T U H (eqb : T -> U -> bool) (h1 : T -> list H) (h2 : U -> list H) am bm a b,
  (forall x y, eqb x y = true -> h1 x = h2 y) ->
  modest dbg (Z.of_nat (length am)) a -> modest dbg (Z.of_nat (length bm)) b ->
  walkable dbg1 (Z.of_nat (length am)) a -> walkable dbg2 (Z.of_nat (length bm)) b ->
  x_v_eq dbg (fun x y => Ok (eqb x y)) am bm a b = Ok true ->
  exists out, x_v_hash dbg1 h1 am a = Ok out /\ x_v_hash dbg2 h2 bm b = Ok out.
Proof.
  intros dbg dbg1 dbg2 T U H eqb h1 h2 am bm a b HH HA HB WA WB E. rewrite (proj1 (c84_exact dbg)) in E by auto.
  destruct (@c39_hash_partial T U H eqb h1 h2 am bm a b HH (proj1 HA) (proj1 HB) (modest_fits HA)) as (out & E1 & E2); auto.
  { right; left. rewrite removelast_firstn'. apply positive_firstn, WA. }
  { right; left. rewrite removelast_firstn'. apply positive_firstn, WB. }
  destruct (contents_exist (proj1 HA)) as [xs HX]. destruct (contents_exist (proj1 HB)) as [ys HY].
  rewrite (@c84_hash dbg1 T H h1 am a xs WA HX), (@c84_hash dbg2 U H h2 bm b ys WB HY).
  rewrite (@c39_sequence_partial T H h1 am a xs) in E1; auto; [|apply HA|right; left; rewrite removelast_firstn'; apply positive_firstn, WA].
  rewrite (@c39_sequence_partial U H h2 bm b ys) in E2; auto; [|apply HB|right; left; rewrite removelast_firstn'; apply positive_firstn, WB].
  eauto.
Qed.
Print Assumptions c84_hash_equal.

(** What is serialized in one build can be deserialized in any other, with the same contents; the dimensions
    below an empty one are forgotten. *)
Lemma encoded_sized E dims : forall f : list Z -> sdata E, nonneg dims -> Forall (fun d => d <= usize_max) dims -> sized (length dims) (encoded f dims).
Proof.
  induction dims as [|d dims IH]; intros f HN HM; [exact I|]. inversion HN; subst. inversion HM; subst. cbn [length encoded sized].
  unfold zlen. rewrite map_length, zrange_length. split; [lia|]. split; [lia|]. apply Forall_forall. intros x Hx. apply in_map_iff in Hx.
  destruct Hx as (k & <- & _). apply IH; auto.
Qed.

Lemma encoded_box E dims : forall f : list Z -> sdata E, nonneg dims -> box (length dims) (encoded f dims) <= mx dims.
Proof.
  induction dims as [|d dims IH]; intros f HN; [cbn; lia|]. inversion HN; subst. cbn [length encoded box]. rewrite mx_cons.
  unfold zlen. rewrite map_length, zrange_length. pose proof (@mx_pos dims) as MP.
  match goal with |- context [fold_right ?g 1 ?l] => assert (B : 1 <= fold_right g 1 l <= mx dims) end.
  { induction (zrange d) as [|k l IHl]; cbn [map fold_right]; [lia|]. pose proof (IH (fun idx => f (k :: idx)) ltac:(auto)). lia. }
  rewrite Z2Nat.id by lia. rewrite Z.max_id. nia.
Qed.

Theorem c84_round : forall (dbg dbg' : bool) (T C E : Type) al (enc : T -> sdata E) (de : sdata E -> C -> call (option T) C) dec mem v ds xs (w : world T C),
  (forall x, dec (enc x) = Some x) -> decides de dec -> ~ throws de ->
  al_machine al -> const_small (STuple ds) -> nonneg (map dim_default ds) -> machine_dims (map dim_default ds) -> ty_wf (STuple ds) ->
  modest dbg (Z.of_nat (length mem)) v -> v_ty v = STuple ds -> room al (v_dims v) -> contents mem v xs ->
  exists data cap c, zlen xs <= cap /\
    x_v_serialize dbg (fun x => Ok (enc x)) mem v = Ok data /\
    xt_deserialize dbg' al de (STuple ds) data w = Done (Some (mkTensor (STuple ds) (settle ds (v_dims v)) xs cap)) (after c xs [] w).
Proof.
  intros dbg dbg' T C E al enc de dec mem v ds xs w HE HD HT HA CS HN HM W HV TY HR HX.
  destruct (@c42_partial T C E al enc de dec mem v ds xs w) as (data & cap & c & HC & S1 & D1); auto; [apply HV|].
  destruct (@c42_serialized T E enc mem v (length ds) (proj1 HV) (modest_fits HV)) as (f & S2 & _); [now rewrite TY|].
  exists data, cap, c. split; [exact HC|]. rewrite (proj2 (proj2 (proj2 (c84_exact dbg)))) by exact HV. split; [exact S1|].
  pose proof (wf_nonneg (vv_wf (proj1 HV))) as NV. pose proof (proj1 (proj2 (proj2 HV))) as RV.
  rewrite S1 in S2. injection S2 as ->.
  assert (LD : length ds = length (v_dims v)).
  { pose proof (wf_typed (vv_wf (proj1 HV))) as HTy. change (m_ty (v_map v)) with (v_ty v) in HTy. rewrite TY in HTy. now apply Forall2_len in HTy. }
  rewrite c83_exact; auto.
  - rewrite LD. apply encoded_sized; auto. apply Forall_forall. intros d Hd. apply (In_nth _ _ 0) in Hd. destruct Hd as (i & _ & <-).
    pose proof (@mx_nth i (v_dims v)). pose proof (roomy_usize RV). lia.
  - right. rewrite LD. pose proof (@encoded_box E (v_dims v) f NV). pose proof (roomy_usize RV). lia.
Qed.
Print Assumptions c84_round.

(** The condition on strides is needed: comparing a view of one element with stride [isize::MIN] to itself negates
    the stride at the end, which panics with overflow checks and is harmless without them. *)
Definition ex_far : view := mkView 0 (StridedM (STuple [DDyn]) [1] [isize_min]).
Theorem c84_stride_refuted : valid_view 1 ex_far /\ modest false 1 ex_far /\ ~ modest true 1 ex_far /\
  x_v_eq false zeq [5] [5] ex_far ex_far = Ok true /\ x_v_eq true zeq [5] [5] ex_far ex_far = Panic /\
  x_v_contains false zeq [5] ex_far 5 = Ok true /\ x_v_contains true zeq [5] ex_far 6 = Panic.
Proof.
  assert (IB : forall idx, in_bounds (v_dims ex_far) idx -> idx = [0]).
  { intros idx B. unfold ex_far, v_dims in B. cbn in B. inversion B as [|? i ? r H1 H2]; subst. inversion H2; subst. f_equal. lia. }
  assert (HV : valid_view 1 ex_far).
  { constructor.
    - wf_tac.
    - intros idx B. rewrite (IB _ B). vm_compute. split; [discriminate|reflexivity].
    - intros i j Bi Bj _. now rewrite (IB _ Bi), (IB _ Bj). }
  split; [exact HV|]. split; [|split; [|vm_compute; auto]].
  - apply walkable_modest. split; [exact HV|]. split; [vm_compute; discriminate|]. split; [repeat constructor|].
    repeat constructor; try (vm_compute; discriminate).
  - intros (_ & _ & _ & H). specialize (H O ltac:(cbn; lia)). destruct H as [H _]. specialize (H eq_refl). vm_compute in H. now apply H.
Qed.
Print Assumptions c84_stride_refuted.

(** A transposed matrix against an owned one; debug output and serialization by rows; an empty array. *)
Example c84_example : forall dbg,
  let v := mkView 0 (StridedM (STuple [DDyn; DDyn]) [2; 3] [1; 2]) in
  walkable dbg 6 v /\
  x_v_eq dbg zeq [1; 2; 3; 4; 5; 6] [1; 3; 5; 2; 4; 6] v (whole ty2 [2; 3]) = Ok true /\
  x_v_eq dbg zeq [1; 2; 3; 4; 5; 6] [1; 3; 5; 2; 4; 7] v (whole ty2 [2; 3]) = Ok false /\
  x_v_contains dbg zeq [1; 2; 3; 4; 5; 6] v 4 = Ok true /\ x_v_contains dbg zeq [1; 2; 3; 4; 5; 6] v 7 = Ok false /\
  x_v_hash dbg (fun x : Z => [x]) [1; 2; 3; 4; 5; 6] v =
    Ok [HDim 2; HDim 3; HElem 1; HElem 3; HElem 5; HElem 2; HElem 4; HElem 6] /\
  x_v_debug dbg (fun x : Z => Ok x) [1; 2; 3; 4; 5; 6] v =
    Ok (DList [DList [DItem 1; DItem 3; DItem 5]; DList [DItem 2; DItem 4; DItem 6]]) /\
  x_v_serialize dbg (fun x => Ok (SItem x)) [1; 2; 3; 4; 5; 6] v = Ok (zseq [zrow [1; 3; 5]; zrow [2; 4; 6]]) /\
  modest dbg 0 (whole ty2 [2; 0]) /\ x_v_debug dbg (fun x : Z => Ok x) [] (whole ty2 [2; 0]) = Ok (DList [DList []; DList []]).
Proof.
  intros dbg v.
  assert (IB : forall idx, in_bounds (v_dims v) idx -> exists i j, idx = [i; j] /\ 0 <= i < 2 /\ 0 <= j < 3).
  { intros idx B. unfold v, v_dims in B. cbn in B. inversion B as [|? i ? r H1 H2]; subst. inversion H2 as [|? j ? r' H3 H4]; subst. inversion H4; subst. eauto. }
  assert (AD : forall i j, v_addr v [i; j] = i + 2 * j) by (intros; unfold v, v_addr; cbn [v_map v_ptr]; rewrite m_offset_dot by reflexivity; cbn [m_strides dot]; lia).
  assert (HV : valid_view 6 v).
  { constructor.
    - wf_tac.
    - intros idx B. destruct (IB _ B) as (i & j & -> & Hi & Hj). rewrite AD. lia.
    - intros x y B B'. destruct (IB _ B) as (i & j & -> & Hi & Hj). destruct (IB _ B') as (i' & j' & -> & Hi' & Hj'). rewrite !AD. intros E.
      assert (i = i' /\ j = j') as [-> ->] by lia. reflexivity. }
  split. { split; [exact HV|]. split; [vm_compute; discriminate|]. split; [wf_tac|].
    unfold v. cbn [v_map m_strides]. constructor; [|constructor; [|constructor]]; unfold isize_min, isize_max; lia. }
  do 7 (split; [destruct dbg; vm_compute; reflexivity|]). split; [|destruct dbg; vm_compute; reflexivity].
  apply dense_modest; [apply empty_valid; [wf_tac|reflexivity]|vm_compute; discriminate|reflexivity|vm_compute; discriminate].
Qed.
