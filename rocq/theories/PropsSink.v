(** Theorems for C68: serialization stops at the first error. *)
From Verif Require Import Base Spec SpecFacts Shape Mapping Index View Wf MapOps ReshapeFacts ViewFacts Expr ExprFacts
  Ops OpsFacts OpsMore ViewMore Sink Serde SerdeSpec SerdeMore PropsView PropsExpr PropsSerde.
Unset Strict Implicit.

(** ** Vocabulary *)

(** The calls for an array with dimensions [dims] and elements [get] (defined for its indices): a sequence of the length of the first
    dimension, in which every item is the rest of the array at its index. *)
Fixpoint walk {T : Type} (get : list Z -> option T) (dims : list Z) : list (sevent T) :=
  match dims with
  | [] => match get [] with Some x => [EvValue x] | None => [] end
  | d :: ds => [EvSeq d] ++ flat_map (fun i => [EvItem] ++ walk (fun idx => get (i :: idx)) ds ++ [EvNext]) (zrange d) ++ [EvEnd]
  end.

(** A serializer is given calls one after the other, until one fails. *)
Fixpoint feed {T S : Type} (k : sevent T -> S -> sres S) (l : list (sevent T)) (s : S) : sres S :=
  match l with
  | [] => SGoes s
  | ev :: l' => match k ev s with SGoes s' => feed k l' s' | r => r end
  end.

Lemma feed_app {T S} (k : sevent T -> S -> sres S) a b s :
  feed k (a ++ b) s = match feed k a s with SGoes s' => feed k b s' | r => r end.
Proof. revert s. induction a as [|ev a IH]; intros s; cbn [feed app]; [reflexivity|]. destruct (k ev s); auto. Qed.

Lemma walk_ext {T} dims : forall (f g : list Z -> option T), (forall idx, in_bounds dims idx -> f idx = g idx) -> walk f dims = walk g dims.
Proof.
  induction dims as [|d dims IH]; intros f g H; cbn [walk]; [rewrite H by constructor; reflexivity|]. f_equal. f_equal.
  assert (X : forall ks, (forall k, In k ks -> 0 <= k < d) ->
    flat_map (fun i => [EvItem] ++ walk (fun idx => f (i :: idx)) dims ++ [EvNext]) ks =
    flat_map (fun i => [EvItem] ++ walk (fun idx => g (i :: idx)) dims ++ [EvNext]) ks).
  { induction ks as [|k ks IHk]; intros HK; [reflexivity|]. cbn [flat_map]. f_equal.
    - f_equal. f_equal. apply IH. intros idx Hi. apply H. constructor; auto. apply HK. now left.
    - apply IHk. intros k' H'. apply HK. now right. }
  apply X. intros k Hk. now apply in_zrange.
Qed.

Lemma emit_items_list {A S T} {e : expression A} (k : sevent T -> S -> sres S) (f : A -> S -> outcome (sres S)) (g : A -> list (sevent T)) l :
  (forall x s, In x l -> f x s = Ok (feed k (g x) s)) ->
  forall fuel (it : iter e) s, yields it l -> (length l < fuel)%nat -> emit_items f fuel it s = Ok (feed k (flat_map g l) s).
Proof.
  induction l as [|x l IH]; intros HG [|fuel] it s HL HF; try (cbn in HF; lia).
  - destruct (yields_nil_inv HL) as [i1 H]. cbn [emit_items flat_map feed]. rewrite H. reflexivity.
  - destruct (yields_cons_inv HL) as (i1 & H1 & HL1). cbn [emit_items flat_map]. rewrite H1. cbn [bind].
    rewrite HG by now left. rewrite feed_app. cbn [s_then bind]. destruct (feed k (g x) s); auto.
    apply IH; auto; [|cbn in HF; lia]. intros y s1 Hy. apply HG. now right.
Qed.

Lemma emit_loop_ok {T S} (k : sevent T -> S -> sres S) mem rank : forall v s f,
  valid_view (Z.of_nat (length mem)) v -> (length (v_dims v) <= rank)%nat -> fits (v_dims v) ->
  (forall idx, in_bounds (v_dims v) idx -> exists x, f idx = Some x /\ v_get mem v idx = Ok x) ->
  emit_loop k mem rank v s = Ok (feed k (walk f (v_dims v)) s).
Proof.
  induction rank as [|rank IH]; intros v s f HV HR HF HG; cbn [emit_loop].
  all: destruct (v_dims v) as [|d ds] eqn:EV; [|cbn [length Nat.eqb]].
  1,3: cbn [length Nat.eqb walk feed]; destruct (HG [] ltac:(constructor)) as (x & -> & ->); cbn [bind feed]; destruct (k _ s); reflexivity.
  - cbn in HR; lia.
  - rewrite <- EV in HF. destruct (rows HV EV HF) as (e & ws & E1 & Y1 & F1 & _ & L1 & W1 & _ & G1).
    cbn [walk nth app feed s_then bind]. destruct (k (EvSeq d) s) as [s1|s1|s1]; auto. rewrite E1. cbn [bind].
    assert (X : exists g, (forall w s, In w ws -> s_then (Ok (k EvItem s)) (fun s => s_then (emit_loop k mem rank w s) (fun s => Ok (k EvNext s))) = Ok (feed k (g w) s)) /\
      flat_map g ws = flat_map (fun i => EvItem :: walk (fun idx => f (i :: idx)) ds ++ [EvNext]) (zrange d)).
    { assert (GF : forall w i idx, (forall T (mem : list T) idx, in_bounds ds idx -> v_get mem w idx = v_get mem v (i :: idx)) ->
        0 <= i < d -> in_bounds ds idx -> exists x, f (i :: idx) = Some x /\ v_get mem w idx = Ok x).
      { intros w i idx HW Hi Hx. rewrite HW by exact Hx. apply HG. now constructor. }
      exists (fun w => EvItem :: walk (fun idx => match v_get mem w idx with Ok x => Some x | _ => None end) ds ++ [EvNext]). split.
      - intros w s0 Hw. rewrite Forall_forall in W1. destruct (W1 w Hw) as (D1 & V1 & FW).
        cbn [feed s_then bind]. destruct (k EvItem s0) as [s2|s2|s2]; auto. rewrite feed_app.
        rewrite IH with (f := fun idx => match v_get mem w idx with Ok x => Some x | _ => None end); auto; [|rewrite D1; cbn in HR; lia|].
        + rewrite D1. cbn [s_then bind]. destruct (feed k _ s2) as [s3|s3|s3]; auto. cbn [feed]. destruct (k EvNext s3); reflexivity.
        + rewrite D1. intros idx Hi.
          assert (exists i, 0 <= i < d /\ forall T (mem : list T) idx, in_bounds ds idx -> v_get mem w idx = v_get mem v (i :: idx)) as (i & Bi & Gi).
          { destruct (In_nth_error _ _ Hw) as [j Hj]. destruct (Forall2_nth_error G1 Hj) as (i & EI & Gi).
            exists i. split; [apply in_zrange; eapply nth_error_In; eauto|exact Gi]. }
          destruct (GF _ _ _ Gi Bi Hi) as (x & _ & ->). eauto.
      - assert (KB : forall i, In i (zrange d) -> 0 <= i < d) by (intros; now apply in_zrange).
        revert KB. clear - G1 GF. induction G1 as [|w i ws is H G1 IHG]; intros KB; [reflexivity|]. cbn [flat_map].
        rewrite IHG by (intros; apply KB; now right). f_equal. f_equal. f_equal. apply walk_ext.
        intros idx Hx. destruct (GF _ _ _ H (KB i (or_introl eq_refl)) Hx) as (x & -> & ->). reflexivity. }
    destruct X as (g & X1 & X2). rewrite (@emit_items_list view S T e k _ g ws X1 _ _ _ Y1 F1). rewrite feed_app, X2. cbn [s_then bind].
    destruct (feed k (flat_map _ (zrange d)) s1) as [s4|s4|s4]; auto. cbn [feed]. destruct (k EvEnd s4); reflexivity.
Qed.

(** ** Serialization *)

(** The serializer is given the calls for the elements in order, up to and including the first that fails, and its error
    (or panic) is the result.  Nothing is read out of bounds, whatever the serializer does. *)
Theorem c68_emit : forall T S (k : sevent T -> S -> sres S) mem v rank s,
  valid_view (Z.of_nat (length mem)) v -> fits (v_dims v) -> sh_rank (v_ty v) = Some rank ->
  exists f, (forall idx, in_bounds (v_dims v) idx -> exists x, f idx = Some x /\ v_get mem v idx = Ok x) /\
    v_emit k mem v s = Ok (feed k (walk f (v_dims v)) s).
Proof.
  intros T S k mem v rank s HV HF HR. pose (f := fun idx => match v_get mem v idx with Ok x => Some x | _ => None end).
  assert (G : forall idx, in_bounds (v_dims v) idx -> exists x, f idx = Some x /\ v_get mem v idx = Ok x).
  { intros idx B. destruct (proj1 (checked_get HV) idx B) as (x & E1). exists x. unfold f. rewrite E1. auto. }
  exists f. split; [exact G|]. unfold v_emit. rewrite HR. apply emit_loop_ok; auto.
  pose proof (wf_typed (vv_wf HV)) as TY. unfold v_ty in HR. unfold v_dims. destruct (m_ty (v_map v)); [discriminate|].
  cbn in HR, TY. apply Forall2_len in TY. injection HR as <-. lia.
Qed.
Print Assumptions c68_emit.

(** A run-time rank is refused before the serializer is given anything. *)
Theorem c68_dynrank : forall T S (k : sevent T -> S -> sres S) mem v s, v_ty v = SDynRank -> v_emit k mem v s = Panic.
Proof. intros T S k mem v s E. unfold v_emit. now rewrite E. Qed.
Print Assumptions c68_dynrank.

(** A serializer that builds nested sequences: the open sequences with the items they have, and the last value that
    was finished. *)
Definition build {T E : Type} (enc : T -> sdata E) (ev : sevent T) (s : list (Z * list (sdata E)) * option (sdata E))
  : sres (list (Z * list (sdata E)) * option (sdata E)) :=
  let '(open, last) := s in
  match ev, open, last with
  | EvSeq d, _, _ => SGoes ((d, []) :: open, None)
  | EvItem, _, _ => SGoes (open, None)
  | EvValue x, _, _ => SGoes (open, Some (enc x))
  | EvNext, (d, l) :: open', Some x => SGoes ((d, l ++ [x]) :: open', None)
  | EvEnd, (d, l) :: open', _ => SGoes (open', Some (SSeq (Some d) l))
  | _, _, _ => SFails s
  end.

Lemma feed_build {T E} (enc : T -> sdata E) dims : forall f g open last,
  (forall idx, in_bounds dims idx -> exists x, f idx = Some x /\ g idx = enc x) ->
  feed (build enc) (walk f dims) (open, last) = SGoes (open, Some (encoded g dims)).
Proof.
  induction dims as [|d dims IH]; intros f g open last H; cbn [walk encoded].
  - destruct (H [] ltac:(constructor)) as (x & -> & ->). reflexivity.
  - cbn [app feed build]. rewrite feed_app.
    assert (X : forall ks l last, (forall k, In k ks -> 0 <= k < d) ->
      exists last', feed (build enc) (flat_map (fun i => EvItem :: walk (fun idx => f (i :: idx)) dims ++ [EvNext]) ks) ((d, l) :: open, last) =
        SGoes ((d, l ++ map (fun k => encoded (fun idx => g (k :: idx)) dims) ks) :: open, last')).
    { induction ks as [|k ks IHk]; intros l la HK; [exists la; cbn; now rewrite app_nil_r|]. cbn [flat_map app feed build map]. rewrite feed_app, feed_app.
      rewrite IH with (g := fun idx => g (k :: idx)); [|intros idx Hi; apply H; constructor; auto; apply HK; now left].
      cbn [feed build]. destruct (IHk (l ++ [encoded (fun idx => g (k :: idx)) dims]) None) as (la' & ->); [intros; apply HK; now right|].
      exists la'. now rewrite <- app_assoc. }
    destruct (X (zrange d) [] None) as (la & ->); [intros k; apply in_zrange|]. reflexivity.
Qed.

(** It builds what C42 says is serialized: the two models agree, and the calls are well nested. *)
Theorem c68_builds : forall T E (enc : T -> sdata E) mem v rank,
  valid_view (Z.of_nat (length mem)) v -> fits (v_dims v) -> sh_rank (v_ty v) = Some rank ->
  exists data, v_serialize (fun x => Ok (enc x)) mem v = Ok data /\
    v_emit (build enc) mem v ([], None) = Ok (SGoes ([], Some data)).
Proof.
  intros T E enc mem v rank HV HF HR. destruct (@c42_serialized T E enc mem v rank HV HF HR) as (g & E1 & G).
  exists (encoded g (v_dims v)). split; [exact E1|].
  destruct (@c68_emit T _ (build enc) mem v rank ([], None) HV HF HR) as (f & F & ->). f_equal. apply feed_build.
  intros idx B. destruct (F idx B) as (x & Ef & Eg). destruct (G idx B) as (_ & y & Ey & ->). exists x. split; [exact Ef|]. congruence.
Qed.
Print Assumptions c68_builds.

(** A serializer that writes down the calls and fails at the third value: the calls up to that value, and no more. *)
Example c68_example :
  let k := fun ev (s : list (sevent Z)) => match ev with EvValue 3 => SFails (s ++ [ev]) | _ => SGoes (s ++ [ev]) end in
  let d2 := STuple [DDyn; DDyn] in let t := mkView 0 (StridedM d2 [3; 2] [1; 3]) in
  valid_view 6 t /\ fits (v_dims t) /\ sh_rank (v_ty t) = Some 2%nat /\
  v_emit k [1; 2; 3; 4; 5; 6] (whole d2 [2; 3]) [] =
    Ok (SFails [EvSeq 2; EvItem; EvSeq 3; EvItem; EvValue 1; EvNext; EvItem; EvValue 2; EvNext; EvItem; EvValue 3]) /\
  v_emit k [1; 2; 0; 4; 5; 6] t [] =
    Ok (SGoes [EvSeq 3; EvItem; EvSeq 2; EvItem; EvValue 1; EvNext; EvItem; EvValue 4; EvNext; EvEnd; EvNext;
                EvItem; EvSeq 2; EvItem; EvValue 2; EvNext; EvItem; EvValue 5; EvNext; EvEnd; EvNext;
                EvItem; EvSeq 2; EvItem; EvValue 0; EvNext; EvItem; EvValue 6; EvNext; EvEnd; EvNext; EvEnd]) /\
  v_emit k [] (whole d2 [0; 3]) [] = Ok (SGoes [EvSeq 0; EvEnd]).
Proof.
  cbv zeta. split.
  { constructor.
    - wf_tac.
    - intros idx H. inb H. unfold v_addr, v_ptr, v_map, m_offset, for_each_stride. cbv [map seq length fold_left fst snd nth]. lia.
    - intros i j Hi Hj E. inb Hi. inb Hj. unfold v_addr, v_ptr, v_map, m_offset, for_each_stride in E.
      cbv [map seq length fold_left fst snd nth] in E. repeat f_equal; lia. }
  split; [apply fits_positive; [repeat constructor|vm_compute; discriminate]|]. split; [reflexivity|].
  split; [vm_compute; reflexivity|]. split; vm_compute; reflexivity.
Qed.
