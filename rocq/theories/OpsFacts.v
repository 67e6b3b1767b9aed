(** Equality, [contains], hashing, debug output and operators. *)
From Verif Require Import Base Spec SpecFacts Shape Mapping Index View Wf MappingFacts MapOps ReshapeFacts.
From Verif Require Import IndexFacts ViewFacts ViewMore.
From Verif Require Import Expr ExprSpec ExprFacts IterFacts SourceFacts ExprTree ExprMore.
From Verif Require Import Tensor TraceFacts TensorSpec TensorFacts Ops.
Unset Strict Implicit.

(** The elements of [v] in row-major order are [xs]. *)
Definition contents {T} (mem : list T) (v : view) (xs : list T) : Prop :=
  Forall2 (fun idx x => v_get mem v idx = Ok x) (indices (v_dims v)) xs.

Lemma contents_exist {T} (mem : list T) v :
  valid_view (Z.of_nat (length mem)) v -> exists xs, contents mem v xs.
Proof.
  intros HV. unfold contents. destruct (checked_get HV) as [HG _].
  assert (G : forall l, (forall i, In i l -> In i (indices (v_dims v))) ->
              exists xs, Forall2 (fun idx x => v_get mem v idx = Ok x) l xs).
  { induction l as [|i l IH]; intros H; [exists []; constructor|].
    destruct IH as [xs Hx]; [intros j Hj; apply H; now right|].
    destruct (HG i) as [x E]; [apply in_indices, H; now left|]. exists (x :: xs). now constructor. }
  apply G. auto.
Qed.

Lemma contents_unique {T} (mem : list T) v xs ys : contents mem v xs -> contents mem v ys -> xs = ys.
Proof.
  unfold contents. generalize (indices (v_dims v)). intros l H. revert ys.
  induction H; intros ys HY; inversion HY; subst; auto. f_equal; auto. congruence.
Qed.

Lemma contents_length {T} (mem : list T) v xs : wf_map (v_map v) -> contents mem v xs -> zlen xs = prodZ (v_dims v).
Proof.
  intros Hw H. apply Forall2_len in H. unfold zlen. rewrite <- H. rewrite indices_length by apply Hw.
  apply Z2Nat.id, prodZ_nonneg, Hw.
Qed.

Lemma contents_nth {T} (mem : list T) v xs idx :
  contents mem v xs -> in_bounds (v_dims v) idx ->
  exists x, nth_error xs (Z.to_nat (flat (v_dims v) idx)) = Some x /\ v_get mem v idx = Ok x.
Proof.
  intros H Hi. pose proof (flat_bounds Hi) as HB. pose proof (positive_nonneg (in_bounds_positive Hi)) as HN.
  assert (E : nth_error (indices (v_dims v)) (Z.to_nat (flat (v_dims v) idx)) = Some idx).
  { rewrite (nth_error_nth' _ []) by (rewrite indices_length by auto; lia).
    rewrite indices_nth by (auto; lia). rewrite Z2Nat.id by lia. now rewrite unflat_flat. }
  revert E. generalize (Z.to_nat (flat (v_dims v) idx)). unfold contents in H. revert H. generalize (indices (v_dims v)).
  intros l H. induction H; intros [|n] E; try discriminate; cbn in *.
  - injection E as ->. eauto.
  - eauto.
Qed.

(** ** Iterators as lists *)

Inductive yields {A} {e : expression A} : iter e -> list A -> Prop :=
| yields_nil it it' : it_next it = Ok (None, it') -> yields it []
| yields_cons it it' x l : it_next it = Ok (Some x, it') -> yields it' l -> yields it (x :: l).

Lemma yields_nil_inv {A} {e : expression A} (it : iter e) : yields it [] -> exists it', it_next it = Ok (None, it').
Proof. intros H. inversion H. eauto. Qed.
Lemma yields_cons_inv {A} {e : expression A} (it : iter e) x l :
  yields it (x :: l) -> exists it', it_next it = Ok (Some x, it') /\ yields it' l.
Proof. intros H. inversion H. eauto. Qed.

Lemma nexts_yield {A} {e : expression A} l : forall (it it' it'' : iter e),
  it_nexts (length l) it = Ok (map Some l, it') -> it_next it' = Ok (None, it'') -> yields it l.
Proof.
  induction l as [|x l IH]; intros it it' it'' H HN; cbn in H.
  - injection H as ->. eapply yields_nil; eauto.
  - destruct (it_next it) as [[o it1]| | |] eqn:E; try discriminate. cbn [bind] in H.
    destruct (it_nexts (length l) it1) as [[os it2]| | |] eqn:E2; try discriminate. cbn [bind] in H.
    injection H as -> -> ->. eapply yields_cons; eauto.
Qed.

Lemma iter_eq_list {A B} {a : expression A} {b : expression B} (eq : A -> B -> outcome bool) l :
  forall r fuel (it : iter a) (it' : iter b),
  yields it l -> yields it' r -> length l = length r -> (length l < fuel)%nat ->
  iter_eq eq fuel it it' = list_eq eq l r.
Proof.
  induction l as [|x l IH]; intros [|y r] [|fuel] it it' HL HR HE HF; try discriminate; try (cbn in HF; lia).
  - destruct (yields_nil_inv HL) as [i1 H]. destruct (yields_nil_inv HR) as [i2 H0].
    cbn [iter_eq]. rewrite H. cbn [bind]. rewrite H0. reflexivity.
  - destruct (yields_cons_inv HL) as (i1 & H1 & HL1). destruct (yields_cons_inv HR) as (i2 & H2 & HR2).
    cbn [iter_eq list_eq]. rewrite H1. cbn [bind]. rewrite H2. cbn [bind].
    destruct (eq x y) as [[|]| | |]; cbn [bind]; auto. apply IH; auto. cbn in HF; lia.
Qed.

Lemma iter_any_list {A} {e : expression A} (p : A -> outcome bool) l :
  forall fuel (it : iter e), yields it l -> (length l < fuel)%nat -> iter_any p fuel it = list_any p l.
Proof.
  induction l as [|x l IH]; intros [|fuel] it HL HF; try (cbn in HF; lia).
  - destruct (yields_nil_inv HL) as [i1 H]. cbn [iter_any]. rewrite H. reflexivity.
  - destruct (yields_cons_inv HL) as (i1 & H1 & HL1). cbn [iter_any list_any]. rewrite H1. cbn [bind].
    destruct (p x) as [[|]| | |]; cbn [bind]; auto. apply IH; auto. cbn in HF; lia.
Qed.

Fixpoint mapM {A D} (f : A -> outcome D) (l : list A) : outcome (list D) :=
  match l with
  | [] => Ok []
  | x :: l' => let* d := f x in let* ds := mapM f l' in Ok (d :: ds)
  end.

Lemma iter_entries_list {A D} {e : expression A} (f : A -> outcome D) l :
  forall fuel (it : iter e), yields it l -> (length l < fuel)%nat -> iter_entries f fuel it = mapM f l.
Proof.
  induction l as [|x l IH]; intros [|fuel] it HL HF; try (cbn in HF; lia).
  - destruct (yields_nil_inv HL) as [i1 H]. cbn [iter_entries]. rewrite H. reflexivity.
  - destruct (yields_cons_inv HL) as (i1 & H1 & HL1). cbn [iter_entries mapM]. rewrite H1. cbn [bind].
    destruct (f x); cbn [bind]; auto. rewrite IH with (it := i1); auto. cbn in HF; lia.
Qed.

(** ** The outermost dimension *)

Lemma fits_tail d ds : 0 < d -> nonneg ds -> fits (d :: ds) -> fits ds.
Proof.
  intros Hd HN H k. specialize (H (S k)). cbn [firstn] in H. rewrite prodZ_cons in H.
  assert (0 <= prodZ (firstn k ds)) by (apply prodZ_nonneg; now apply Forall_firstn'). nia.
Qed.

Lemma rows_when n v d ds :
  valid_view n v -> v_dims v = d :: ds -> (0 < d -> fits ds) ->
  exists e ws, e_axis true v (AxConst 0) = Ok e /\ yields (it_new e) ws /\ (length ws < next_fuel e)%nat /\
    (forall T (mem : list T) xs, n = Z.of_nat (length mem) -> contents mem v xs ->
       exists xss, Forall2 (contents mem) ws xss /\ concat xss = xs) /\
    Z.of_nat (length ws) = d /\
    Forall (fun w => v_dims w = ds /\ valid_view n w /\ fits (v_dims w)) ws /\
    (forall k, 0 <= k < d -> exists w, nth_error ws (Z.to_nat k) = Some w /\ v_at v k = Ok w) /\
    Forall2 (fun w k => forall T (mem : list T) idx, in_bounds ds idx -> v_get mem w idx = v_get mem v (k :: idx)) ws (zrange d).
Proof.
  intros HV HD HF. pose proof (wf_nonneg (vv_wf HV)) as HN. fold (v_dims v) in HN. rewrite HD in HN.
  assert (HI : is_axis (AxConst 0) (length (v_dims v)) 0) by (rewrite HD; split; cbn; auto; lia).
  inversion HN as [|? ? Hd Hds]; subst.
  destruct (@axis_expr_ok n true v (AxConst 0) 0 HV HI) as (e & ws & E & HDe & _ & _ & HL & HY & HW & _).
  { rewrite HD. exact HF. }
  rewrite HD in HL, HW, HDe. cbn [nth remove_at] in HL, HW, HDe.
  exists e, ws. split; [exact E|]. destruct HY as (it & it' & H1 & H2). split; [eapply nexts_yield; eauto|].
  split. { unfold next_fuel. rewrite HDe, sh_len_prod. rewrite prodZ_cons. replace (prodZ []) with 1 by reflexivity. lia. }
  split; [|split; [exact HL|split; [|split]]].
  - intros T mem xs -> HC. unfold contents in HC. rewrite HD in HC. cbn [indices] in HC.
    assert (HZ : forall k, In k (zrange d) -> 0 <= k < d) by (intros k; apply in_zrange).
    assert (G : forall l ws', (forall i w, nth_error ws' i = Some w -> exists k, nth_error l i = Some k /\
                   v_dims w = ds /\ shows v w (insert_at 0 k)) -> length ws' = length l ->
                forall xs, Forall2 (fun idx x => v_get mem v idx = Ok x) (flat_map (fun i => map (cons i) (indices ds)) l) xs ->
                exists xss, Forall2 (contents mem) ws' xss /\ concat xss = xs).
    { induction l as [|k l IH]; intros [|w ws'] HW' HL' xs' HX; try discriminate; cbn [flat_map] in HX.
      - inversion HX; subst. exists []. split; constructor.
      - apply Forall2_app_inv_l in HX. destruct HX as (x1 & x2 & HX1 & HX2 & ->).
        destruct (IH ws') with (xs := x2) as (xss & HXS & <-); auto.
        { intros i w' Hi. apply (HW' (S i)). exact Hi. }
        exists (x1 :: xss). split; [|reflexivity]. constructor; auto.
        destruct (HW' O w eq_refl) as (k' & Hk' & Hdw & HS). cbn in Hk'. injection Hk' as <-.
        unfold contents. rewrite Hdw.
        assert (HB : forall i, In i (indices ds) -> v_get mem w i = v_get mem v (k :: i)).
        { intros i Hi. apply (v_get_shows mem HS). rewrite Hdw. now apply in_indices. }
        clear - HX1 HB. revert HB HX1. generalize (indices ds). intros l. revert x1.
        induction l as [|i l IH]; intros x1 HB HX; inversion HX; subst; constructor.
        + rewrite HB by now left. assumption.
        + apply IH; auto. intros j Hj. apply HB. now right. }
    apply (G (zrange d)); auto.
    + intros i w Hi. assert (Hlt : (i < length ws)%nat) by (apply nth_error_Some; congruence).
      destruct (HW (Z.of_nat i)) as (w' & Hw' & _ & Hdw & _ & HS); [lia|]. rewrite Nat2Z.id in Hw'.
      rewrite Hw' in Hi. injection Hi as ->. exists (Z.of_nat i). repeat split; auto.
      * replace i with (Z.to_nat (Z.of_nat i)) at 1 by lia. apply nth_error_zrange. lia.
      * apply HS; auto.
      * apply HS; auto.
    + rewrite zrange_length. lia.
  - apply Forall_forall. intros w Hw. apply In_nth_error in Hw. destruct Hw as [i Hi].
    assert (Hlt : (i < length ws)%nat) by (apply nth_error_Some; congruence).
    destruct (HW (Z.of_nat i)) as (w' & Hw' & _ & Hdw & HVw & HS); [lia|]. rewrite Nat2Z.id in Hw'.
    rewrite Hw' in Hi. injection Hi as ->. split; [exact Hdw|split; [exact HVw|]]. rewrite Hdw. apply HF. lia.
  - intros k Hk. destruct (HW k Hk) as (w & H & H' & _). exists w. auto.
  - assert (HZ : length ws = length (zrange d)) by (rewrite zrange_length; lia).
    assert (G : forall i w k, nth_error ws i = Some w -> nth_error (zrange d) i = Some k ->
              forall T (mem : list T) idx, in_bounds ds idx -> v_get mem w idx = v_get mem v (k :: idx)).
    { intros i w k Hi Hk T mem idx Hidx. assert (Hlt : (i < length ws)%nat) by (apply nth_error_Some; congruence).
      destruct (HW (Z.of_nat i)) as (w' & Hw' & _ & Hdw & HVw & HS); [lia|]. rewrite Nat2Z.id in Hw'.
      rewrite Hw' in Hi. injection Hi as ->.
      assert (E2 : nth_error (zrange d) i = Some (Z.of_nat i)).
      { replace i with (Z.to_nat (Z.of_nat i)) at 1 by lia. apply nth_error_zrange. lia. }
      rewrite E2 in Hk. injection Hk as <-. apply (v_get_shows mem HS). now rewrite Hdw. }
    revert HZ G. generalize (zrange d). clear. induction ws as [|w ws IH]; intros [|k l] HZ G; try discriminate; constructor.
    + apply (G O); reflexivity.
    + apply IH; [now injection HZ|]. intros i w' k' Hi Hk. apply (G (S i)); auto.
Qed.

Lemma rows n v d ds :
  valid_view n v -> v_dims v = d :: ds -> fits (v_dims v) ->
  exists e ws, e_axis true v (AxConst 0) = Ok e /\ yields (it_new e) ws /\ (length ws < next_fuel e)%nat /\
    (forall T (mem : list T) xs, n = Z.of_nat (length mem) -> contents mem v xs ->
       exists xss, Forall2 (contents mem) ws xss /\ concat xss = xs) /\
    Z.of_nat (length ws) = d /\
    Forall (fun w => v_dims w = ds /\ valid_view n w /\ fits (v_dims w)) ws /\
    (forall k, 0 <= k < d -> exists w, nth_error ws (Z.to_nat k) = Some w /\ v_at v k = Ok w) /\
    Forall2 (fun w k => forall T (mem : list T) idx, in_bounds ds idx -> v_get mem w idx = v_get mem v (k :: idx)) ws (zrange d).
Proof.
  intros HV HD HF. apply rows_when; auto. intros H. rewrite HD in HF. apply (@fits_tail d ds); auto.
  pose proof (wf_nonneg (vv_wf HV)) as HN. fold (v_dims v) in HN. rewrite HD in HN. now inversion HN.
Qed.

(** ** Contiguous memory *)

Lemma flatten_dims len : 0 <= len <= usize_max -> forall old, prodZ old = len ->
  sh_reshape old (STuple [DDyn]) [len] = Ok [len].
Proof.
  intros HL old HO. apply sh_reshape_iff.
  - repeat constructor.
  - repeat constructor. discriminate.
  - split.
    + intros k. unfold known. cbn [filter]. destruct (negb _) eqn:E; destruct k; cbn [firstn]; rewrite ?firstn_nil, ?prodZ_cons;
        replace (prodZ []) with 1 by reflexivity; unfold usize_max in *; lia.
    + unfold resolves, inferred, known. cbn [filter count_occ]. destruct (Z.eq_dec len usize_max) as [->|E].
      * right. split; auto. split; [repeat constructor; lia|]. split; [vm_compute; discriminate|]. rewrite prodZ_cons. replace (prodZ []) with 1 by reflexivity. lia.
      * left. split; auto. split; auto. rewrite prodZ_cons. replace (prodZ []) with 1 by reflexivity. lia.
Qed.

Lemma nth_error_same {A} (l : list A) : forall l', (forall i, nth_error l i = nth_error l' i) -> l = l'.
Proof.
  induction l as [|x l IH]; intros [|y l'] H; auto; try (specialize (H O); discriminate).
  f_equal; [specialize (H O); now injection H|]. apply IH. intros i. exact (H (S i)).
Qed.

Lemma cells_contents {T} (mem : list T) p ty dims xs :
  nonneg dims -> contents mem (mkView p (DenseM ty dims)) xs -> cells mem p (prodZ dims) = Ok xs.
Proof.
  intros HN HC.
  assert (HX : forall k, 0 <= k < prodZ dims -> exists x, nth_error xs (Z.to_nat k) = Some x /\ read mem (p + k) = Ok x).
  { intros k Hk. pose proof (unflat_in_bounds HN Hk) as Hi. destruct (contents_nth HC Hi) as (x & H1 & H2).
    cbn [v_dims v_map m_dims] in *. unfold v_dims in H1. cbn in H1. rewrite flat_unflat in H1 by auto. exists x. split; auto.
    rewrite v_get_in in H2 by exact Hi. rewrite dense_addr in H2 by exact Hi. rewrite flat_unflat in H2 by auto. exact H2. }
  assert (HLX : zlen xs = prodZ dims).
  { apply Forall2_len in HC. unfold zlen. rewrite <- HC. unfold v_dims. cbn. rewrite indices_length by auto.
    apply Z2Nat.id. now apply prodZ_nonneg. }
  unfold cells. destruct (Z.eqb_spec (prodZ dims) 0) as [E|E].
  { rewrite E in HLX. unfold zlen in HLX. destruct xs; [reflexivity|discriminate]. }
  pose proof (prodZ_nonneg HN) as HP.
  assert (HR : forall a x, read mem a = Ok x -> 0 <= a < zlen mem /\ nth_error mem (Z.to_nat a) = Some x).
  { intros a x. unfold read. destruct (Z.ltb_spec a 0); [discriminate|].
    destruct (nth_error mem (Z.to_nat a)) eqn:EN; [|discriminate]. intros [= ->]. split; auto.
    assert (Z.to_nat a < length mem)%nat by (apply nth_error_Some; congruence). unfold zlen. lia. }
  destruct (HX 0) as (x0 & _ & H0); [lia|]. apply HR in H0. destruct H0 as [H0 _].
  destruct (HX (prodZ dims - 1)) as (x1 & _ & H1); [lia|]. apply HR in H1. destruct H1 as [H1 _].
  unfold zlen in *. replace ((0 <=? p) && (p + prodZ dims <=? Z.of_nat (length mem))) with true by lia.
  f_equal. apply nth_error_same. intros i. destruct (Nat.lt_ge_cases i (length xs)) as [Hi|Hi].
  - rewrite nth_error_firstn'. destruct (Nat.ltb_spec i (Z.to_nat (prodZ dims))); [|lia]. rewrite nth_error_skipn'.
    destruct (HX (Z.of_nat i)) as (x & E1 & E2); [lia|]. rewrite Nat2Z.id in E1. rewrite E1.
    apply HR in E2. destruct E2 as [_ E2]. rewrite <- E2. f_equal. lia.
  - rewrite (proj2 (nth_error_None xs i)) by lia. apply nth_error_None. rewrite firstn_length. lia.
Qed.

Lemma slice_contents_when {T} (mem : list T) v xs :
  valid_view (Z.of_nat (length mem)) v -> prodZ (v_dims v) <= usize_max -> v_layout v = Dense -> contents mem v xs ->
  v_slice mem v = Ok xs.
Proof.
  intros HV HF HL HC. destruct v as [p [ty dims|]]; [|discriminate HL]. unfold v_dims in HF; cbn in HF.
  pose proof (vv_wf HV) as Hw. destruct Hw as [HN HT HWt _]. cbn [m_dims m_ty v_map] in *.
  unfold v_slice, v_remap. rewrite m_remap_dense. cbn [v_map v_ty m_ty m_dims v_ptr].
  apply accepts_typed in HT as HT'. rewrite HT'. unfold v_ty. cbn [m_ty v_map].
  cbn [is_contiguous andb bind].
  unfold v_flatten, v_reshape. cbn [v_map v_ptr m_reshape]. unfold m_len. cbn [m_dims]. rewrite sh_len_prod.
  rewrite flatten_dims; auto.
  2:{ split; [now apply prodZ_nonneg|exact HF]. }
  cbn [bind v_ptr v_map m_dims]. rewrite sh_len_prod, prodZ_cons. replace (prodZ []) with 1 by reflexivity.
  rewrite Z.mul_1_r. eapply cells_contents; eauto.
Qed.

Lemma slice_contents {T} (mem : list T) v xs :
  valid_view (Z.of_nat (length mem)) v -> fits (v_dims v) -> v_layout v = Dense -> contents mem v xs ->
  v_slice mem v = Ok xs.
Proof.
  intros HV HF. apply slice_contents_when; auto. specialize (HF (length (v_dims v))). now rewrite firstn_all in HF.
Qed.

(** ** Equality *)

Lemma list_eq_app {T U} (eq : T -> U -> outcome bool) a : forall b a' b', length a = length b ->
  list_eq eq (a ++ a') (b ++ b') = let* r := list_eq eq a b in if r then list_eq eq a' b' else Ok false.
Proof.
  induction a as [|x a IH]; intros [|y b] a' b' H; try discriminate; cbn [app list_eq bind]; auto.
  destruct (eq x y) as [[|]| | |]; cbn [bind]; auto.
Qed.

Lemma list_eq_concat {A B T U} (f : A -> B -> outcome bool) (eq : T -> U -> outcome bool)
    (R : A -> list T -> Prop) (Q : B -> list U -> Prop) ws xss : Forall2 R ws xss -> forall vs yss,
  Forall2 Q vs yss -> length ws = length vs ->
  (forall w v xs ys, In w ws -> In v vs -> R w xs -> Q v ys -> length xs = length ys /\ f w v = list_eq eq xs ys) ->
  list_eq f ws vs = list_eq eq (concat xss) (concat yss).
Proof.
  induction 1 as [|w xs ws xss HR HRR IH]; intros vs yss HQ HL H; destruct vs as [|v vs]; try discriminate.
  - inversion HQ; subst. reflexivity.
  - inversion HQ as [|? ys ? yss' HQ1 HQ2]; subst. cbn [concat list_eq].
    destruct (H w v xs ys) as [HE HF]; try (now left); auto. rewrite list_eq_app by exact HE. rewrite HF.
    destruct (list_eq eq xs ys) as [[|]| | |]; cbn [bind]; auto. apply IH; auto.
    intros w' v' xs' ys' Hw Hv. apply H; now right.
Qed.

Lemma view_yields n v :
  valid_view n v -> (length (v_dims v) < 2)%nat ->
  yields (it_new (e_view n true v)) (map (v_addr v) (indices (v_dims v))) /\
  (length (indices (v_dims v)) < next_fuel (e_view n true v))%nat.
Proof.
  intros HV HR. pose proof (wf_nonneg (vv_wf HV)) as HN. fold (v_dims v) in HN. split.
  - destruct (@view_nexts n true v (Z.to_nat (prodZ (v_dims v))) HV) as (it & H1 & _ & _ & H4).
    { right. left. lia. }
    { lia. }
    destruct (H4 eq_refl) as (it' & H5 & _). rewrite <- indices_length in H1 by exact HN. rewrite firstn_all in H1.
    eapply nexts_yield; [|exact H5]. rewrite map_length. exact H1.
  - unfold next_fuel. cbn [e_dims e_view]. rewrite sh_len_prod, indices_length by exact HN.
    unfold v_dims. lia.
Qed.

Lemma contents_read {T} (mem : list T) v xs : contents mem v xs ->
  Forall2 (fun p x => read mem p = Ok x) (map (v_addr v) (indices (v_dims v))) xs.
Proof.
  unfold contents. assert (H : forall i, In i (indices (v_dims v)) -> in_bounds (v_dims v) i) by (intros; now apply in_indices).
  revert H. generalize (indices (v_dims v)). intros l H HC. induction HC; constructor.
  - rewrite <- v_get_in by (apply H; now left). assumption.
  - apply IHHC. intros i Hi. apply H. now right.
Qed.

Lemma list_eq_read {T U} (eq : T -> U -> outcome bool) am bm l xs :
  Forall2 (fun p x => read am p = Ok x) l xs -> forall r ys,
  Forall2 (fun q y => read bm q = Ok y) r ys -> 
  list_eq (fun p q => let* x := read am p in let* y := read bm q in eq x y) l r = list_eq eq xs ys.
Proof.
  induction 1 as [|p x l xs HP HL IH]; intros r ys HR; [inversion HR; reflexivity|].
  inversion HR as [|q y r' ys' HQ HR']; subst; cbn [list_eq]; auto. rewrite HP. cbn [bind]. rewrite HQ. cbn [bind].
  destruct (eq x y) as [[|]| | |]; cbn [bind]; auto.
Qed.

Lemma slice_eqb_iff a : forall b, slice_eqb a b = true <-> a = b.
Proof.
  induction a as [|x a IH]; intros [|y b]; cbn [slice_eqb]; split; intros H; try discriminate; auto.
  - apply andb_true_iff in H. destruct H as [H1 H2]. apply Z.eqb_eq in H1. apply IH in H2. congruence.
  - injection H as -> ->. rewrite Z.eqb_refl. cbn. now apply IH.
Qed.

Lemma eq_loop_ok {T U} (eq : T -> U -> outcome bool) am bm rank : forall a b xs ys,
  valid_view (Z.of_nat (length am)) a -> valid_view (Z.of_nat (length bm)) b ->
  (length (v_dims a) <= rank)%nat -> fits (v_dims a) -> v_dims a = v_dims b ->
  contents am a xs -> contents bm b ys ->
  eq_loop eq am bm rank a b = list_eq eq xs ys.
Proof.
  induction rank as [|rank IH]; intros a b xs ys HA HB HR HF HD HX HY.
  all: cbn [eq_loop]; rewrite (proj2 (slice_eqb_iff _ _) HD).
  all: destruct (is_dense a && is_dense b) eqn:EB.
  1,3: apply andb_true_iff in EB; destruct EB as [EA EB]; unfold is_dense in EA, EB;
    destruct (v_layout a) eqn:LA; try discriminate; destruct (v_layout b) eqn:LB; try discriminate;
    rewrite (slice_contents HA HF LA HX); cbn [bind]; rewrite (@slice_contents _ bm b ys HB) by (rewrite <- ?HD; auto); cbn [bind];
    unfold slices_eq; apply contents_length in HX; [|apply HA]; apply contents_length in HY; [|apply HB];
    rewrite HD in HX; unfold zlen in *; replace (length xs =? length ys)%nat with true; auto; symmetry; apply Nat.eqb_eq; lia.
  - replace (length (v_dims a) <? 2)%nat with true by (symmetry; apply Nat.ltb_lt; lia).
    destruct (@view_yields _ a HA) as [Y1 F1]; [lia|]. destruct (@view_yields _ b HB) as [Y2 F2]; [rewrite <- HD; lia|].
    erewrite iter_eq_list; [|exact Y1|exact Y2|rewrite !map_length, HD; reflexivity|rewrite map_length; exact F1].
    apply list_eq_read; now apply contents_read.
  - destruct (Nat.ltb_spec (length (v_dims a)) 2) as [HR2|HR2].
    + destruct (@view_yields _ a HA) as [Y1 F1]; [lia|]. destruct (@view_yields _ b HB) as [Y2 F2]; [rewrite <- HD; lia|].
      erewrite iter_eq_list; [|exact Y1|exact Y2|rewrite !map_length, HD; reflexivity|rewrite map_length; exact F1].
      apply list_eq_read; now apply contents_read.
    + destruct (v_dims a) as [|d ds] eqn:EA; [cbn in HR2; lia|]. symmetry in HD.
      rewrite <- EA in HF.
      destruct (rows HA EA HF) as (ea & ws & E1 & Y1 & F1 & C1 & L1 & W1 & _).
      rewrite EA, <- HD in HF.
      destruct (rows HB HD HF) as (eb & vs & E2 & Y2 & F2 & C2 & L2 & W2 & _).
      rewrite E1. cbn [bind]. rewrite E2. cbn [bind].
      destruct (C1 _ am xs eq_refl HX) as (xss & HXS & <-). destruct (C2 _ bm ys eq_refl HY) as (yss & HYS & <-).
      erewrite iter_eq_list; [|exact Y1|exact Y2|lia|exact F1].
      apply (@list_eq_concat _ _ _ _ _ eq (contents am) (contents bm)); auto; [lia|].
      intros w v xs ys Hw Hv HCX HCY. rewrite Forall_forall in W1, W2.
      destruct (W1 w Hw) as (D1 & V1 & G1). destruct (W2 v Hv) as (D2 & V2 & G2). split.
      * apply contents_length in HCX; [|apply V1]. apply contents_length in HCY; [|apply V2]. unfold zlen in *. rewrite D1 in HCX. rewrite D2 in HCY. lia.
      * apply IH; auto; [rewrite D1; cbn in HR; lia|congruence].
Qed.

Lemma v_eq_ok {T U} (eq : T -> U -> outcome bool) am bm a b xs ys :
  valid_view (Z.of_nat (length am)) a -> valid_view (Z.of_nat (length bm)) b -> fits (v_dims a) ->
  contents am a xs -> contents bm b ys ->
  (v_dims a = v_dims b -> v_eq eq am bm a b = list_eq eq xs ys) /\
  (v_dims a <> v_dims b -> v_eq eq am bm a b = Ok false).
Proof.
  intros HA HB HF HX HY. split; intros HD.
  - apply eq_loop_ok; auto.
  - unfold v_eq. assert (E : slice_eqb (v_dims a) (v_dims b) = false).
    { destruct (slice_eqb (v_dims a) (v_dims b)) eqn:E; auto. apply slice_eqb_iff in E. contradiction. }
    destruct (length (v_dims a)); cbn [eq_loop]; now rewrite E.
Qed.

(** ** [contains] *)

Lemma list_any_app {A} (p : A -> outcome bool) a : forall b,
  list_any p (a ++ b) = let* r := list_any p a in if r then Ok true else list_any p b.
Proof.
  induction a as [|x a IH]; intros b; cbn [app list_any bind]; auto.
  destruct (p x) as [[|]| | |]; cbn [bind]; auto.
Qed.

Lemma list_any_concat {A T} (f : A -> outcome bool) (p : T -> outcome bool) (R : A -> list T -> Prop) ws xss :
  Forall2 R ws xss -> (forall w xs, In w ws -> R w xs -> f w = list_any p xs) ->
  list_any f ws = list_any p (concat xss).
Proof.
  induction 1 as [|w xs ws xss HR HRR IH]; intros H; cbn [list_any concat]; auto.
  rewrite list_any_app. rewrite (H w xs) by (auto; now left).
  destruct (list_any p xs) as [[|]| | |]; cbn [bind]; auto. apply IH. intros w' xs' Hw. apply H. now right.
Qed.

Lemma contains_loop_ok {T} (eq : T -> T -> outcome bool) mem value rank : forall v xs,
  valid_view (Z.of_nat (length mem)) v -> (length (v_dims v) <= rank)%nat -> fits (v_dims v) -> contents mem v xs ->
  contains_loop eq mem value rank v = list_any (fun x => eq x value) xs.
Proof.
  assert (G : forall v xs, valid_view (Z.of_nat (length mem)) v -> (length (v_dims v) < 2)%nat -> contents mem v xs ->
    iter_any (fun p => let* x := read mem p in eq x value) (next_fuel (e_view (Z.of_nat (length mem)) true v))
      (it_new (e_view (Z.of_nat (length mem)) true v)) = list_any (fun x => eq x value) xs).
  { intros v xs HV HR HX. destruct (view_yields HV HR) as [Y F].
    erewrite iter_any_list; [|exact Y|rewrite map_length; exact F]. apply contents_read in HX. clear - HX.
    induction HX as [|p x l xs' HP HL IH]; cbn [list_any]; auto. rewrite HP. cbn [bind]. now rewrite IH. }
  induction rank as [|rank IH]; intros v xs HV HR HF HX; cbn [contains_loop].
  all: destruct (is_dense v) eqn:ED.
  1,3: unfold is_dense in ED; destruct (v_layout v) eqn:LV; try discriminate; rewrite (slice_contents HV HF LV HX); reflexivity.
  - replace (length (v_dims v) <? 2)%nat with true by (symmetry; apply Nat.ltb_lt; lia). apply G; auto. lia.
  - destruct (Nat.ltb_spec (length (v_dims v)) 2) as [HR2|HR2]; [now apply G|].
    destruct (v_dims v) as [|d ds] eqn:EV; [cbn in HR2; lia|]. rewrite <- EV in HF.
    destruct (rows HV EV HF) as (e & ws & E1 & Y1 & F1 & C1 & L1 & W1 & _). rewrite E1. cbn [bind].
    destruct (C1 _ mem xs eq_refl HX) as (xss & HXS & <-). erewrite iter_any_list; [|exact Y1|exact F1].
    apply list_any_concat with (R := contents mem); auto. intros w xs Hw HC. rewrite Forall_forall in W1.
    destruct (W1 w Hw) as (D1 & V1 & G1). apply IH; auto. rewrite D1. cbn in HR. lia.
Qed.

(** ** Debug output *)

(** The nested list with the item [get idx] at position [idx]. *)
Fixpoint nested {D} (get : list Z -> outcome D) (dims : list Z) : outcome (debug D) :=
  match dims with
  | [] => let* d := get [] in Ok (DItem d)
  | d :: ds => let* l := mapM (fun k => nested (fun idx => get (k :: idx)) ds) (zrange d) in Ok (DList l)
  end.

Lemma mapM_ext {A D} (f g : A -> outcome D) l : (forall a, In a l -> f a = g a) -> mapM f l = mapM g l.
Proof.
  induction l as [|a l IH]; intros H; cbn [mapM]; auto. rewrite H by now left.
  destruct (g a); cbn [bind]; auto. rewrite IH; auto. intros b Hb. apply H. now right.
Qed.

Lemma mapM_Forall2 {A B D} (f : A -> outcome D) (g : B -> outcome D) (R : A -> B -> Prop) l r :
  Forall2 R l r -> (forall a b, In a l -> R a b -> f a = g b) -> mapM f l = mapM g r.
Proof.
  induction 1 as [|a b l r HR HL IH]; intros H; cbn [mapM]; auto. rewrite (H a b) by (auto; now left).
  destruct (g b); cbn [bind]; auto. rewrite IH; auto. intros a' b' Hb. apply H. now right.
Qed.

Lemma nested_ext {D} dims : forall (f g : list Z -> outcome D),
  (forall idx, in_bounds dims idx -> f idx = g idx) -> nested f dims = nested g dims.
Proof.
  induction dims as [|d ds IH]; intros f g H; cbn [nested].
  - rewrite H; auto. constructor.
  - erewrite mapM_ext; [reflexivity|]. intros k Hk. apply IH. intros idx Hi. apply H. apply in_zrange in Hk.
    constructor; auto.
Qed.

Lemma debug_ok {T D} (fmt : T -> outcome D) mem rank : forall v,
  valid_view (Z.of_nat (length mem)) v -> (length (v_dims v) <= rank)%nat -> fits (v_dims v) ->
  debug_loop fmt mem rank v = nested (fun idx => let* x := v_get mem v idx in fmt x) (v_dims v).
Proof.
  induction rank as [|rank IH]; intros v HV HR HF; cbn [debug_loop].
  all: destruct (v_dims v) as [|d ds] eqn:EV; [|cbn [length Nat.eqb]].
  1,3: cbn [length Nat.eqb nested]; destruct (v_get mem v []) as [x| | |]; cbn [bind]; auto.
  - cbn in HR; lia.
  - rewrite <- EV in HF. destruct (rows HV EV HF) as (e & ws & E1 & Y1 & F1 & _ & L1 & W1 & _ & G1).
    rewrite E1. cbn [bind nested]. erewrite iter_entries_list; [|exact Y1|exact F1].
    erewrite (@mapM_Forall2 view Z _ _ _ _ _ _ G1); [reflexivity|].
    intros w k Hw HG. rewrite Forall_forall in W1. destruct (W1 w Hw) as (D1 & V1 & FW).
    rewrite IH; auto; [|rewrite D1; cbn in HR; lia]. rewrite D1. apply nested_ext. intros idx Hi. cbn beta. now rewrite HG.
Qed.

(** The items of a nested list, from left to right. *)
Fixpoint leaves {D} (t : debug D) : list D :=
  match t with
  | DItem x => [x]
  | DList l => flat_map leaves l
  end.

Lemma nested_leaves {D} dims : forall (f : list Z -> outcome D) t ds,
  Forall2 (fun idx d => f idx = Ok d) (indices dims) ds -> nested f dims = Ok t -> leaves t = ds.
Proof.
  induction dims as [|n dims IH]; intros f t ds H E; cbn [nested indices] in *.
  - inversion H as [|? d ? ? H1 H2]; subst. inversion H2; subst. rewrite H1 in E. cbn [bind] in E. injection E as <-. reflexivity.
  - destruct (mapM _ _) as [l| | |] eqn:EM in E; try discriminate. cbn [bind] in E. injection E as <-. cbn [leaves].
    revert l ds H EM. induction (zrange n) as [|k ks IHk]; intros l ds H EM; cbn [mapM flat_map] in *.
    + injection EM as <-. inversion H. reflexivity.
    + destruct (nested (fun idx => f (k :: idx)) dims) as [t1| | |] eqn:E1; try discriminate. cbn [bind] in EM.
      destruct (mapM _ ks) as [l1| | |] eqn:E2 in EM; try discriminate. cbn [bind] in EM. injection EM as <-.
      apply Forall2_app_inv_l in H. destruct H as (d1 & d2 & H1 & H2 & ->). cbn [flat_map]. f_equal.
      * apply IH with (f := fun idx => f (k :: idx)); auto. clear - H1. remember (map (cons k) (indices dims)) as m eqn:Em.
        revert Em. generalize (indices dims). induction H1; intros [|i li] Em; try discriminate; constructor.
        -- injection Em as -> ->. assumption.
        -- apply IHForall2. now injection Em.
      * apply IHk; auto.
Qed.

Lemma nested_total {D} dims : forall (f : list Z -> outcome D) ds,
  Forall2 (fun idx d => f idx = Ok d) (indices dims) ds -> exists t, nested f dims = Ok t.
Proof.
  induction dims as [|n dims IH]; intros f ds H; cbn [nested indices] in *.
  - inversion H as [|? d ? ? H1 H2]; subst. rewrite H1. cbn [bind]. eauto.
  - assert (G : exists l, mapM (fun k => nested (fun idx => f (k :: idx)) dims) (zrange n) = Ok l).
    { revert ds H. induction (zrange n) as [|k ks IHk]; intros ds H; cbn [mapM flat_map] in *; eauto.
      apply Forall2_app_inv_l in H. destruct H as (d1 & d2 & H1 & H2 & ->).
      destruct (IHk _ H2) as [l ->]. destruct (IH (fun idx => f (k :: idx)) d1) as [t ->]; [|cbn [bind]; eauto].
      clear - H1. remember (map (cons k) (indices dims)) as m eqn:Em.
      revert Em. generalize (indices dims). induction H1; intros [|i li] Em; try discriminate; constructor.
      - injection Em as -> ->. assumption.
      - apply IHForall2. now injection Em. }
    destruct G as [l ->]. cbn [bind]. eauto.
Qed.

(** ** Hashing *)

Lemma hash_ok {T H} (hash : T -> list H) mem v xs :
  valid_view (Z.of_nat (length mem)) v -> view_fine v -> contents mem v xs ->
  v_hash hash mem v = Ok (map HDim (v_dims v) ++ map HElem (flat_map hash xs)).
Proof.
  intros HV HF HX. unfold v_hash. rewrite view_fold by auto. apply contents_read in HX.
  revert HX. generalize (map (v_addr v) (indices (v_dims v))). generalize (map (@HDim H) (v_dims v)). intros out l HX.
  revert out. induction HX as [|p x l xs HP HL IH]; intros out; cbn [foldM flat_map map].
  - now rewrite app_nil_r.
  - rewrite HP. cbn [bind]. rewrite IH. rewrite map_app, app_assoc. reflexivity.
Qed.
