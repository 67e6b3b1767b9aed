(** Writes through views: what they leave in the storage, and programs with such writes. *)
From Verif Require Import Base Spec SpecFacts Shape Mapping Index View Wf MappingFacts MapOps ReshapeFacts.
From Verif Require Import IndexFacts ViewFacts ViewMore Expr ExprSpec ExprFacts IterFacts SourceFacts ExprTree ExprMore.
From Verif Require Import Tensor TraceFacts TensorSpec TensorFacts ResizeFacts TensorOps DrainFacts OwnFacts ZipFacts.
From Verif Require Import OpsFacts History HistoryFacts Program.
Unset Strict Implicit.

(** ** The storage afterwards *)

Fixpoint putting {T : Type} (ps : list Z) (news : list (option T)) (mem : list T) : list T :=
  match ps, news with
  | p :: pt, new :: nt => putting pt nt (match new with Some x => upd mem (Z.to_nat p) x | None => mem end)
  | _, _ => mem
  end.

Lemma putting_length {T} ps (news : list (option T)) mem : length (putting ps news mem) = length mem.
Proof.
  revert news mem. induction ps as [|p ps IH]; intros [|[x|] news] mem; cbn [putting]; auto.
  now rewrite IH, upd_length.
Qed.

Lemma putting_out {T} ps (news : list (option T)) mem a :
  (forall b, In b ps -> Z.to_nat b <> a) -> nth_error (putting ps news mem) a = nth_error mem a.
Proof.
  revert news mem. induction ps as [|b ps IH]; intros [|[x|] news] mem H; cbn [putting]; auto.
  - rewrite IH by (intros; apply H; now right). apply nth_error_upd_other. apply H. now left.
  - apply IH. intros; apply H; now right.
Qed.

Lemma putting_in {T} ps (news : list (option T)) mem k a :
  NoDup (map Z.to_nat ps) -> (forall b, In b ps -> 0 <= b < Z.of_nat (length mem)) ->
  nth_error ps k = Some a ->
  nth_error (putting ps news mem) (Z.to_nat a) =
  match nth_error news k with Some (Some x) => Some x | _ => nth_error mem (Z.to_nat a) end.
Proof.
  revert news mem k. induction ps as [|b ps IH]; intros news mem k ND HR E; [destruct k; discriminate|].
  cbn [map] in ND. apply NoDup_cons_iff in ND as [NI ND].
  destruct news as [|new news]; [destruct k; reflexivity|]. cbn [putting]. destruct k as [|k]; cbn [nth_error] in *.
  - injection E as ->. rewrite putting_out.
    + destruct new as [x|]; auto. apply nth_error_upd_same. pose proof (HR a (or_introl eq_refl)). lia.
    + intros c Hc EE. apply NI. rewrite <- EE. now apply in_map.
  - assert (NE : Z.to_nat b <> Z.to_nat a).
    { intros EE. apply NI. rewrite EE. apply in_map. eapply nth_error_In; eauto. }
    rewrite (IH news _ k ND); auto.
    + destruct new as [x|]; auto. now rewrite nth_error_upd_other.
    + intros c Hc. destruct new as [x|]; rewrite ?upd_length; apply HR; now right.
Qed.

Lemma view_cells_nodup n v : valid_view n v -> NoDup (map Z.to_nat (map (v_addr v) (indices (v_dims v)))).
Proof.
  intros Hv. pose proof (wf_nonneg (vv_wf Hv)) as Hn.
  rewrite map_map. apply NoDup_map_inj; [|now apply indices_NoDup].
  intros x y Hx Hy E. apply in_indices in Hx, Hy.
  pose proof (vv_range Hv Hx). pose proof (vv_range Hv Hy). apply (vv_inj Hv); auto. lia.
Qed.

Lemma putting_rewritten {T} v (news : list (option T)) mem :
  valid_view (Z.of_nat (length mem)) v ->
  rewritten (v_dims v) (v_addr v) news mem (putting (map (v_addr v) (indices (v_dims v))) news mem).
Proof.
  intros Hv. pose proof (wf_nonneg (vv_wf Hv)) as Hn. split; [apply putting_length|]. split.
  - intros idx B. pose proof (flat_bounds B) as FB.
    apply putting_in; [now apply view_cells_nodup in Hv| |].
    + intros b Hb. apply in_map_iff in Hb as (j & <- & Hj). apply in_indices in Hj. now apply (vv_range Hv).
    + rewrite nth_error_map. rewrite (nth_error_nth' _ []) by (rewrite indices_length by auto; lia).
      rewrite indices_nth by (auto; lia). rewrite Z2Nat.id by lia. rewrite unflat_flat by auto. reflexivity.
  - intros a Ha. apply putting_out. intros b Hb. apply in_map_iff in Hb as (j & <- & Hj).
    apply in_indices in Hj. now apply Ha.
Qed.

(** Elements that were replaced went out, the new ones came in. *)
Lemma upd_perm {T} (mem : list T) i x y : nth_error mem i = Some x -> Permutation (mem ++ [y]) (upd mem i y ++ [x]).
Proof.
  revert i. induction mem as [|z mem IH]; intros [|i] E; cbn in *; try discriminate.
  - injection E as ->. change (x :: mem ++ [y]) with ([x] ++ mem ++ [y]). change (y :: mem ++ [x]) with ([y] ++ mem ++ [x]). perm.
  - constructor. now apply IH.
Qed.

Lemma putting_perm {T} ps (news : list (option T)) xs mem :
  Forall2 (fun p x => read mem p = Ok x) ps xs -> NoDup (map Z.to_nat ps) ->
  Permutation (mem ++ somes news) (putting ps news mem ++ replaced xs news) \/ (length ps < length news)%nat.
Proof.
  revert news xs mem. induction ps as [|p ps IH]; intros news xs mem HF ND.
  - destruct news as [|new news]; [left|right; cbn; lia]. inversion HF. cbn. now rewrite app_nil_r.
  - inversion HF as [|? x ? xt Hx HT]; subst. cbn [map] in ND. apply NoDup_cons_iff in ND as [NI ND].
    destruct news as [|new news]; [left; cbn; now rewrite app_nil_r|]. cbn [putting].
    assert (EX : nth_error mem (Z.to_nat p) = Some x).
    { unfold read in Hx. destruct (p <? 0); [discriminate|]. destruct (nth_error mem (Z.to_nat p)); congruence. }
    destruct new as [y|].
    + assert (HT' : Forall2 (fun p x => read (upd mem (Z.to_nat p) y) p = Ok x \/ True) ps xt).
      { clear -HT. induction HT; constructor; auto. }
      assert (HT2 : Forall2 (fun q x => read (upd mem (Z.to_nat p) y) q = Ok x) ps xt).
      { clear HT' IH HF Hx EX. induction HT as [|q z ps xt Hq HT IH]; constructor.
        - unfold read in *. destruct (q <? 0); auto. rewrite nth_error_upd_other; auto.
          intros EE. apply NI. left. auto.
        - apply IH; [|now apply NoDup_cons_iff in ND]. intros H. apply NI. now right. }
      destruct (IH news xt _ HT2 ND) as [P|P]; [left|right; cbn; lia].
      change (somes (Some y :: news)) with ([y] ++ somes news).
      change (replaced (x :: xt) (Some y :: news)) with ([x] ++ replaced xt news).
      rewrite app_assoc, (upd_perm y EX), <- app_assoc.
      transitivity ([x] ++ (upd mem (Z.to_nat p) y ++ somes news)); [perm|]. rewrite P. perm.
    + destruct (IH news xt _ HT ND) as [P|P]; [left|right; cbn; lia]. exact P.
Qed.

Lemma edited_length {T C} (l : list (T * (T -> C -> edit T C))) c :
  (length (fst (fst (edited l c))) <= length l)%nat /\
  (snd (edited l c) = true -> length (fst (fst (edited l c))) = length l).
Proof.
  revert c. induction l as [|[x h] l IH]; intros c; cbn [edited]; [cbn; auto|].
  destruct (h x c) as [new c1 b]. destruct b; [|cbn; split; [lia|discriminate]].
  specialize (IH c1). destruct (edited l c1) as [[news c2] b2]. cbn in *. split; [lia|]. intros H. f_equal. now apply IH.
Qed.

Lemma putting_nil {T} (ps : list Z) (mem : list T) : putting ps [] mem = mem.
Proof. now destruct ps. Qed.

Definition edit_world {T C} (c : C) (news : list (option T)) (xs : list T) (w : world T C) : world T C :=
  mkWorld c (w_made w ++ somes news) (w_used w) (w_dropped w ++ replaced xs news).

Lemma put_all_eq {T Y C} (h : T -> Y -> C -> edit T C) ps ys xs mem (w : world T C) :
  Forall2 (fun p x => read mem p = Ok x) ps xs -> NoDup (map Z.to_nat ps) ->
  put_all h (combine ps ys) (mem, w) =
  let '(news, c, b) := edited (combine xs (map (fun y x => h x y) ys)) (w_clo w) in
  finish b tt (putting ps news mem, edit_world c news xs w).
Proof.
  revert ys xs mem w. induction ps as [|p ps IH]; intros ys xs mem w HF ND.
  - inversion HF; subst. cbn. unfold ret, edit_world. cbn. rewrite !app_nil_r. now destruct w.
  - inversion HF as [|? x ? xt Hx HT]; subst. cbn [map] in ND. apply NoDup_cons_iff in ND as [NI ND].
    destruct ys as [|y ys].
    { cbn. unfold ret, edit_world. cbn. rewrite !app_nil_r. now destruct w. }
    cbn [combine map put_all edited]. unfold seqM, put_at. cbn [fst snd]. rewrite Hx.
    destruct (h x y (w_clo w)) as [new c1 b1]. destruct b1.
    + destruct new as [z|].
      * assert (HT2 : Forall2 (fun q x => read (upd mem (Z.to_nat p) z) q = Ok x) ps xt).
        { clear IH HF Hx. induction HT as [|q u ps xt Hq HT IH]; constructor.
          - unfold read in *. destruct (q <? 0); auto. rewrite nth_error_upd_other; auto.
            intros EE. apply NI. left. auto.
          - apply IH; [|now apply NoDup_cons_iff in ND]. intros H. apply NI. now right. }
        rewrite (IH ys xt _ _ HT2 ND). cbn [w_clo w_drop w_make].
        destruct (edited (combine xt (map (fun y x => h x y) ys)) c1) as [[news c2] b2]. cbn [putting].
        f_equal. f_equal. unfold edit_world, w_drop, w_make, somes, replaced. cbn. now rewrite <- !app_assoc.
      * rewrite (IH ys xt _ _ HT ND). cbn [w_clo w_set].
        destruct (edited (combine xt (map (fun y x => h x y) ys)) c1) as [[news c2] b2]. cbn [putting].
        f_equal.
    + destruct new as [z|]; cbn [finish putting]; rewrite putting_nil; unfold edit_world, w_drop, w_make, w_set, somes, replaced; cbn; rewrite combine_nil; cbn; now rewrite ?app_nil_r.
Qed.

(** ** Visiting the items of a view *)

Definition edited_tensor {T} (t : tensor T) (mem : list T) : tensor T := mkTensor (tn_ty t) (tn_dims t) mem (tn_cap t).

Lemma edited_tensor_ok {T} (t : tensor T) mem : tensor_ok t -> length mem = length (tn_mem t) -> tensor_ok (edited_tensor t mem).
Proof.
  intros Ht HL. destruct Ht. constructor; cbn; auto; unfold zlen in *; rewrite HL; auto.
Qed.

Lemma chain_view {T} (t : tensor T) ops v :
  tensor_ok t -> view_arg t ops -> v_run (whole (tn_ty t) (tn_dims t)) ops = Ok v ->
  valid_view (zlen (tn_mem t)) v.
Proof.
  intros Ht (HD & HM & HA) E.
  assert (CI : chain_inv (zlen (tn_mem t)) (whole (tn_ty t) (tn_dims t)) (whole (tn_ty t) (tn_dims t))).
  { constructor; auto.
    - now apply tensor_view.
    - exists (fun idx => idx). intros idx HI. auto. }
  assert (Hn : 0 <= zlen (tn_mem t) <= usize_max) by (unfold zlen in *; lia).
  apply (ci_valid (v_run_inv Hn CI HA E)).
Qed.

Lemma chain_cases {T} (t : tensor T) ops :
  tensor_ok t -> view_arg t ops ->
  v_run (whole (tn_ty t) (tn_dims t)) ops = Panic \/
  exists v, v_run (whole (tn_ty t) (tn_dims t)) ops = Ok v /\ valid_view (zlen (tn_mem t)) v.
Proof.
  intros Ht HA. pose proof (fine_run (whole (tn_ty t) (tn_dims t)) ops) as F.
  destruct (v_run (whole (tn_ty t) (tn_dims t)) ops) as [v| | |] eqn:E; try contradiction; auto.
  right. exists v. split; auto. eapply chain_view; eauto.
Qed.

(** Going through the items of a view with what comes with them, [o] being the end of it. *)
Lemma visit_eq {T Y C} (h : T -> Y -> C -> edit T C) (t : tensor T) (w : world T C) v xs ys o :
  valid_view (zlen (tn_mem t)) v -> contents (tn_mem t) v xs -> (o = Ok tt \/ o = Panic) ->
  on_items (put_all h (combine (map (v_addr v) (indices (v_dims v))) ys) ;;; lift o) (t, w) =
  let '(news, c, b) := edited (combine xs (map (fun y x => h x y) ys)) (w_clo w) in
  finish (b && match o with Ok _ => true | _ => false end) tt
    (edited_tensor t (putting (map (v_addr v) (indices (v_dims v))) news (tn_mem t)), edit_world c news xs w).
Proof.
  intros Hv HC HO. unfold on_items, seqM. cbn [fst snd].
  rewrite (put_all_eq h ys w (contents_read HC) (view_cells_nodup Hv)).
  destruct (edited (combine xs (map (fun y x => h x y) ys)) (w_clo w)) as [[news c] b].
  destruct b; cbn [finish andb]; auto. destruct HO as [->| ->]; reflexivity.
Qed.

Lemma view_trace n v : valid_view n v -> view_fine v ->
  e_trace (e_view n false v) = (map (v_addr v) (indices (v_dims v)), Ok tt).
Proof.
  intros Hv HF. rewrite (tree_trace (view_built false Hv) (view_tree_fine n false (vv_wf Hv) HF)).
  cbn [t_act t_dims t_init].
  assert (G : forall l, produce (pure_action (v_addr v)) l tt = (map (v_addr v) l, Ok tt)).
  { induction l as [|i l IH]; cbn [produce map]; auto. unfold pure_action at 1. now rewrite IH. }
  rewrite G. reflexivity.
Qed.

Lemma combine_unit {A} (l : list A) : map (fun p => (p, tt)) l = combine l (repeat tt (length l)).
Proof. induction l; cbn; congruence. Qed.

Lemma map_repeat {A B} (f : A -> B) x n : map f (repeat x n) = repeat (f x) n.
Proof. induction n; cbn; congruence. Qed.

Lemma combine_repeat {A B} (l : list A) (b : B) n : length l = n -> combine l (repeat b n) = map (fun a => (a, b)) l.
Proof. intros <-. induction l; cbn; congruence. Qed.

Lemma edit_eq {T C} (h : T -> C -> edit T C) (t : tensor T) (w : world T C) ops v xs :
  v_run (whole (tn_ty t) (tn_dims t)) ops = Ok v ->
  valid_view (zlen (tn_mem t)) v -> view_fine v -> contents (tn_mem t) v xs ->
  tn_edit ops h (t, w) =
  let '(news, c, b) := edited (map (fun x => (x, h)) xs) (w_clo w) in
  finish b tt (edited_tensor t (putting (map (v_addr v) (indices (v_dims v))) news (tn_mem t)), edit_world c news xs w).
Proof.
  intros E Hv HF HC. unfold tn_edit. cbn [fst snd]. rewrite E, (view_trace Hv HF).
  rewrite combine_unit, map_length.
  rewrite (visit_eq _ w _ Hv HC (or_introl eq_refl)).
  rewrite map_repeat.
  assert (EL : length xs = length (indices (v_dims v))) by (symmetry; apply (Forall2_len HC)).
  rewrite combine_repeat by auto.
  destruct (edited (map (fun x => (x, fun x => h x)) xs) (w_clo w)) as [[news c] b]. now rewrite andb_true_r.
Qed.

Lemma edit_zip_eq {T Y C} (h : T -> Y -> C -> edit T C) (e : expression Y) (t : tensor T) (w : world T C) ops v xs z ys o :
  v_run (whole (tn_ty t) (tn_dims t)) ops = Ok v ->
  valid_view (zlen (tn_mem t)) v -> contents (tn_mem t) v xs ->
  e_zip (e_view (zlen (tn_mem t)) false v) e = Ok z ->
  e_trace z = (combine (map (v_addr v) (indices (v_dims v))) ys, o) -> (o = Ok tt \/ o = Panic) ->
  tn_edit_zip ops e h (t, w) =
  let '(news, c, b) := edited (combine xs (map (fun y x => h x y) ys)) (w_clo w) in
  finish (b && match o with Ok _ => true | _ => false end) tt
    (edited_tensor t (putting (map (v_addr v) (indices (v_dims v))) news (tn_mem t)), edit_world c news xs w).
Proof.
  intros E Hv HC EZ ET HO. unfold tn_edit_zip, tn_visit. cbn [fst snd]. rewrite E. cbn [bind]. rewrite EZ, ET.
  now apply visit_eq.
Qed.

(** ** Trees as operands *)

Lemma view_with_tree {Y} n v (tr : tree Y) e :
  valid_view n v -> t_leaves tr -> t_build tr = Ok e ->
  (~ operand_fits (v_dims v) tr /\ e_zip (e_view n false v) e = Panic) \/
  (operand_fits (v_dims v) tr /\
   exists z, e_zip (e_view n false v) e = Ok z /\
    (t_fine (with_target n v tr) ->
     let (ys, o) := produce (bcast (length (t_dims tr)) (t_act tr)) (indices (v_dims v)) (t_init tr) in
     e_trace z = (combine (map (v_addr v) (indices (v_dims v))) ys, done o))).
Proof.
  intros Hv HL HB. pose proof (build_built HL HB) as B.
  destruct (@zip_cases _ _ (e_view n false v) e (wf_typed (vv_wf Hv)) (bu_ty B)) as [[HZ EZ]|[HZ EZ]].
  2:{ left. split; auto. intros H. apply HZ. now apply (@operand_zippable _ _ (e_view n false v) tr e B eq_refl). }
  right. apply (@operand_zippable _ _ (e_view n false v) tr e B eq_refl) in HZ. change (e_dims (e_view n false v)) with (v_dims v) in HZ.
  split; auto. eexists. split; [exact EZ|]. intros HF.
  assert (EB : t_build (with_target n v tr) = Ok (zip_expr (e_view n false v) e (longer (e_dims (e_view n false v)) (e_dims e)))).
  { unfold with_target. cbn [t_build bind]. rewrite HB. exact EZ. }
  assert (HLZ : t_leaves (with_target n v tr)) by (split; auto).
  rewrite (tree_trace (build_built HLZ EB) HF).
  cbn [with_target t_act t_init t_dims].
  assert (ED : longer (v_dims v) (t_dims tr) = v_dims v).
  { unfold longer. destruct HZ as (_ & H & _).
    destruct (Nat.ltb_spec (length (v_dims v)) (length (t_dims tr))); [lia|reflexivity]. }
  rewrite ED.
  pose proof (@produce_zip_pure _ _ _ (length (v_dims v)) (length (t_dims tr)) (v_addr v) (t_act tr) (indices (v_dims v)) (t_init tr)) as P.
  destruct (produce (bcast _ _) _ _) as [ys o].
  match goal with |- (let (_, _) := ?X in _) = _ => change X with (produce (zip_action (length (v_dims v)) (length (t_dims tr)) (pure_action (v_addr v)) (t_act tr)) (indices (v_dims v)) (tt, t_init tr)) end.
  rewrite P.
  f_equal; [|destruct o; reflexivity]. f_equal.
  apply map_ext_in. intros idx Hi. apply in_indices in Hi. now rewrite lastn_bounds by auto.
Qed.

Lemma tree_vzips {Y} n v (tr : tree Y) e :
  valid_view n v -> t_leaves tr -> t_build tr = Ok e -> t_safe tr ->
  (operand_fits (v_dims v) tr -> t_fine (with_target n v tr)) ->
  vzips n v e.
Proof.
  intros Hv HL HB HS HF. destruct (view_with_tree Hv HL HB) as [[_ E]|[HO (z & E & HT)]]; [now apply vzips_refused|].
  specialize (HT (HF HO)). pose proof (bcast_proper (t_init tr) (wf_nonneg (vv_wf Hv)) HO HS) as HP.
  pose proof (@produce_length _ _ (bcast (length (t_dims tr)) (t_act tr)) (indices (v_dims v)) (t_init tr)) as [P1 P2].
  destruct (produce _ _ _) as [ys o]. cbn [fst snd] in *.
  apply (@vzips_items _ n v e z ys _ E HT).
  - lia.
  - destruct o as [s| | |]; try contradiction; [left|right; reflexivity]. split; [reflexivity|]. apply (P2 s eq_refl).
Qed.

(** ** The tensor stays consistent *)

Lemma edited_post {T C} (t : tensor T) (w : world T C) v xs (l : list (T * (T -> C -> edit T C))) b' S0 R :
  tensor_ok t -> valid_view (zlen (tn_mem t)) v -> contents (tn_mem t) v xs -> (length l <= length xs)%nat ->
  balanced S0 (R ++ tn_mem t) w ->
  tpost (tn_ty t) S0 R
    (let '(news, c, b) := edited l (w_clo w) in
     finish (b && b') tt (edited_tensor t (putting (map (v_addr v) (indices (v_dims v))) news (tn_mem t)), edit_world c news xs w)).
Proof.
  intros Ht Hv HC HL HB. pose proof (edited_length l (w_clo w)) as [EL _].
  destruct (edited l (w_clo w)) as [[news c] b]. cbn [fst] in EL.
  assert (K : tensor_ok (edited_tensor t (putting (map (v_addr v) (indices (v_dims v))) news (tn_mem t))) /\
              tn_ty (edited_tensor t (putting (map (v_addr v) (indices (v_dims v))) news (tn_mem t))) = tn_ty t /\
              balanced S0 (R ++ tn_mem (edited_tensor t (putting (map (v_addr v) (indices (v_dims v))) news (tn_mem t)))) (edit_world c news xs w)).
  { split; [apply edited_tensor_ok; auto; apply putting_length|]. split; [reflexivity|].
    cbn [edited_tensor tn_mem]. unfold balanced, edit_world in *. cbn [w_made w_used w_dropped].
    destruct (putting_perm news (contents_read HC) (view_cells_nodup Hv)) as [P|P].
    - rewrite app_assoc, HB. transitivity (R ++ (tn_mem t ++ somes news) ++ w_used w ++ w_dropped w); [perm|]. rewrite P. perm.
    - exfalso. pose proof (Forall2_len HC). rewrite map_length in P. lia. }
  destruct (b && b'); cbn [finish tpost]; exact K.
Qed.

Lemma edit_post {T C} ops (h : T -> C -> edit T C) (t : tensor T) w S0 R :
  tensor_ok t -> view_arg t ops -> (forall v, v_run (whole (tn_ty t) (tn_dims t)) ops = Ok v -> view_fine v) ->
  balanced S0 (R ++ tn_mem t) w -> tpost (tn_ty t) S0 R (tn_edit ops h (t, w)).
Proof.
  intros Ht HA HF HB. destruct (chain_cases Ht HA) as [E|(v & E & Hv)].
  - unfold tn_edit. cbn [fst]. rewrite E. cbn [tpost]. auto.
  - destruct (contents_exist Hv) as [xs HC]. rewrite (edit_eq h w E Hv (HF v E) HC).
    pose proof (@edited_post T C t w v xs (map (fun x => (x, h)) xs) true S0 R Ht Hv HC) as P. rewrite map_length in P.
    specialize (P (le_n _) HB). destruct (edited _ _) as [[news c] b]. now rewrite andb_true_r in P.
Qed.

Lemma edit_zip_post {T Y C} ops (e : expression Y) (h : T -> Y -> C -> edit T C) (t : tensor T) w S0 R :
  tensor_ok t -> view_arg t ops -> (forall v, v_run (whole (tn_ty t) (tn_dims t)) ops = Ok v -> vzips (zlen (tn_mem t)) v e) ->
  balanced S0 (R ++ tn_mem t) w -> tpost (tn_ty t) S0 R (tn_edit_zip ops e h (t, w)).
Proof.
  intros Ht HA HF HB. destruct (chain_cases Ht HA) as [E|(v & E & Hv)].
  - unfold tn_edit_zip, tn_visit. cbn [fst]. rewrite E. cbn [bind tpost]. auto.
  - destruct (contents_exist Hv) as [xs HC]. destruct (HF v E) as [EZ|z ys o EZ ET HL HO].
    + unfold tn_edit_zip, tn_visit. cbn [fst]. rewrite E. cbn [bind]. rewrite EZ. cbn [tpost]. auto.
    + rewrite (edit_zip_eq h w E Hv HC EZ ET) by (destruct HO as [[-> _]| ->]; auto).
      apply edited_post; auto. rewrite combine_length, map_length. pose proof (Forall2_len HC). lia.
Qed.

(** One cell. *)
Lemma put_one_eq {T C} (h : T -> C -> edit T C) (t : tensor T) (w : world T C) p x :
  read (tn_mem t) p = Ok x ->
  on_items (put_at p h) (t, w) =
  let '(Edit new c b) := h x (w_clo w) in
  finish b tt (edited_tensor t (putting [p] [new] (tn_mem t)), edit_world c [new] [x] w).
Proof.
  intros HR. unfold on_items, put_at. cbn [fst snd]. rewrite HR. destruct (h x (w_clo w)) as [new c b].
  destruct new as [y|]; destruct b; cbn [finish fst snd putting]; unfold edit_world, w_drop, w_make, w_set, somes, replaced; cbn; now rewrite ?app_nil_r.
Qed.

Lemma put_one_post {T C} (h : T -> C -> edit T C) (t : tensor T) (w : world T C) p x S0 R :
  tensor_ok t -> read (tn_mem t) p = Ok x -> balanced S0 (R ++ tn_mem t) w ->
  tpost (tn_ty t) S0 R (on_items (put_at p h) (t, w)).
Proof.
  intros Ht HR HB. rewrite (put_one_eq h w HR). destruct (h x (w_clo w)) as [new c b].
  assert (K : tensor_ok (edited_tensor t (putting [p] [new] (tn_mem t))) /\
              tn_ty (edited_tensor t (putting [p] [new] (tn_mem t))) = tn_ty t /\
              balanced S0 (R ++ tn_mem (edited_tensor t (putting [p] [new] (tn_mem t)))) (edit_world c [new] [x] w)).
  { split; [apply edited_tensor_ok; auto; apply putting_length|]. split; [reflexivity|].
    cbn [edited_tensor tn_mem]. unfold balanced, edit_world in *. cbn [w_made w_used w_dropped].
    destruct (@putting_perm T [p] [new] [x] (tn_mem t)) as [P|P].
    - constructor; auto.
    - cbn. constructor; [auto|constructor].
    - rewrite app_assoc, HB. transitivity (R ++ (tn_mem t ++ somes [new]) ++ w_used w ++ w_dropped w); [perm|]. rewrite P. perm.
    - cbn in P. lia. }
  destruct b; cbn [finish tpost]; exact K.
Qed.

Lemma edit_at_post {T C} ops idx (h : T -> C -> edit T C) (t : tensor T) w S0 R :
  tensor_ok t -> view_arg t ops -> nonneg idx ->
  balanced S0 (R ++ tn_mem t) w -> tpost (tn_ty t) S0 R (tn_edit_at ops idx h (t, w)).
Proof.
  intros Ht HA Hi HB. unfold tn_edit_at. cbn [fst]. destruct (chain_cases Ht HA) as [E|(v & E & Hv)]; rewrite E; cbn [bind].
  - cbn [tpost]. auto.
  - assert (D : in_bounds (v_dims v) idx \/ ~ in_bounds (v_dims v) idx).
    { destruct (inside (v_dims v) idx) eqn:EI; [left; now apply inside_spec|right; intros H; apply inside_spec in H; congruence]. }
    destruct D as [B|B].
    + rewrite slice_index_multi_in by exact B. cbn [bind].
      destruct (proj1 (checked_get (mem := tn_mem t) Hv) idx B) as [x Ex]. rewrite v_get_in in Ex by exact B.
      now apply (put_one_post h (x := x)).
    + rewrite slice_index_multi_out by auto. cbn [bind tpost]. auto.
Qed.

Lemma linear_addr v k : wf_map (v_map v) -> 0 <= k ->
  (let* off := slice_index_linear (v_map v) k in Ok (v_ptr v + off)) =
  if k <? prodZ (v_dims v) then Ok (v_addr v (unflat (v_dims v) k)) else Panic.
Proof.
  intros Hw Hk. unfold slice_index_linear, m_len. rewrite sh_len_prod.
  destruct (Z.ltb_spec k (prodZ (v_dims v))) as [H|H]; unfold v_dims, v_addr in *.
  - rewrite assert_true by lia. cbn [bind]. rewrite m_linear_offset_spec; auto. unfold m_len. rewrite sh_len_prod. lia.
  - rewrite assert_false by lia. reflexivity.
Qed.

Lemma edit_linear_post {T C} ops k (h : T -> C -> edit T C) (t : tensor T) w S0 R :
  tensor_ok t -> view_arg t ops -> 0 <= k ->
  balanced S0 (R ++ tn_mem t) w -> tpost (tn_ty t) S0 R (tn_edit_linear ops k h (t, w)).
Proof.
  intros Ht HA Hk HB. unfold tn_edit_linear. cbn [fst]. destruct (chain_cases Ht HA) as [E|(v & E & Hv)]; rewrite E; cbn [bind].
  - cbn [tpost]. auto.
  - rewrite (linear_addr (vv_wf Hv) Hk). destruct (Z.ltb_spec k (prodZ (v_dims v))) as [L|L]; [|cbn [tpost]; auto].
    assert (B : in_bounds (v_dims v) (unflat (v_dims v) k)) by (apply unflat_in_bounds; [apply (wf_nonneg (vv_wf Hv))|lia]).
    destruct (proj1 (checked_get (mem := tn_mem t) Hv) _ B) as [x Ex]. rewrite v_get_in in Ex by exact B.
    now apply (put_one_post h (x := x)).
Qed.

Lemma fill_post {T C} ops value (cl : T -> T -> C -> edit T C) (t : tensor T) w S0 R :
  tensor_ok t -> view_arg t ops -> (forall v, v_run (whole (tn_ty t) (tn_dims t)) ops = Ok v -> view_fine v) ->
  balanced S0 (R ++ tn_mem t) w -> tpost (tn_ty t) S0 R (tn_fill ops value cl (t, w)).
Proof.
  intros Ht HA HF HB. unfold tn_fill. cbn [fst snd].
  set (w0 := mkWorld (w_clo w) (w_made w ++ [value]) (w_used w) (w_dropped w)).
  assert (HB0 : balanced S0 ((R ++ [value]) ++ tn_mem t) w0).
  { unfold balanced in *. unfold w0. cbn [w_made w_used w_dropped]. rewrite app_assoc, HB. perm. }
  pose proof (edit_post (cl value) Ht HA HF HB0) as H.
  destruct (tn_edit ops (cl value) (t, w0)) as [a [t' w']|[t' w']| |]; cbn [tpost] in *; auto.
  - destruct H as (H1 & H2 & H3). split; auto. split; auto. eapply balanced_drop; [exact H3|]. perm.
  - destruct H as (H1 & H2 & H3). split; auto. split; auto. eapply balanced_drop; [exact H3|]. perm.
Qed.

(** ** The two halves of a split *)

Lemma v_run_app v a b : v_run v (a ++ b) = let* v' := v_run v a in v_run v' b.
Proof. revert v. induction a as [|o a IH]; intros v; cbn [app v_run bind]; auto. destruct (v_step v o); cbn [bind]; auto. Qed.

Lemma run_args_app v a b v' : run_args v (a ++ b) -> v_run v a = Ok v' -> run_args v a /\ run_args v' b.
Proof.
  revert v. induction a as [|o a IH]; intros v H E; cbn [app run_args v_run] in *.
  - injection E as ->. auto.
  - destruct H as [H1 H2]. destruct (v_step v o) as [v1| | |]; try discriminate. cbn [bind] in E.
    destruct (IH v1 (H2 v1 eq_refl) E) as [K1 K2]. split; auto. split; auto. intros v2 [= <-]. auto.
Qed.

Lemma halves_views {T} (t : tensor T) ops a mid ops1 ops2 v u1 u2 v1 v2 :
  tensor_ok t -> view_arg t (ops ++ OpSplitFst a mid :: ops1) -> view_arg t (ops ++ OpSplitSnd a mid :: ops2) ->
  v_run (whole (tn_ty t) (tn_dims t)) ops = Ok v -> v_split_axis_at v a mid = Ok (u1, u2) ->
  v_run u1 ops1 = Ok v1 -> v_run u2 ops2 = Ok v2 ->
  valid_view (zlen (tn_mem t)) v1 /\ valid_view (zlen (tn_mem t)) v2 /\
  (forall i1 i2, in_bounds (v_dims v1) i1 -> in_bounds (v_dims v2) i2 -> v_addr v1 i1 <> v_addr v2 i2).
Proof.
  intros Ht HA1 HA2 E ES E1 E2.
  assert (R1 : v_run (whole (tn_ty t) (tn_dims t)) (ops ++ OpSplitFst a mid :: ops1) = Ok v1).
  { rewrite v_run_app, E. cbn [bind v_run v_step]. rewrite ES. exact E1. }
  assert (R2 : v_run (whole (tn_ty t) (tn_dims t)) (ops ++ OpSplitSnd a mid :: ops2) = Ok v2).
  { rewrite v_run_app, E. cbn [bind v_run v_step]. rewrite ES. exact E2. }
  split; [exact (chain_view Ht HA1 R1)|]. split; [exact (chain_view Ht HA2 R2)|].
  destruct HA1 as (HD & HM & HR1). destruct HA2 as (_ & _ & HR2).
  assert (CI : chain_inv (zlen (tn_mem t)) (whole (tn_ty t) (tn_dims t)) (whole (tn_ty t) (tn_dims t))).
  { constructor; auto.
    - now apply tensor_view.
    - exists (fun idx => idx). intros idx HI. auto. }
  assert (Hn : 0 <= zlen (tn_mem t) <= usize_max) by (unfold zlen in *; lia).
  destruct (run_args_app HR1 E) as [HR [HP1 HQ1]]. destruct (run_args_app HR2 E) as [_ [HP2 HQ2]].
  pose proof (v_run_inv Hn CI HR E) as CV.
  assert (CVV : chain_inv (zlen (tn_mem t)) v v).
  { constructor; try apply CV. exists (fun idx => idx). intros idx HI. auto. }
  assert (S1 : v_step v (OpSplitFst a mid) = Ok u1) by (cbn [v_step]; rewrite ES; reflexivity).
  assert (S2 : v_step v (OpSplitSnd a mid) = Ok u2) by (cbn [v_step]; rewrite ES; reflexivity).
  assert (C1 : chain_inv (zlen (tn_mem t)) u1 u1).
  { constructor; try apply (v_step_inv Hn CVV HP1 S1). exists (fun idx => idx). intros idx HI. auto. }
  assert (C2 : chain_inv (zlen (tn_mem t)) u2 u2).
  { constructor; try apply (v_step_inv Hn CVV HP2 S2). exists (fun idx => idx). intros idx HI. auto. }
  destruct (ci_shows (v_run_inv Hn C1 (HQ1 _ S1) E1)) as [f1 F1].
  destruct (ci_shows (v_run_inv Hn C2 (HQ2 _ S2) E2)) as [f2 F2].
  assert (EI : exists i, is_axis a (length (v_dims v)) i).
  { unfold v_split_axis_at in ES. unfold m_rank in ES. destruct (ax_index a (length (m_dims (v_map v)))) as [i| | |] eqn:EA; try discriminate.
    exists i. now apply ax_index_inv. }
  destruct EI as [i HI]. assert (Hm : 0 <= mid) by (cbn [op_arg] in HP1; unfold usize in HP1; lia).
  destruct (split_partition (ci_valid CV) HI Hm ES) as [_ HDis].
  intros i1 i2 B1 B2. destruct (F1 i1 B1) as [B1' ->]. destruct (F2 i2 B2) as [B2' ->]. now apply HDis.
Qed.

Lemma put_from_eq {T C} (h : T -> T -> C -> edit T C) ps qs ys mem (w : world T C) :
  Forall2 (fun q y => read mem q = Ok y) qs ys -> (forall p, In p ps -> 0 <= p) ->
  (forall p q, In p ps -> In q qs -> p <> q) ->
  put_from h (combine ps qs) (mem, w) = put_all h (combine ps ys) (mem, w).
Proof.
  revert qs ys mem w. induction ps as [|p ps IH]; intros qs ys mem w HF HP HD; [reflexivity|].
  destruct HF as [|q y qs ys Hq HF]; [reflexivity|]. cbn [combine put_from put_all]. unfold seqM. cbn [fst]. rewrite Hq.
  assert (G : forall s', (fst s' = mem \/ exists x, fst s' = upd mem (Z.to_nat p) x) ->
    put_from h (combine ps qs) s' = put_all h (combine ps ys) s').
  { intros [m w'] HM. cbn [fst] in HM. destruct HM as [->|[x ->]]; apply IH; auto.
    - intros; apply HP; now right.
    - intros p' q' H1 H2. apply HD; now right.
    - assert (HDp : forall q', In q' qs -> p <> q') by (intros q' H; apply HD; [now left|now right]).
      assert (P0 : 0 <= p) by (apply HP; now left). clear -HF HDp P0.
      induction HF as [|q y qs ys Hq HF IH]; constructor.
      + unfold read in *. destruct (Z.ltb_spec q 0); auto. rewrite nth_error_upd_other; auto.
        intros EE. apply (HDp q); [now left|lia].
      + apply IH. intros q' H. apply HDp. now right.
    - intros; apply HP; now right.
    - intros p' q' H1 H2. apply HD; now right. }
  unfold put_at. cbn [fst snd]. destruct (read mem p) as [x| | |]; auto.
  destruct (h x y (w_clo w)) as [new c b]. destruct b; auto. destruct new as [z|]; apply G; cbn; eauto.
Qed.

Lemma halves_eq {T C} (h : T -> T -> C -> edit T C) (t : tensor T) (w : world T C) ops a mid ops1 ops2 v u1 u2 v1 v2 xs :
  tensor_ok t -> view_arg t (ops ++ OpSplitFst a mid :: ops1) -> view_arg t (ops ++ OpSplitSnd a mid :: ops2) ->
  v_run (whole (tn_ty t) (tn_dims t)) ops = Ok v -> v_split_axis_at v a mid = Ok (u1, u2) ->
  v_run u1 ops1 = Ok v1 -> v_run u2 ops2 = Ok v2 ->
  positive (v_dims v1) -> contents (tn_mem t) v1 xs ->
  (~ operand_fits (v_dims v1) (TView (zlen (tn_mem t)) true v2) /\
   tn_edit_halves ops a mid ops1 ops2 h (t, w) = Unwound (t, w)) \/
  (operand_fits (v_dims v1) (TView (zlen (tn_mem t)) true v2) /\
   exists ys,
     Forall2 (fun idx y => v_get (tn_mem t) v2 (lastn (length (v_dims v2)) idx) = Ok y) (indices (v_dims v1)) ys /\
     tn_edit_halves ops a mid ops1 ops2 h (t, w) =
     let '(news, c, b) := edited (combine xs (map (fun y x => h x y) ys)) (w_clo w) in
     finish b tt (edited_tensor t (putting (map (v_addr v1) (indices (v_dims v1))) news (tn_mem t)), edit_world c news xs w)).
Proof.
  intros Ht HA1 HA2 E ES E1 E2 HP HC.
  destruct (halves_views Ht HA1 HA2 E ES E1 E2) as (Hv1 & Hv2 & HD).
  set (n := zlen (tn_mem t)) in *.
  destruct (@view_with_tree _ n v1 (TView n true v2) (e_view n true v2) Hv1 Hv2 eq_refl) as [[HO EZ]|[HO (z & EZ & HT)]];
    unfold tn_edit_halves; cbn [fst]; fold n; rewrite E; cbn [bind]; rewrite ES; cbn [bind]; rewrite E1; cbn [bind]; rewrite E2; cbn [bind]; rewrite EZ; [left|right]; split; auto.
  assert (ED : longer (v_dims v1) (v_dims v2) = v_dims v1).
  { unfold longer. destruct HO as (_ & H & _). cbn [t_dims] in H.
    destruct (Nat.ltb_spec (length (v_dims v1)) (length (v_dims v2))); [lia|reflexivity]. }
  assert (HF : t_fine (with_target n v1 (TView n true v2))).
  { apply nonempty_fine; [|reflexivity]. unfold with_target. cbn [t_dims]. now rewrite ED. }
  specialize (HT HF). cbn [t_dims t_act t_init] in HT.
  set (qs := map (fun idx => v_addr v2 (lastn (length (v_dims v2)) idx)) (indices (v_dims v1))).
  assert (EP : produce (bcast (length (v_dims v2)) (pure_action (v_addr v2))) (indices (v_dims v1)) tt = (qs, Ok tt)).
  { unfold qs. generalize (indices (v_dims v1)). induction l as [|i l IH]; cbn [produce map]; auto.
    unfold bcast at 1, pure_action at 1. now rewrite IH. }
  match type of HT with (let (_, _) := ?X in _) => change X with (produce (bcast (length (v_dims v2)) (pure_action (v_addr v2))) (indices (v_dims v1)) tt) in HT end.
  rewrite EP in HT. cbn [done] in HT.
  assert (BO : forall idx, In idx (indices (v_dims v1)) -> in_bounds (v_dims v2) (lastn (length (v_dims v2)) idx)).
  { intros idx Hi. apply in_indices in Hi. exact (operand_bounds HO Hi). }
  assert (EY : exists ys, Forall2 (fun q y => read (tn_mem t) q = Ok y) qs ys /\
    Forall2 (fun idx y => v_get (tn_mem t) v2 (lastn (length (v_dims v2)) idx) = Ok y) (indices (v_dims v1)) ys).
  { unfold qs. revert BO. clear -Hv2. generalize (indices (v_dims v1)). induction l as [|i l IH]; intros BO.
    - exists []. split; constructor.
    - destruct IH as (ys & Y1 & Y2); [intros; apply BO; now right|].
      pose proof (BO i (or_introl eq_refl)) as B. destruct (proj1 (checked_get (mem := tn_mem t) Hv2) _ B) as [y Ey].
      exists (y :: ys). split; constructor; auto. now rewrite v_get_in in Ey. }
  destruct EY as (ys & Y1 & Y2). exists ys. split; auto.
  rewrite HT. unfold on_items, seqM. cbn [fst snd].
  rewrite (put_from_eq h (ps := map (v_addr v1) (indices (v_dims v1))) w Y1).
  - rewrite (put_all_eq h ys w (contents_read HC) (view_cells_nodup Hv1)).
    destruct (edited (combine xs (map (fun y x => h x y) ys)) (w_clo w)) as [[news c] b].
    destruct b; reflexivity.
  - intros p Hp. apply in_map_iff in Hp as (i & <- & Hi). apply in_indices in Hi. apply (vv_range Hv1 Hi).
  - intros p q Hp Hq. apply in_map_iff in Hp as (i & <- & Hi). apply in_map_iff in Hq as (j & <- & Hj).
    apply HD; [now apply in_indices|now apply BO].
Qed.

Lemma halves_post {T C} (h : T -> T -> C -> edit T C) (t : tensor T) (w : world T C) ops a mid ops1 ops2 S0 R :
  tensor_ok t -> view_arg t (ops ++ OpSplitFst a mid :: ops1) -> view_arg t (ops ++ OpSplitSnd a mid :: ops2) ->
  (forall v, v_run (whole (tn_ty t) (tn_dims t)) (ops ++ OpSplitFst a mid :: ops1) = Ok v -> positive (v_dims v)) ->
  balanced S0 (R ++ tn_mem t) w ->
  tpost (tn_ty t) S0 R (tn_edit_halves ops a mid ops1 ops2 h (t, w)).
Proof.
  intros Ht HA1 HA2 HP HB.
  destruct (v_run (whole (tn_ty t) (tn_dims t)) ops) as [v| | |] eqn:E;
    try (pose proof (fine_run (whole (tn_ty t) (tn_dims t)) ops) as F; rewrite E in F; cbn in F; contradiction).
  2:{ unfold tn_edit_halves. cbn [fst]. rewrite E. cbn [bind tpost]. auto. }
  destruct (v_split_axis_at v a mid) as [[u1 u2]| | |] eqn:ES;
    try (pose proof (fine_run v [OpSplitFst a mid]) as F; cbn [v_run v_step] in F; rewrite ES in F; cbn in F; contradiction).
  2:{ unfold tn_edit_halves. cbn [fst]. rewrite E. cbn [bind]. rewrite ES. cbn [bind tpost]. auto. }
  destruct (v_run u1 ops1) as [v1| | |] eqn:E1; try (pose proof (fine_run u1 ops1) as F; rewrite E1 in F; cbn in F; contradiction).
  2:{ unfold tn_edit_halves. cbn [fst]. rewrite E. cbn [bind]. rewrite ES. cbn [bind]. rewrite E1. cbn [bind tpost]. auto. }
  destruct (v_run u2 ops2) as [v2| | |] eqn:E2; try (pose proof (fine_run u2 ops2) as F; rewrite E2 in F; cbn in F; contradiction).
  2:{ unfold tn_edit_halves. cbn [fst]. rewrite E. cbn [bind]. rewrite ES. cbn [bind]. rewrite E1. cbn [bind]. rewrite E2. cbn [bind tpost]. auto. }
  destruct (halves_views Ht HA1 HA2 E ES E1 E2) as (Hv1 & _ & _).
  assert (HP1 : positive (v_dims v1)).
  { apply HP. rewrite v_run_app, E. cbn [bind v_run v_step]. rewrite ES. exact E1. }
  destruct (contents_exist Hv1) as [xs HC].
  destruct (halves_eq h w Ht HA1 HA2 E ES E1 E2 HP1 HC) as [[_ ->]|(_ & ys & HY & ->)].
  - cbn [tpost]. auto.
  - pose proof (@edited_post T C t w v1 xs (combine xs (map (fun y x => h x y) ys)) true S0 R Ht Hv1 HC) as P.
    assert (EL : (length (combine xs (map (fun y x => h x y) ys)) <= length xs)%nat) by (rewrite combine_length; lia).
    specialize (P EL HB). destruct (edited _ _) as [[news c] b]. now rewrite andb_true_r in P.
Qed.

(** ** Programs *)

Theorem exec_ok {T C} al (k : cmd T C) (st : state T C) l :
  consistent st l -> cmd_ok k st ->
  match exec al k st with
  | Done _ st' => exists more, consistent st' (l ++ more) /\ within more (cmd_leak k)
  | Aborted => bad_default st
  | _ => False
  end.
Proof.
  intros HC HO. destruct k; cbn [exec cmd_ok cmd_leak] in *.
  - now apply step_ok.
  - apply on_var_step; auto. intros t R HV Ht HB. destruct (HO t HV). now apply edit_post.
  - apply on_var_step; auto. intros t R HV Ht HB. destruct (HO t HV). now apply edit_zip_post.
  - apply on_var_step; auto. intros t R HV Ht HB. destruct (HO t HV). now apply edit_post.
  - apply on_var_step; auto. intros t R HV Ht HB. destruct (HO t HV). now apply fill_post.
  - apply on_var_step; auto. intros t R HV Ht HB. destruct (HO t HV) as [HA HI].
    destruct (chain_cases Ht HA) as [E|(v & E & _)].
    + unfold tn_edit_at. cbn [fst]. rewrite E. cbn [bind tpost]. auto.
    + apply edit_at_post; eauto.
  - apply on_var_step; auto. intros t R HV Ht HB. destruct (HO t HV) as [HA HI].
    destruct (chain_cases Ht HA) as [E|(v & E & _)].
    + unfold tn_edit_linear. cbn [fst]. rewrite E. cbn [bind tpost]. auto.
    + apply edit_linear_post; eauto.
  - destruct HO as [HO1 HO2]. apply on_var_step; auto. intros t R HV Ht HB.
    destruct (HO1 t HV) as [K1 K2]. destruct (HO2 t HV) as [K3 _]. now apply halves_post.
Qed.

Theorem prog_run_ok {T C} al (p : list (state T C -> cmd T C)) (st : state T C) l :
  consistent st l -> prog_ok al p st ->
  match run_prog al p st with
  | Done _ st' => exists more, consistent st' (l ++ more) /\ within more (prog_leak al p st)
  | Aborted => exists p1 p2 st1, p = p1 ++ p2 /\ run_prog al p1 st = Done tt st1 /\ bad_default st1
  | _ => False
  end.
Proof.
  revert st l. induction p as [|k p IH]; intros st l HC HO; cbn [run_prog prog_leak].
  - exists []. rewrite app_nil_r. cbn. auto.
  - destruct HO as [HO HS]. pose proof (exec_ok al HC HO) as H. unfold seqM.
    destruct (exec al (k st) st) as [[] st'|st'| |] eqn:E; auto.
    + destruct H as (more & HC' & HW). specialize (IH st' _ HC' (HS st' eq_refl)).
      destruct (run_prog al p st') as [[] st2|st2| |]; auto.
      * destruct IH as (more2 & HC2 & HW2). exists (more ++ more2). rewrite app_assoc. split; auto.
        unfold within in *. destruct (cmd_leak (k st)), (prog_leak al p st'); auto. rewrite app_length. lia.
      * destruct IH as (p1 & p2 & st1 & -> & ER & HB). exists (k :: p1), p2, st1.
        split; auto. split; auto. cbn [run_prog]. unfold seqM. now rewrite E.
    + exists [], (k :: p), st. split; auto.
Qed.
