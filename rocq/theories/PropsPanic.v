(** Theorems for C79: what [expand], [resize_with], [resize] and [clone_from] leave behind when the user's code panics.

    [gives fs c = (xs, c', false)]: the calls [fs], one after the other from the captured state [c], give [xs], and the
    next one panics with captured state [c'].  [sh_default ty] are the sizes of the default value of the shape type. *)
From Verif Require Import Base Spec SpecFacts Shape Mapping Index View Wf MappingFacts MapOps
  ReshapeFacts IndexFacts ViewFacts ViewMore PropsView.
From Verif Require Import Expr ExprSpec ExprFacts IterFacts SourceFacts ExprTree ExprMore PropsExpr.
From Verif Require Import Tensor TraceFacts TensorSpec TensorFacts ResizeFacts TensorOps DrainFacts OwnFacts
  ZipFacts OwnMore History HistoryFacts OwnProps PropsTensor PanicFacts.
Unset Strict Implicit.

(** ** C79 *)

(** [expand]: the old elements are lost together with the clones that were made. *)
Theorem c79_expand : forall T Y C al (e : expression Y) (cl : Y -> C -> call T C) ys xs c t w n ds,
  tensor_ok t -> has_rows t n ds -> (forall k, al_ok al k = true) ->
  nonneg (e_dims e) -> 0 < prodZ (e_dims e) -> e_collect e = Ok ys -> zlen ys = prodZ (e_dims e) ->
  (0 < prodZ (tn_dims t) -> exists m, e_dims e = m :: ds) -> (prodZ (tn_dims t) = 0 -> typed (tn_ty t) (e_dims e)) ->
  gives (map cl ys) (w_clo w) = (xs, c, false) ->
  prodZ (sh_default (tn_ty t)) = 0 /\
  exists cap, tn_cap t <= cap /\
    tn_expand al e cl (t, w) =
    Unwound (mkTensor (tn_ty t) (sh_default (tn_ty t)) [] cap, after c xs (tn_mem t ++ xs) w).
Proof.
  intros T Y C al e cl ys xs c t w n ds Ht [RD RH] Hal HN HP HC HL H1 H2 HG.
  assert (HD : tn_dims t <> []) by (rewrite RD; discriminate).
  assert (HH : head_dyn (tn_ty t) = true) by (unfold head_dyn; now rewrite RH).
  split; [exact (head_dyn_default (to_typed Ht) HD HH)|].
  eapply expand_panics; eauto.
  - unfold outer_ok. rewrite HH, RD. reflexivity.
  - unfold growable. pose proof (prodZ_nonneg (to_nonneg Ht)) as P0. destruct (Z.eqb_spec (prodZ (tn_dims t)) 0) as [E|E]; [now apply H2|].
    destruct H1 as [m E1]; [lia|]. rewrite E1, RD. auto.
Qed.
Print Assumptions c79_expand.

(** [resize_with] with the same inner sizes: a panic of the first call changes nothing; a later one loses everything. *)
Theorem c79_resize_rows : forall T C al new (f : C -> call T C) t w vs c,
  tensor_ok t -> nonneg new -> typed (tn_ty t) new -> length new = length (tn_dims t) -> fits new ->
  (forall n, al_ok al n = true) -> tl new = tl (tn_dims t) ->
  gives (repeat f (fresh (tn_dims t) new)) (w_clo w) = (vs, c, false) ->
  exists cap, tn_cap t <= cap /\
    match vs with
    | [] => tn_resize_with al new f (t, w) = Unwound (mkTensor (tn_ty t) (tn_dims t) (tn_mem t) cap, after c [] [] w)
    | _ :: _ => exists gone, Permutation gone (tn_mem t ++ vs) /\ prodZ (sh_default (tn_ty t)) = 0 /\
        tn_resize_with al new f (t, w) = Unwound (mkTensor (tn_ty t) (sh_default (tn_ty t)) [] cap, after c vs gone w)
    end.
Proof.
  intros T C al new f t w vs c Ht HN HY HL HF Hal HE HG.
  destruct (@resize_panics T C al new f t w vs c Ht HN HY HL HF Hal HG) as (cap & ds & HC & HP & E). exists cap. split; [exact HC|].
  assert (DZ : prodZ (sh_default (tn_ty t)) = 0).
  { destruct (Z.eq_dec (prodZ (sh_default (tn_ty t))) 0) as [|N]; auto. exfalso. pose proof (gives_short HG) as G.
    rewrite (default_unique HY (to_typed Ht) N), fresh_same in G. cbn in G. lia. }
  unfold resize_kept in *. rewrite (proj2 (slice_eqb_eq _ _) HE) in *. destruct vs as [|v vs]; cbn [length Nat.eqb left_with tn_mem app] in *.
  - rewrite app_nil_r in HP. assert (ds = []) as ->. { apply Permutation_length in HP. rewrite app_length in HP. destruct ds; [reflexivity|cbn in HP; lia]. }
    exact E.
  - exists ds. split; [now symmetry|]. auto.
Qed.
Print Assumptions c79_resize_rows.

(** [resize_with] with other inner sizes: the elements were already taken out, so everything is lost; the sizes of an
    array without elements stay. *)
Theorem c79_resize_other : forall T C al new (f : C -> call T C) t w vs c,
  tensor_ok t -> nonneg new -> typed (tn_ty t) new -> length new = length (tn_dims t) -> fits new ->
  (forall n, al_ok al n = true) -> tl new <> tl (tn_dims t) ->
  gives (repeat f (fresh (tn_dims t) new)) (w_clo w) = (vs, c, false) ->
  exists cap gone, tn_cap t <= cap /\ Permutation gone (tn_mem t ++ vs) /\ prodZ (sh_default (tn_ty t)) = 0 /\
    tn_resize_with al new f (t, w) =
    Unwound (mkTensor (tn_ty t) (if prodZ (tn_dims t) =? 0 then tn_dims t else sh_default (tn_ty t)) [] cap, after c vs gone w).
Proof.
  intros T C al new f t w vs c Ht HN HY HL HF Hal HE HG.
  destruct (@resize_panics T C al new f t w vs c Ht HN HY HL HF Hal HG) as (cap & ds & HC & HP & E). exists cap, ds. split; [exact HC|].
  assert (DZ : prodZ (sh_default (tn_ty t)) = 0).
  { destruct (Z.eq_dec (prodZ (sh_default (tn_ty t))) 0) as [|N]; auto. exfalso. apply HE. now rewrite (default_unique HY (to_typed Ht) N). }
  assert (ES : slice_eqb (tl new) (tl (tn_dims t)) = false).
  { destruct (slice_eqb (tl new) (tl (tn_dims t))) eqn:ES; auto. exfalso. apply HE. now apply slice_eqb_eq. }
  unfold resize_kept in *. rewrite ES in *. pose proof (to_len Ht) as TL. destruct (Z.eqb_spec (prodZ (tn_dims t)) 0) as [E0|E0]; cbn [left_with tn_mem app] in *.
  - assert (EM : tn_mem t = []). { rewrite E0 in TL. destruct (tn_mem t); [reflexivity|]. unfold zlen in TL. cbn in TL. lia. }
    rewrite EM in *. cbn [app] in *. split; [now symmetry|]. auto.
  - split; [now symmetry|]. auto.
Qed.
Print Assumptions c79_resize_other.

(** [resize] leaves the same sizes and elements as [resize_with] with clones of the value, which is dropped at the end. *)
Theorem c79_resize_value : forall T C al new (x : T) (clone : T -> C -> call T C) t w vs c,
  tensor_ok t -> nonneg new -> typed (tn_ty t) new -> length new = length (tn_dims t) -> fits new ->
  (forall n, al_ok al n = true) ->
  gives (repeat (clone x) (fresh (tn_dims t) new)) (w_clo w) = (vs, c, false) ->
  exists t1 t2 gone1 gone2,
    tn_resize_with al new (clone x) (t, w) = Unwound (t1, after c vs gone1 w) /\
    tn_resize al new x clone (t, w) = Unwound (t2, after c (x :: vs) (gone2 ++ [x]) w) /\
    tn_ty t2 = tn_ty t1 /\ tn_dims t2 = tn_dims t1 /\ tn_mem t2 = tn_mem t1 /\ Permutation gone2 gone1.
Proof.
  intros T C al new x clone t w vs c Ht HN HY HL HF Hal HG.
  set (w' := mkWorld (w_clo w) (w_made w ++ [x]) (w_used w) (w_dropped w)).
  destruct (@resize_panics T C al new (clone x) t w vs c Ht HN HY HL HF Hal HG) as (cap & ds & HC & HP & E).
  destruct (@resize_panics T C al new (clone x) t w' vs c Ht HN HY HL HF Hal HG) as (cap' & ds' & HC' & HP' & E').
  exists (left_with t (resize_kept (tn_dims t) new vs) (tn_mem t) cap), (left_with t (resize_kept (tn_dims t) new vs) (tn_mem t) cap'), ds, ds'.
  split; [exact E|]. split.
  - unfold tn_resize. cbn [fst snd]. fold w'. rewrite E'. unfold w_drop, after, w'. cbn [w_clo w_made w_used w_dropped].
    rewrite <- !app_assoc. reflexivity.
  - destruct (resize_kept (tn_dims t) new vs); cbn [left_with tn_ty tn_dims tn_mem] in *; do 3 (split; [reflexivity|]).
    + apply (Permutation_app_inv_l (tn_mem t)). etransitivity; [symmetry; exact HP'|exact HP].
    + cbn [app] in *. etransitivity; [symmetry; exact HP'|exact HP].
Qed.
Print Assumptions c79_resize_value.

(** [clone_from] from a source with at least as many elements, the panic coming before the old elements are all replaced:
    the array keeps its sizes and has the new elements first. *)
Theorem c79_clone_from_kept : forall T C al (clone : T -> C -> call T C) src dims (t : tensor T) (w : world T C) ys c,
  tensor_ok t -> typed (tn_ty t) dims -> zlen src = prodZ dims -> (forall n, al_ok al n = true) ->
  gives (map clone src) (w_clo w) = (ys, c, false) ->
  (length ys <= length (tn_mem t) <= length src)%nat ->
  exists cap, tn_cap t <= cap /\
    tn_clone_from al clone src dims (t, w) =
    Unwound (mkTensor (tn_ty t) (tn_dims t) (ys ++ skipn (length ys) (tn_mem t)) cap, after c ys (firstn (length ys) (tn_mem t)) w).
Proof.
  intros T C al clone src dims t w ys c Ht HY HS Hal HG [H1 H2].
  destruct (@clone_from_panics T C al clone src dims t w ys c Ht HY HS Hal HG) as (cap & HC & E). exists cap. split; [exact HC|].
  rewrite (proj2 (Nat.leb_le _ _) H1), (proj2 (Nat.leb_le _ _) H2) in E. cbn [andb] in E.
  rewrite (firstn_all2 (n := length src) (tn_mem t)) in E by exact H2. rewrite (skipn_all2 (n := length src) (tn_mem t)) in E by exact H2.
  exact E.
Qed.
Print Assumptions c79_clone_from_kept.

(** Otherwise everything is lost. *)
Theorem c79_clone_from_lost : forall T C al (clone : T -> C -> call T C) src dims (t : tensor T) (w : world T C) ys c,
  tensor_ok t -> typed (tn_ty t) dims -> zlen src = prodZ dims -> (forall n, al_ok al n = true) ->
  gives (map clone src) (w_clo w) = (ys, c, false) ->
  (length (tn_mem t) < length ys \/ length src < length (tn_mem t))%nat ->
  exists cap gone, tn_cap t <= cap /\ Permutation gone (tn_mem t ++ ys) /\ prodZ (sh_default (tn_ty t)) = 0 /\
    tn_clone_from al clone src dims (t, w) =
    Unwound (mkTensor (tn_ty t) (sh_default (tn_ty t)) [] cap, after c ys gone w).
Proof.
  intros T C al clone src dims t w ys c Ht HY HS Hal HG HK.
  destruct (@clone_from_panics T C al clone src dims t w ys c Ht HY HS Hal HG) as (cap & HC & E). exists cap.
  assert (K : (length ys <=? length (tn_mem t))%nat && (length (tn_mem t) <=? length src)%nat = false).
  { apply andb_false_iff. rewrite !Nat.leb_gt. exact HK. }
  rewrite K in E. eexists. split; [exact HC|]. split; [|split; [|exact E]].
  - set (m := tn_mem t). set (a := firstn (length src) m).
    transitivity ((a ++ skipn (length src) m) ++ ys); [|unfold a; now rewrite firstn_skipn].
    transitivity (((firstn (length ys) a ++ skipn (length ys) a) ++ skipn (length src) m) ++ ys); [perm|]. now rewrite firstn_skipn.
  - destruct (Z.eq_dec (prodZ (sh_default (tn_ty t))) 0) as [|N]; auto. exfalso.
    pose proof (gives_short HG) as G. rewrite map_length in G. rewrite (default_unique HY (to_typed Ht) N) in HS. rewrite <- (to_len Ht) in HS.
    unfold zlen in HS. lia.
Qed.
Print Assumptions c79_clone_from_lost.

(** Concrete cases.  [clone_third] panics at the third clone. *)
Definition clone_third (x c : Z) : call Z Z := if c =? 2 then Throws c else Gives x (c + 1).

Example c79_example_expand :
  let e := e_into ty2 [1; 3] [7; 8; 9] in
  has_rows t23 2 [3] /\ e_dims e = [1; 3] /\ e_collect e = Ok [7; 8; 9] /\
  gives (map clone_third [7; 8; 9]) (w_clo w0) = ([7; 8], 2, false) /\
  tn_expand al0 e clone_third (t23, w0) = Unwound (mkTensor ty2 [0; 0] [] 9, after 2 [7; 8] [1; 2; 3; 4; 5; 6; 7; 8] w0).
Proof. split; [exact t23_rows|]. vm_all. Qed.
Example c79_example_resize :
  gives (repeat third (fresh [2; 3] [4; 3])) (w_clo w0) = ([100; 101], 2, false) /\
  tn_resize_with al0 [4; 3] third (t23, w0) = Unwound (mkTensor ty2 [0; 0] [] 12, after 2 [100; 101] [1; 2; 3; 4; 5; 6; 100; 101] w0) /\
  tn_resize_with al0 [4; 3] (fun c => Throws (c + 1)) (t23, w0) = Unwound (mkTensor ty2 [2; 3] [1; 2; 3; 4; 5; 6] 12, after 1 [] [] w0) /\
  tn_resize_with al0 [2; 5] third (t23, w0) = Unwound (mkTensor ty2 [0; 0] [] 6, after 2 [100; 101] [1; 2; 3; 100; 101; 4; 5; 6] w0) /\
  tn_resize_with al0 [2; 5] third (t03, w0) = Unwound (mkTensor ty2 [0; 3] [] 4, after 2 [100; 101] [100; 101] w0) /\
  tn_resize al0 [4; 3] 9 clone_third (t23, w0) = Unwound (mkTensor ty2 [0; 0] [] 12, after 2 [9; 9; 9] [1; 2; 3; 4; 5; 6; 9; 9; 9] w0).
Proof. vm_all. Qed.
Example c79_example_clone_from :
  gives (map clone_third [11; 12; 13; 14; 15; 16]) (w_clo w0) = ([11; 12], 2, false) /\
  tn_clone_from al0 clone_third [11; 12; 13; 14; 15; 16] [3; 2] (t23, w0) =
    Unwound (mkTensor ty2 [2; 3] [11; 12; 3; 4; 5; 6] 6, after 2 [11; 12] [1; 2] w0) /\
  tn_clone_from al0 clone_third [11; 12; 13] [3; 1] (t23, w0) =
    Unwound (mkTensor ty2 [0; 0] [] 6, after 2 [11; 12] [4; 5; 6; 1; 2; 11; 12; 3] w0).
Proof. vm_all. Qed.
