(** Theorems for C71 and C72: writing through mutable views with code that may panic, and programs
    that mix such writes with operations on owned arrays.

    Program.v has the model: [edit] is what the user's code does with the reference to one element.
    [edited l c] calls one code after the other, each with its element, up to the first that panics.
    [contents mem v xs]: the elements of the view [v] are [xs], in row-major order.  [rewritten]: the
    new elements are in the cells of the view, in row-major order as far as it went, and no other cell
    has changed.  [view_arg t ops]: [ops] are operations with arguments of their types, and the tensor
    is no larger than the machine.  [Unwound] is a panic that the program catches, [Fault] undefined
    behaviour. *)
From Verif Require Import Base Spec SpecFacts Shape Mapping Index View Wf MappingFacts MapOps
  ReshapeFacts IndexFacts ViewFacts ViewMore PropsView.
From Verif Require Import Expr ExprSpec ExprFacts IterFacts SourceFacts ExprTree ExprMore PropsExpr.
From Verif Require Import Tensor TraceFacts TensorSpec TensorFacts ResizeFacts TensorOps DrainFacts OwnFacts
  ZipFacts OwnMore OpsFacts History HistoryFacts OwnProps PropsTensor Program ProgramFacts.
Unset Strict Implicit.

(** The tensor and the world after the elements [news] took the place of those of [xs] (as far as
    there are new ones) in the view [v]. *)
Definition wrote {T C} (t : tensor T) (w : world T C) (v : view) (xs : list T) (news : list (option T)) (c : C)
  (s : tensor T * world T C) : Prop :=
  exists mem', rewritten (v_dims v) (v_addr v) news (tn_mem t) mem' /\
    s = (mkTensor (tn_ty t) (tn_dims t) mem' (tn_cap t),
         mkWorld c (w_made w ++ somes news) (w_used w) (w_dropped w ++ replaced xs news)).

Definition finished {S} (b : bool) (r : result S unit) (P : S -> Prop) : Prop :=
  exists s, r = (if b then Done tt s else Unwound s) /\ P s.

(** ** C71 *)

(** A loop over all elements of a view: exactly the elements of the view are visited, each once, in
    row-major order; a panic leaves the edits made so far and the rest as it was. *)
Theorem c71_each : forall T C (h : T -> C -> edit T C) (t : tensor T) (w : world T C) ops v xs,
  tensor_ok t -> view_arg t ops -> v_run (whole (tn_ty t) (tn_dims t)) ops = Ok v ->
  visits_right v -> contents (tn_mem t) v xs ->
  let '(news, c, b) := edited (map (fun x => (x, h)) xs) (w_clo w) in
  finished b (tn_edit ops h (t, w)) (wrote t w v xs news c).
Proof.
  intros T C h t w ops v xs Ht HA E HF HC. pose proof (chain_view Ht HA E) as Hv.
  rewrite (edit_eq h w E Hv HF HC). destruct (edited _ _) as [[news c] b].
  eexists. split; [unfold finish; reflexivity|]. eexists. split; [now apply putting_rewritten|reflexivity].
Qed.
Print Assumptions c71_each.

(** [fill_with]: with [gives] as in C37. *)
Lemma edited_set {T C} (f : C -> call T C) (xs : list T) c :
  edited (map (fun x => (x, edit_set f)) xs) c =
  let '(rs, c', b) := gives (repeat f (length xs)) c in (map Some rs ++ (if b then [] else [None]), c', b).
Proof.
  revert c. induction xs as [|x xs IH]; intros c; cbn [map edited length repeat gives]; auto.
  unfold edit_set at 1. destruct (f c) as [y c1|c1]; auto.
  rewrite IH. destruct (gives (repeat f (length xs)) c1) as [[rs c2] b]. reflexivity.
Qed.
Lemma somes_map {T} (l : list T) : somes (map Some l) = l.
Proof. unfold somes. induction l; cbn; congruence. Qed.
Lemma replaced_map {T} (xs rs : list T) : (length rs <= length xs)%nat -> replaced xs (map Some rs) = firstn (length rs) xs.
Proof.
  unfold replaced. revert xs. induction rs as [|r rs IH]; intros [|x xs] H; cbn in *; try lia; auto. f_equal. apply IH. lia.
Qed.

Theorem c71_fill_with : forall T C (f : C -> call T C) (t : tensor T) (w : world T C) ops v xs,
  tensor_ok t -> view_arg t ops -> v_run (whole (tn_ty t) (tn_dims t)) ops = Ok v ->
  visits_right v -> contents (tn_mem t) v xs ->
  let '(rs, c, b) := gives (repeat f (length xs)) (w_clo w) in
  finished b (tn_fill_with ops f (t, w)) (fun s =>
    exists mem', rewritten (v_dims v) (v_addr v) (map Some rs) (tn_mem t) mem' /\
      s = (mkTensor (tn_ty t) (tn_dims t) mem' (tn_cap t),
           mkWorld c (w_made w ++ rs) (w_used w) (w_dropped w ++ firstn (length rs) xs))).
Proof.
  intros T C f t w ops v xs Ht HA E HF HC. pose proof (@c71_each T C (edit_set f) t w ops v xs Ht HA E HF HC) as H.
  rewrite edited_set in H. destruct (gives (repeat f (length xs)) (w_clo w)) as [[rs c] b] eqn:EG.
  pose proof (gives_length EG) as [HL HL']. rewrite repeat_length in HL, HL'. destruct H as (s & ES & mem' & HR & ->).
  exists (mkTensor (tn_ty t) (tn_dims t) mem' (tn_cap t),
           mkWorld c (w_made w ++ rs) (w_used w) (w_dropped w ++ firstn (length rs) xs)). split.
  - unfold tn_fill_with. rewrite ES.
    assert (E1 : somes (map Some rs ++ (if b then [] else [None])) = rs).
    { unfold somes. rewrite flat_map_app. fold (somes (map Some rs)). rewrite somes_map. destruct b; cbn; now rewrite app_nil_r. }
    assert (E2 : replaced xs (map Some rs ++ (if b then [] else [None])) = firstn (length rs) xs).
    { rewrite <- replaced_map by auto. unfold replaced. clear. revert xs. induction rs as [|r rs IH]; intros [|x xs]; cbn; auto.
      - destruct b; cbn; rewrite ?combine_nil; reflexivity.
      - now rewrite IH. }
    rewrite E1, E2. reflexivity.
  - exists mem'. split; auto. destruct HR as (R1 & R2 & R3). split; auto. split; auto. intros idx B. rewrite (R2 idx B).
    destruct b; [now rewrite app_nil_r|].
    destruct (Nat.lt_ge_cases (Z.to_nat (flat (v_dims v) idx)) (length (map Some rs))) as [L|L].
    + now rewrite nth_error_app1.
    + rewrite nth_error_app2 by auto. rewrite (proj2 (nth_error_None (map Some rs) _)) by auto.
      destruct (Z.to_nat (flat (v_dims v) idx) - length (map Some rs))%nat as [|[|n]]; reflexivity.
Qed.
Print Assumptions c71_fill_with.

(** [fill]: as a loop with [clone_from]; the value comes in before and is dropped after it, in every
    case. *)
Theorem c71_fill : forall T C value (cl : T -> T -> C -> edit T C) (t : tensor T) (w : world T C) ops v xs,
  tensor_ok t -> view_arg t ops -> v_run (whole (tn_ty t) (tn_dims t)) ops = Ok v ->
  visits_right v -> contents (tn_mem t) v xs ->
  let '(news, c, b) := edited (map (fun x => (x, cl value)) xs) (w_clo w) in
  finished b (tn_fill ops value cl (t, w)) (fun s =>
    exists mem', rewritten (v_dims v) (v_addr v) news (tn_mem t) mem' /\
      s = (mkTensor (tn_ty t) (tn_dims t) mem' (tn_cap t),
           mkWorld c ((w_made w ++ [value]) ++ somes news) (w_used w) ((w_dropped w ++ replaced xs news) ++ [value]))).
Proof.
  intros T C value cl t w ops v xs Ht HA E HF HC.
  set (w0 := mkWorld (w_clo w) (w_made w ++ [value]) (w_used w) (w_dropped w)).
  pose proof (@c71_each T C (cl value) t w0 ops v xs Ht HA E HF HC) as H. change (w_clo w0) with (w_clo w) in H.
  destruct (edited (map (fun x => (x, cl value)) xs) (w_clo w)) as [[news c] b].
  destruct H as (s & ES & mem' & HR & ->). eexists. split.
  - unfold tn_fill. cbn [fst snd]. fold w0. rewrite ES. destruct b; reflexivity.
  - exists mem'. split; auto.
Qed.
Print Assumptions c71_fill.

(** [assign], [+=] and zips in general, with any expression tree as operand: refused without a trace
    unless the operand fits, and then the code gets each element of the view with the item of the
    operand at the same index (of the trailing dimensions), up to the first panic of the operand or of
    the code. *)
Theorem c71_zip : forall T Y C (h : T -> Y -> C -> edit T C) (t : tensor T) (w : world T C) ops v xs (tr : tree Y) e,
  tensor_ok t -> view_arg t ops -> v_run (whole (tn_ty t) (tn_dims t)) ops = Ok v -> contents (tn_mem t) v xs ->
  t_leaves tr -> t_build tr = Ok e -> t_safe tr ->
  (operand_fits (v_dims v) tr -> t_fine (with_target (zlen (tn_mem t)) v tr)) ->
  (~ operand_fits (v_dims v) tr /\ tn_edit_zip ops e h (t, w) = Unwound (t, w)) \/
  (operand_fits (v_dims v) tr /\
   let (ys, o) := produce (bcast (length (t_dims tr)) (t_act tr)) (indices (v_dims v)) (t_init tr) in
   let '(news, c, b) := edited (combine xs (map (fun y x => h x y) ys)) (w_clo w) in
   finished (b && match o with Ok _ => true | _ => false end) (tn_edit_zip ops e h (t, w)) (wrote t w v xs news c)).
Proof.
  intros T Y C h t w ops v xs tr e Ht HA E HC HL HB HS HF. pose proof (chain_view Ht HA E) as Hv.
  destruct (view_with_tree Hv HL HB) as [[HO EZ]|[HO (z & EZ & HT)]]; [left|right].
  - split; auto. unfold tn_edit_zip, tn_visit. cbn [fst]. rewrite E. cbn [bind]. now rewrite EZ.
  - split; auto. specialize (HT (HF HO)). pose proof (bcast_proper (t_init tr) (wf_nonneg (vv_wf Hv)) HO HS) as HP.
    destruct (produce _ _ _) as [ys o]. cbn [snd] in HP.
    assert (HD : done o = Ok tt \/ done o = Panic) by (destruct o; try contradiction; auto).
    rewrite (edit_zip_eq h w E Hv HC EZ HT HD). destruct (edited _ _) as [[news c] b].
    eexists. split.
    + unfold finish. destruct o; try contradiction; reflexivity.
    + eexists. split; [now apply putting_rewritten|reflexivity].
Qed.
Print Assumptions c71_zip.

(** One element by its indices, or by its place in row-major order. *)
Theorem c71_at : forall T C (h : T -> C -> edit T C) (t : tensor T) (w : world T C) ops v idx,
  tensor_ok t -> view_arg t ops -> v_run (whole (tn_ty t) (tn_dims t)) ops = Ok v -> nonneg idx ->
  (~ in_bounds (v_dims v) idx /\ tn_edit_at ops idx h (t, w) = Unwound (t, w)) \/
  (in_bounds (v_dims v) idx /\ exists x, v_get (tn_mem t) v idx = Ok x /\
   let '(Edit new c b) := h x (w_clo w) in
   finished b (tn_edit_at ops idx h (t, w)) (fun s => exists mem',
     length mem' = length (tn_mem t) /\
     nth_error mem' (Z.to_nat (v_addr v idx)) = Some (match new with Some y => y | None => x end) /\
     (forall a, a <> Z.to_nat (v_addr v idx) -> nth_error mem' a = nth_error (tn_mem t) a) /\
     s = (mkTensor (tn_ty t) (tn_dims t) mem' (tn_cap t),
          mkWorld c (w_made w ++ somes [new]) (w_used w) (w_dropped w ++ replaced [x] [new])))).
Proof.
  intros T C h t w ops v idx Ht HA E HI. pose proof (chain_view Ht HA E) as Hv.
  unfold tn_edit_at. cbn [fst]. rewrite E. cbn [bind].
  assert (D : in_bounds (v_dims v) idx \/ ~ in_bounds (v_dims v) idx).
  { destruct (inside (v_dims v) idx) eqn:EI; [left; now apply inside_spec|right; intros H; apply inside_spec in H; congruence]. }
  destruct D as [B|B]; [right|left; split; auto; now rewrite slice_index_multi_out by auto].
  split; auto. rewrite slice_index_multi_in by exact B. cbn [bind].
  destruct (proj1 (checked_get (mem := tn_mem t) Hv) idx B) as [x Ex]. exists x. split; auto. rewrite v_get_in in Ex by exact B.
  change (v_ptr v + m_offset (v_map v) idx) with (v_addr v idx).
  rewrite (put_one_eq h w Ex). destruct (h x (w_clo w)) as [new c b].
  eexists. split; [unfold finish; reflexivity|]. exists (putting [v_addr v idx] [new] (tn_mem t)).
  pose proof (vv_range Hv B) as HR. split; [apply putting_length|]. split; [|split; [|reflexivity]].
  - rewrite (@putting_in T [v_addr v idx] [new] (tn_mem t) 0 (v_addr v idx)); auto.
    + cbn [nth_error]. destruct new; auto. unfold read in Ex. destruct (v_addr v idx <? 0); [discriminate|].
      destruct (nth_error (tn_mem t) (Z.to_nat (v_addr v idx))); congruence.
    + constructor; [intros []|constructor].
    + intros b' [<-|[]]. exact HR.
  - intros a NE. apply putting_out. intros b' [<-|[]]. auto.
Qed.
Print Assumptions c71_at.

Theorem c71_linear : forall T C (h : T -> C -> edit T C) (t : tensor T) (w : world T C) ops v k,
  tensor_ok t -> view_arg t ops -> v_run (whole (tn_ty t) (tn_dims t)) ops = Ok v -> 0 <= k ->
  tn_edit_linear ops k h (t, w) =
  if k <? prodZ (v_dims v) then tn_edit_at ops (nth (Z.to_nat k) (indices (v_dims v)) []) h (t, w) else Unwound (t, w).
Proof.
  intros T C h t w ops v k Ht HA E Hk. pose proof (chain_view Ht HA E) as Hv.
  unfold tn_edit_linear, tn_edit_at. cbn [fst]. rewrite E. cbn [bind]. rewrite (linear_addr (vv_wf Hv) Hk).
  destruct (Z.ltb_spec k (prodZ (v_dims v))) as [L|L]; auto.
  pose proof (wf_nonneg (vv_wf Hv)) as Hn. rewrite indices_nth by (auto; lia). rewrite Z2Nat.id by lia.
  rewrite slice_index_multi_in by (apply unflat_in_bounds; auto; lia). reflexivity.
Qed.
Print Assumptions c71_linear.

(** Operations that panic before anything is written. *)
Theorem c71_refused : forall T Y C (t : tensor T) (w : world T C) ops (e : expression Y) h1 h2 f value cl idx k,
  v_run (whole (tn_ty t) (tn_dims t)) ops = Panic ->
  tn_edit ops h1 (t, w) = Unwound (t, w) /\ tn_edit_zip ops e h2 (t, w) = Unwound (t, w) /\
  tn_fill_with ops f (t, w) = Unwound (t, w) /\
  tn_fill ops value cl (t, w) = Unwound (t, mkWorld (w_clo w) (w_made w ++ [value]) (w_used w) (w_dropped w ++ [value])) /\
  tn_edit_at ops idx h1 (t, w) = Unwound (t, w) /\ tn_edit_linear ops k h1 (t, w) = Unwound (t, w).
Proof.
  intros T Y C t w ops e h1 h2 f value cl idx k E.
  unfold tn_fill_with, tn_fill, tn_edit, tn_edit_zip, tn_visit, tn_edit_at, tn_edit_linear. cbn [fst snd]. rewrite E. cbn [bind]. auto 10.
Qed.
Print Assumptions c71_refused.

(** The views with elements are visited rightly. *)
Lemma positive_visits v : positive (v_dims v) -> visits_right v.
Proof.
  intros H. right. left. rewrite removelast_firstn'. unfold positive in *. now apply Forall_firstn'.
Qed.

(** Both halves of a split at once, one written and the other read through references into the same
    storage, each after any further operations: it is as if the second had been read beforehand. *)
Theorem c71_halves : forall T C (h : T -> T -> C -> edit T C) (t : tensor T) (w : world T C) ops a mid ops1 ops2 v u1 u2 v1 v2 xs,
  tensor_ok t -> view_arg t (ops ++ OpSplitFst a mid :: ops1) -> view_arg t (ops ++ OpSplitSnd a mid :: ops2) ->
  v_run (whole (tn_ty t) (tn_dims t)) ops = Ok v -> v_split_axis_at v a mid = Ok (u1, u2) ->
  v_run u1 ops1 = Ok v1 -> v_run u2 ops2 = Ok v2 ->
  positive (v_dims v1) -> contents (tn_mem t) v1 xs ->
  let fits := trailing_eq (v_dims v1) (v_dims v2) /\ (length (v_dims v2) <= length (v_dims v1))%nat in
  (~ fits /\ tn_edit_halves ops a mid ops1 ops2 h (t, w) = Unwound (t, w)) \/
  (fits /\ exists ys,
     Forall2 (fun idx y => v_get (tn_mem t) v2 (lastn (length (v_dims v2)) idx) = Ok y) (indices (v_dims v1)) ys /\
     let '(news, c, b) := edited (combine xs (map (fun y x => h x y) ys)) (w_clo w) in
     finished b (tn_edit_halves ops a mid ops1 ops2 h (t, w)) (wrote t w v1 xs news c)).
Proof.
  intros T C h t w ops a mid ops1 ops2 v u1 u2 v1 v2 xs Ht HA1 HA2 E ES E1 E2 HP HC fits.
  destruct (halves_views Ht HA1 HA2 E ES E1 E2) as (Hv1 & _ & _).
  destruct (halves_eq h w Ht HA1 HA2 E ES E1 E2 HP HC) as [[HO EQ]|(HO & ys & HY & EQ)]; [left|right].
  - split; auto. intros [H1 H2]. apply HO. split; [exact H1|]. split; [exact H2|]. left. reflexivity.
  - split; [split; apply HO|]. exists ys. split; auto. rewrite EQ.
    destruct (edited _ _) as [[news c] b]. eexists. split; [unfold finish; reflexivity|].
    eexists. split; [now apply putting_rewritten|reflexivity].
Qed.
Print Assumptions c71_halves.

Lemma small_dims l : forallb (fun d => d <=? 1000) l = true -> Forall (fun d => d <= usize_max) l.
Proof.
  intros H. apply Forall_forall. intros d Hd. rewrite forallb_forall in H. specialize (H d Hd). unfold usize_max. lia.
Qed.
Lemma small_len n : (n <=? 1000) = true -> n <= usize_max.
Proof. unfold usize_max. lia. Qed.

(** A 2x3 tensor, its last two columns in reverse order, and a closure that panics at the fourth call. *)
Definition ex_cols : list vop := [OpView [IxFull; IxStep (Included 1) Unbounded (-1)]].
Definition add_c (x c : Z) : edit Z Z := if c =? 3 then Edit (Some 0) c false else Edit (if c =? 1 then None else Some (x + 100)) (c + 1) true.
Lemma ex_cols_arg : view_arg t23 ex_cols.
Proof.
  split; [|split; [apply small_len; reflexivity|]].
  - cbn [t23 tn_dims]. apply small_dims. reflexivity.
  - split; [|intros v' _; exact I]. split; [|reflexivity]. repeat constructor; simpl; unfold usize_max, isize_max; lia.
Qed.
Example c71_example : exists v, tensor_ok t23 /\ view_arg t23 ex_cols /\
  v_run (whole (tn_ty t23) (tn_dims t23)) ex_cols = Ok v /\ visits_right v /\ contents (tn_mem t23) v [3; 2; 6; 5] /\
  edited (map (fun x => (x, add_c)) [3; 2; 6; 5]) 0 = ([Some 103; None; Some 106; Some 0], 3, false) /\
  tn_edit ex_cols add_c (t23, mkWorld 0 [] [] []) =
  Unwound (mkTensor ty2 [2; 3] [1; 2; 103; 4; 0; 106] 6, mkWorld 3 [103; 106; 0] [] [3; 6; 5]).
Proof.
  eexists. split; [exact t23_ok|]. split; [exact ex_cols_arg|]. split; [vm_compute; reflexivity|].
  split; [apply positive_visits; vm_compute; repeat constructor|].
  split; [repeat constructor|]. split; vm_compute; reflexivity.
Qed.
Definition ex_operand : tree Z := TCopied (read [10; 20]) (TView 2 true (whole ty1 [2])).
Example c71_zip_example : exists v e,
  v_run (whole (tn_ty t23) (tn_dims t23)) ex_cols = Ok v /\
  t_build ex_operand = Ok e /\ t_leaves ex_operand /\
  operand_fits (v_dims v) ex_operand /\ t_fine (with_target 6 v ex_operand) /\
  tn_edit_zip ex_cols e (fun x y c => Edit (Some (x + y)) (c + 1) (c <? 2)) (t23, mkWorld 0 [] [] []) =
  Unwound (mkTensor ty2 [2; 3] [1; 22; 13; 4; 5; 16] 6, mkWorld 3 [13; 22; 16] [] [3; 2; 6]).
Proof.
  do 2 eexists. split; [vm_compute; reflexivity|]. split; [reflexivity|]. split; [apply whole_valid; [wf_tac|wf_tac|wf_tac|cbn; lia]|].
  split; [split; [reflexivity|split; [cbn; lia|]]|].
  - left. reflexivity.
  - split; [apply nonempty_fine; [vm_compute; repeat constructor|reflexivity]|]. vm_compute. reflexivity.
Qed.
Example c71_halves_example : exists v u1 u2 v1 v2,
  v_run (whole (tn_ty t23) (tn_dims t23)) [] = Ok v /\ v_split_axis_at v (AxConst 0) 1 = Ok (u1, u2) /\
  v_run u1 [] = Ok v1 /\ v_run u2 [OpAxisAt (AxConst 0) 0] = Ok v2 /\
  view_arg t23 ([] ++ OpSplitFst (AxConst 0) 1 :: []) /\
  view_arg t23 ([] ++ OpSplitSnd (AxConst 0) 1 :: [OpAxisAt (AxConst 0) 0]) /\
  positive (v_dims v1) /\ contents (tn_mem t23) v1 [1; 2; 3] /\
  tn_edit_halves [] (AxConst 0) 1 [] [OpAxisAt (AxConst 0) 0] (fun x y c => Edit (Some (x + y)) c true)
    (t23, mkWorld 0 [] [] []) =
  Done tt (mkTensor ty2 [2; 3] [5; 7; 9; 4; 5; 6] 6, mkWorld 0 [5; 7; 9] [] [1; 2; 3]).
Proof.
  do 5 eexists. split; [reflexivity|]. split; [vm_compute; reflexivity|]. split; [reflexivity|]. split; [vm_compute; reflexivity|].
  split; [|split].
  - split; [|split; [apply small_len; reflexivity|]].
    + cbn [t23 tn_dims]. apply small_dims. reflexivity.
    + split; [cbn; unfold usize, usize_max; lia|]. intros v' _. exact I.
  - split; [|split; [apply small_len; reflexivity|]].
    + cbn [t23 tn_dims]. apply small_dims. reflexivity.
    + split; [cbn; unfold usize, usize_max; lia|]. intros v' _. split; [cbn; unfold usize, usize_max; lia|]. intros v'' _. exact I.
  - split; [vm_compute; repeat constructor|]. split; [repeat constructor|]. vm_compute. reflexivity.
Qed.
Example c71_at_example :
  tn_edit_at ex_cols [1; 0] (fun x c => Edit (Some (10 * x)) c true) (t23, mkWorld 0 [] [] []) =
  Done tt (mkTensor ty2 [2; 3] [1; 2; 3; 4; 5; 60] 6, mkWorld 0 [60] [] [6]) /\
  tn_edit_linear ex_cols 2 (fun x c => Edit (Some (10 * x)) c true) (t23, mkWorld 0 [] [] []) =
  Done tt (mkTensor ty2 [2; 3] [1; 2; 3; 4; 5; 60] 6, mkWorld 0 [60] [] [6]) /\
  tn_edit_at ex_cols [2; 0] (fun x c => Edit (Some (10 * x)) c true) (t23, mkWorld 0 [] [] []) =
  Unwound (t23, mkWorld 0 [] [] []).
Proof. vm_all. Qed.

(** The condition on empty views is needed: writing through a view without elements changes the
    tensor, or is undefined behaviour. *)
Theorem c71_refuted : exists (t : tensor Z) ops v t' w',
  tensor_ok t /\ view_arg t ops /\ v_run (whole (tn_ty t) (tn_dims t)) ops = Ok v /\ contents (tn_mem t) v [] /\
  tn_fill_with ops count (t, mkWorld 0 [] [] []) = Done tt (t', w') /\ tn_mem t' <> tn_mem t.
Proof.
  exists t23, [OpView [IxRange (Included 0) (Excluded 0); IxStep Unbounded Unbounded 2]]. do 3 eexists.
  split; [exact t23_ok|]. split.
  { split; [|split; [apply small_len; reflexivity|]].
    - cbn [t23 tn_dims]. apply small_dims. reflexivity.
    - split; [|intros v' _; exact I]. split; [|reflexivity]. repeat constructor; simpl; unfold usize, usize_max, isize_max; lia. }
  split; [vm_compute; reflexivity|]. split; [constructor|]. split; [vm_compute; reflexivity|]. vm_compute. discriminate.
Qed.
Print Assumptions c71_refuted.

(** ** C72 *)

(** Any program that looks at its state and then does any operation on its tensors (History.v) or
    writes through any view of any of them, panics being caught: no undefined behaviour, every tensor
    is consistent afterwards and every element is in exactly one place.  The process is only ended
    for the reason given in C49. *)
Theorem c72_program : forall T C al (p : list (state T C -> cmd T C)) c,
  prog_ok al p (start c) ->
  match run_prog al p (start c) with
  | Done _ st =>
      (forall i t, var st i = Some t ->
         nonneg (tn_dims t) /\ typed (tn_ty t) (tn_dims t) /\
         zlen (tn_mem t) = prodZ (tn_dims t) /\ zlen (tn_mem t) <= tn_cap t) /\
      exists leaked,
        Permutation (w_made (st_w st)) (held (st_vars st) ++ leaked ++ w_used (st_w st) ++ w_dropped (st_w st)) /\
        within leaked (prog_leak al p (start c)) /\
        (NoDup (w_made (st_w st)) -> NoDup (held (st_vars st) ++ leaked ++ w_used (st_w st) ++ w_dropped (st_w st)))
  | Aborted => exists p1 p2 st i t, p = p1 ++ p2 /\ run_prog al p1 (start c) = Done tt st /\
      var st i = Some t /\ prodZ (sh_default (tn_ty t)) <> 0
  | _ => False
  end.
Proof.
  intros T C al p c HO. pose proof (@prog_run_ok T C al p (start c) []) as H.
  assert (H0 : consistent (start (T := T) c) []) by (split; [constructor|cbn; constructor]).
  specialize (H H0 HO). destruct (run_prog al p (start c)) as [[] st|st| |]; auto.
  - destruct H as (more & HC & HW). split.
    + intros i t HV. pose proof (var_ok HC HV) as Ht.
      split; [apply (to_nonneg Ht)|]. split; [apply (to_typed Ht)|]. split; [apply (to_len Ht)|apply (to_cap Ht)].
    + destruct HC as [_ HP]. exists more. split; auto. split; auto. intros HN. eapply Permutation_NoDup; eauto.
  - destruct H as (p1 & p2 & st & H1 & H2 & i & t & H3 & H4). exists p1, p2, st, i, t. auto.
Qed.
Print Assumptions c72_program.

(** Programs whose commands are neither [zip_with] nor leave a draining iterator behind lose nothing. *)
Theorem c72_clean : forall T C al (p : list (state T C -> cmd T C)) c st,
  prog_ok al p (start c) -> run_prog al p (start c) = Done tt st ->
  Forall (fun k => forall s : state T C, match k s with Own (ZipWith _ _ _) | Own (DrainLeak _ _ _ _) => False | _ => True end) p ->
  Permutation (w_made (st_w st)) (held (st_vars st) ++ w_used (st_w st) ++ w_dropped (st_w st)).
Proof.
  intros T C al p c st HO E HP.
  assert (L : forall q s, Forall (fun k => forall s : state T C, match k s with Own (ZipWith _ _ _) | Own (DrainLeak _ _ _ _) => False | _ => True end) q ->
    prog_leak al q s = Some 0%nat).
  { induction q as [|k q IH]; intros s H; [reflexivity|]. inversion H as [|? ? Hk Hq]; subst. cbn [prog_leak]. specialize (Hk s).
    assert (K : cmd_leak (k s) = Some 0%nat) by (destruct (k s) as [o| | | | | | |]; try reflexivity; destruct o; try reflexivity; contradiction).
    rewrite K. destruct (exec al (k s) s); try reflexivity. now rewrite IH. }
  pose proof (@c72_program T C al p c HO) as H. rewrite E in H. destruct H as (_ & leaked & P & W & _).
  rewrite (L p (start c) HP) in W. destruct leaked; [exact P|cbn in W; lia].
Qed.
Print Assumptions c72_clean.

(** A write touches no other variable. *)
Theorem c72_others : forall T C al (k : cmd T C) i (st st' : state T C) j,
  match k with
  | EachMut i' _ _ | ZipMut i' _ _ _ | FillWith i' _ _ | Fill i' _ _ _ | SetAt i' _ _ _ | SetLinear i' _ _ _
  | Halves i' _ _ _ _ _ _ => i' = i
  | Own _ => False
  end ->
  exec al k st = Done tt st' -> j <> i -> var st' j = var st j.
Proof.
  assert (G : forall T C A (m : M (tensor T * world T C) A) i (st st' : state T C) j,
    on_var i m st = Done tt st' -> j <> i -> var st' j = var st j).
  { intros T C A m i st st' j. unfold on_var. destruct (var st i) as [t|]; [|intros [= <-]; auto].
    destruct (m (t, st_w st)) as [a [t' w']|[t' w']| |]; try discriminate; intros [= <-] NE;
      unfold var, set_var; cbn [st_vars]; rewrite nth_error_upd_other by auto; reflexivity. }
  intros T C al k i st st' j HK E NE. destruct k; try contradiction; subst; cbn [exec] in E; eapply G; eauto.
Qed.
Print Assumptions c72_others.

(** Operands that are expression trees are admitted. *)
Theorem c72_operand : forall Y n v (tr : tree Y) e,
  valid_view n v -> t_leaves tr -> t_build tr = Ok e -> t_safe tr ->
  (operand_fits (v_dims v) tr -> t_fine (with_target n v tr)) -> vzips n v e.
Proof. exact @tree_vzips. Qed.
Print Assumptions c72_operand.

(** A program that fills columns with a panicking closure, drains the tensor it had just written to,
    and writes again through a view whose extent it computes from the state. *)
Definition ex_program : list (state Z Z -> cmd Z Z) :=
  [fun _ => Own (FromVec [1; 2; 3; 4; 5; 6] 6);
   fun _ => Own (IntoShape 0 ty2 [2; 3]);
   fun _ => FillWith 0 ex_cols third;
   fun _ => Own (DrainTake 0 (Included 1) Unbounded 1);
   fun st => match var st 0 with
             | Some t => SetLinear 0 [] (zlen (tn_mem t) - 1) (fun x c => Edit (Some (x + 1)) c true)
             | None => Own (Drop 0)
             end].
Example c72_example_ok : prog_ok al0 ex_program (start 0).
Proof.
  unfold ex_program.
  split; [vm_compute; discriminate|after_step].
  split; [split; [wf_tac|split; [reflexivity|wf_tac]]|after_step].
  split.
  { intros t H. vm_compute in H. injection H as <-. split; [exact ex_cols_arg|]. intros v E. vm_compute in E. injection E as <-.
    apply positive_visits. vm_compute. repeat constructor. }
  after_step. split.
  { split; [cbn; unfold usize, usize_max; lia|]. split; [exact I|]. intros t H. vm_compute in H. injection H as <-. vm_compute. discriminate. }
  after_step. split; [|intros ? _; exact I].
  intros t H. vm_compute in H. injection H as <-. split; [split; [|split; [apply small_len; reflexivity|exact I]]|].
  - cbn [t23 tn_dims]. apply small_dims. reflexivity.
  - intros v _. vm_compute. discriminate.
Qed.
Example c72_example : exists st, run_prog al0 ex_program (start 0) = Done tt st /\
  st_vars st = [Some (mkTensor ty2 [1; 3] [1; 101; 101] 6)] /\
  w_made (st_w st) = [1; 2; 3; 4; 5; 6; 100; 101; 101] /\ w_used (st_w st) = [4] /\
  w_dropped (st_w st) = [3; 2; 5; 6; 100].
Proof. eexists. vm_all. Qed.
Example c72_clean_example :
  Forall (fun k => forall s : state Z Z, match k s with Own (ZipWith _ _ _) | Own (DrainLeak _ _ _ _) => False | _ => True end) ex_program.
Proof. unfold ex_program. repeat (apply Forall_cons; [intros s; try destruct (var s 0); exact I|]). apply Forall_nil. Qed.
