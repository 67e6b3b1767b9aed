(** The operations of DtorMore.v drop the same elements in the same order as those without destructors. *)
From Verif Require Import Base Spec SpecFacts Shape Mapping Index View Wf MappingFacts MapOps ReshapeFacts.
From Verif Require Import IndexFacts ViewFacts ViewMore Expr ExprSpec ExprFacts IterFacts SourceFacts ExprTree ExprMore.
From Verif Require Import Tensor TraceFacts TensorSpec TensorFacts ResizeFacts TensorOps DrainFacts OwnFacts ZipFacts.
From Verif Require Import History HistoryFacts Ops Serde Nested Dtor DtorFacts DtorMore.
Unset Strict Implicit.

Section Facts.
  Context {T C : Type} (dtor : T -> C -> call unit C) (al : allocator).
  Notation W := (world T C).

  Lemma drop_seq_app b xs ys c :
    drop_seq dtor b (xs ++ ys) c =
    match drop_seq dtor b xs c with
    | Quiet c => drop_seq dtor false ys c
    | Loud c => drop_seq dtor true ys c
    | Twice => Twice
    end.
  Proof.
    revert b c. induction xs as [|x xs IH]; intros b c; cbn [app drop_seq]; [now destruct b|].
    destruct (dtor x c); [apply IH|]. destruct b; [reflexivity|apply IH].
  Qed.

  Lemma drop_seq_loud xs c : (exists c', drop_seq dtor true xs c = Loud c') \/ drop_seq dtor true xs c = Twice.
  Proof. destruct (drop_seq_cases dtor true xs c) as [H|[[H _]|[H _]]]; auto. discriminate. Qed.

  Lemma drop_drop xs ys c c' (w : W) : w_drop ys (w_set c' (w_drop xs (w_set c w))) = w_drop (xs ++ ys) (w_set c' w).
  Proof. unfold w_drop, w_set. cbn. now rewrite app_assoc. Qed.
  Lemma drop_app xs ys (w : W) : w_drop ys (w_drop xs w) = w_drop (xs ++ ys) w.
  Proof. unfold w_drop. cbn. now rewrite app_assoc. Qed.

  Lemma unwinding_nil {A} (w : W) : unwinding (A := A) dtor [] w (fun w => w) = Unwound w.
  Proof. unfold unwinding. cbn [drop_seq]. unfold w_drop, w_set. rewrite app_nil_r. now destruct w. Qed.
  Lemma dropping_nil {A} (a : A) (w : W) : dropping dtor [] w a (fun w => w) = Done a w.
  Proof. unfold dropping. cbn [drop_seq]. unfold w_drop, w_set. rewrite app_nil_r. now destruct w. Qed.

  (** Dropping in two steps. *)
  Lemma unwinding_then {A B} xs ys (w : W) :
    match unwinding (A := A) dtor xs w (fun w => w) with
    | Unwound w => unwinding (A := B) dtor ys w (fun w => w)
    | Done _ _ => Fault
    | Aborted => Aborted
    | Fault => Fault
    end = unwinding dtor (xs ++ ys) w (fun w => w).
  Proof.
    unfold unwinding at 1 3. rewrite drop_seq_app. destruct (drop_seq_loud xs (w_clo w)) as [(c & ->)| ->]; [|reflexivity].
    unfold unwinding. cbn [w_drop w_set w_clo]. destruct (drop_seq_loud ys c) as [(c' & ->)| ->]; [|reflexivity].
    now rewrite <- (@drop_drop xs ys c c' w).
  Qed.

  (** [rd] is [r] with the elements dropped being given to the destructors; before that nothing was dropped. *)
  Definition shed {A} (D : list T) (r rd : result W A) : Prop :=
    match r with
    | Done a w => rd = Done a w /\ w_dropped w = D
    | Unwound w => exists ds w1, w = w_drop ds w1 /\ w_dropped w1 = D /\ rd = unwinding dtor ds w1 (fun w => w)
    | Aborted => rd = Aborted
    | Fault => rd = Fault
    end.

  Lemma shed_done {A} (a : A) (w : W) : shed (w_dropped w) (Done a w) (Done a w).
  Proof. split; reflexivity. Qed.
  Lemma shed_unwound {A} D (w : W) : w_dropped w = D -> shed (A := A) D (Unwound w) (Unwound w).
  Proof. intros H. exists [], w. rewrite w_drop_nil, unwinding_nil. auto. Qed.
  Lemma shed_drop {A} D xs (w : W) : w_dropped w = D -> shed (A := A) D (Unwound (w_drop xs w)) (unwinding dtor xs w (fun w => w)).
  Proof. intros H. exists xs, w. auto. Qed.

  Lemma shed_seq {A B} D (m md : M W A) (k kd : A -> M W B) w :
    shed D (m w) (md w) -> (forall a w, w_dropped w = D -> shed D (k a w) (kd a w)) -> shed D (seqM m k w) (seqM md kd w).
  Proof.
    intros H K. unfold seqM. unfold shed in H. destruct (m w) as [a w'|w'| |].
    - destruct H as [-> E]. now apply K.
    - destruct H as (ds & w1 & -> & E & ->). destruct (unwinding_cases dtor (A := A) ds w1 (fun w => w)) as [(c & X)|[X _]].
      + exists ds, w1. split; [reflexivity|]. split; [exact E|]. revert X. unfold unwinding. destruct (drop_seq dtor true ds (w_clo w1)); congruence.
      + exists ds, w1. split; [reflexivity|]. split; [exact E|]. revert X. unfold unwinding. destruct (drop_seq dtor true ds (w_clo w1)); congruence.
    - rewrite H. reflexivity.
    - rewrite H. reflexivity.
  Qed.

  Lemma shed_owning {A} D items (m md : M W A) w :
    shed D (m w) (md w) -> shed D (owning items m w) (owning_d dtor items md w).
  Proof.
    unfold owning, owning_d. unfold shed at 1. destruct (m w) as [a w'|w'| |].
    - intros [-> E]. split; auto.
    - intros (ds & w1 & -> & E & ->). exists (ds ++ items), w1. rewrite drop_app. split; [reflexivity|]. split; [exact E|].
      rewrite <- (@unwinding_then A A ds items w1).
      destruct (unwinding_cases dtor (A := A) ds w1 (fun w => w)) as [(c & ->)|[-> _]]; reflexivity.
    - now intros ->.
    - now intros ->.
  Qed.

  Lemma shed_lift {A} (o : outcome A) (w : W) : shed (w_dropped w) (lift o w) (lift o w).
  Proof. unfold lift. destruct o; try reflexivity; [apply shed_done|now apply shed_unwound]. Qed.
  Lemma shed_ret {A} D (a : A) (w : W) : w_dropped w = D -> shed D (ret a w) (ret a w).
  Proof. intros H. split; auto. Qed.
  Lemma shed_check D b (w : W) : w_dropped w = D -> shed D (check b w) (check b w).
  Proof. intros H. unfold check. destruct b; [split; auto|now apply shed_unwound]. Qed.
  Lemma shed_from_parts D ty dims (items : list T) cap (w : W) :
    w_dropped w = D -> shed D (from_parts ty dims items cap w) (from_parts ty dims items cap w).
  Proof. intros H. unfold from_parts. destruct (_ =? _); [split; auto|reflexivity]. Qed.

  (** ** Arrays *)

  Lemma fill_dropped {Y} n (take : Y -> M W T) ys :
    (forall y w, match take y w with Done _ w' | Unwound w' => w_dropped w' = w_dropped w | _ => True end) ->
    forall (s : list T * W), match fill_array n take ys s with
              | Done _ s' | Unwound s' => w_dropped (snd s') = w_dropped (snd s)
              | _ => True
              end.
  Proof.
    intros H. induction ys as [|y ys IH]; intros s; cbn [fill_array]; [reflexivity|].
    specialize (H y (snd s)). destruct (take y (snd s)) as [x w'|w'| |]; auto.
    destruct (_ <? _); auto. specialize (IH (fst s ++ [x], w')). cbn [snd] in IH.
    destruct (fill_array n take ys _) as [u s'|s'| |]; auto; now rewrite IH.
  Qed.

  Lemma fill_shed {Y} ds dims (take : Y -> M W T) trace rest w :
    (forall y w, match take y w with Done _ w' | Unwound w' => w_dropped w' = w_dropped w | _ => True end) ->
    match array_fill ds dims take trace rest w with
    | Done xs w' => exists ds' w1, w' = w_drop ds' w1 /\ w_dropped w1 = w_dropped w /\
        array_fill_d dtor ds dims take trace rest w =
        match dropping dtor ds' w1 xs (fun w => w) with Unwound w => unwinding dtor xs w (fun w => w) | r => r end
    | Unwound w' => exists ds' w1, w' = w_drop ds' w1 /\ w_dropped w1 = w_dropped w /\
        array_fill_d dtor ds dims take trace rest w = unwinding dtor ds' w1 (fun w => w)
    | r => array_fill_d dtor ds dims take trace rest w = r
    end.
  Proof.
    intros H. unfold array_fill, array_fill_d. destruct (sh_from_dims (STuple ds) dims); auto.
    2:{ exists (rest w), w. auto. }
    pose proof (fill_dropped (sh_len (map dim_default ds)) (fst trace) H ([], w)) as F. cbn [snd] in F.
    unfold seqM. destruct (fill_array _ take (fst trace) ([], w)) as [u [xs w']|[xs w']| |]; auto.
    - unfold lift. destruct (snd trace); auto; cbn [snd] in F.
      + destruct (zlen xs =? _); auto. exists (rest w'), w'. auto.
      + exists (rest w' ++ xs), w'. auto.
    - cbn [snd] in F. exists (rest w' ++ xs), w'. auto.
  Qed.

  Lemma from_expr_shed ds (e : expression T) (w : W) :
    shed (w_dropped w) (ar_from_expr ds e w) (ar_from_expr_d dtor ds e w).
  Proof.
    unfold ar_from_expr, ar_from_expr_d.
    pose proof (@fill_shed T ds (e_dims e) (fun x => fun w => Done x (w_make (w_clo w) x w)) (e_trace e) (fun _ => []) w) as H.
    specialize (H ltac:(reflexivity)). unfold array_fill, array_fill_d in *.
    destruct (sh_from_dims (STuple ds) (e_dims e)); auto.
    pose proof (@fill_dropped T (sh_len (map dim_default ds)) (fun x => fun w => Done x (w_make (w_clo w) x w)) (fst (e_trace e)) ltac:(reflexivity) ([], w)) as F.
    destruct ((fill_array _ _ _ ;;; _) ([], w)) as [u [xs w']|[xs w']| |] eqn:E; auto.
    destruct (zlen xs =? _); auto. unfold shed. rewrite dropping_nil, w_drop_nil. split; [reflexivity|].
    unfold seqM in E. destruct (fill_array _ _ _ _) as [u1 [xs1 w1]|[xs1 w1]| |]; try discriminate.
    unfold lift in E. destruct (snd (e_trace e)); try discriminate. injection E as <- <- <-. exact F.
  Qed.

  Lemma drop_inj xs ys (w w1 : W) : w_drop xs w = w_drop ys w1 -> w_dropped w = w_dropped w1 -> xs = ys /\ w = w1.
  Proof.
    destruct w, w1. unfold w_drop. cbn. intros H ->. injection H as -> -> -> H. apply app_inv_head in H. now subst.
  Qed.

  (** What [array_fill] does when it drops nothing unless it panics. *)
  Lemma fill_exact {Y} ds dims (take : Y -> M W T) trace rest w :
    (forall y w, match take y w with Done _ w' | Unwound w' => w_dropped w' = w_dropped w | _ => True end) ->
    (forall xs w', array_fill ds dims take trace rest w = Done xs w' -> w_dropped w' = w_dropped w ->
       array_fill_d dtor ds dims take trace rest w = Done xs w') /\
    (forall es w1, array_fill ds dims take trace rest w = Unwound (w_drop es w1) -> w_dropped w1 = w_dropped w ->
       array_fill_d dtor ds dims take trace rest w = unwinding dtor es w1 (fun w => w)).
  Proof.
    intros H. pose proof (@fill_shed Y ds dims take trace rest w H) as F. split.
    - intros xs w' E D. rewrite E in F. destruct F as (es & w1 & EW & D1 & ->).
      assert (X : w_drop [] w' = w_drop es w1) by now rewrite w_drop_nil.
      apply drop_inj in X; [|congruence]. destruct X as [<- <-]. now rewrite dropping_nil.
    - intros es w1 E D. rewrite E in F. destruct F as (es' & w1' & EW & D1 & ->).
      apply drop_inj in EW; [|congruence]. now destruct EW as [<- <-].
  Qed.

  Lemma into_shape_shed ds ds' l (w : W) : shed (w_dropped w) (ar_into_shape ds ds' l w) (ar_into_shape_d dtor ds ds' l w).
  Proof.
    unfold ar_into_shape, ar_into_shape_d. apply shed_owning. apply shed_seq; [apply shed_lift|].
    intros n w1 E. apply shed_seq; [now apply shed_check|]. intros [] w2 E2. now apply shed_ret.
  Qed.

  Lemma into_scalar_shed ds l (w : W) : shed (w_dropped w) (ar_into_scalar ds l w) (ar_into_scalar_d dtor ds l w).
  Proof.
    unfold ar_into_scalar, ar_into_scalar_d. apply shed_seq.
    - apply shed_owning. apply shed_seq; [apply shed_lift|]. intros n w1 E. now apply shed_check.
    - intros [] w1 E. apply shed_seq; [rewrite <- E; apply into_shape_shed|]. intros l' w2 E2.
      destruct l' as [|x [|]]; try reflexivity. now apply shed_ret.
  Qed.

  Lemma from_tensor_shed ds (t : tensor T) (w : W) : shed (w_dropped w) (ar_from_tensor ds t w) (ar_from_tensor_d dtor ds t w).
  Proof.
    unfold ar_from_tensor, ar_from_tensor_d. apply shed_owning. unfold array_fill, array_fill_d.
    destruct (sh_from_dims (STuple ds) (tn_dims t)); try reflexivity.
    2:{ exists [], w. auto. }
    pose proof (@fill_dropped T (sh_len (map dim_default ds)) (fun x w => Done x w) (fst (e_trace (e_into (tn_ty t) (tn_dims t) (tn_mem t)))) ltac:(reflexivity) ([], w)) as F.
    destruct ((fill_array _ _ _ ;;; _) ([], w)) as [u [xs w']|[xs w']| |] eqn:E; try reflexivity.
    - destruct (zlen xs =? _); try reflexivity. unfold shed. rewrite dropping_nil, w_drop_nil. split; [reflexivity|].
      unfold seqM in E. destruct (fill_array _ _ _ _) as [u1 [xs1 w1]|[xs1 w1]| |]; try discriminate.
      unfold lift in E. destruct (snd (e_trace _)); try discriminate. injection E as <- <- <-. exact F.
    - exists ([] ++ xs), w'. split; [reflexivity|]. split; [|reflexivity].
      unfold seqM in E. destruct (fill_array _ _ _ _) as [u1 [xs1 w1]|[xs1 w1]| |]; try discriminate.
      + unfold lift in E. destruct (snd (e_trace _)); try discriminate. injection E as <- <-. exact F.
      + injection E as <- <-. exact F.
  Qed.

  Lemma from_array_shed ds l (w : W) : shed (w_dropped w) (tn_from_array al ds l w) (tn_from_array_d dtor al ds l w).
  Proof.
    unfold tn_from_array, tn_from_array_d. destruct (ar_length ds) as [len| | |]; try (now apply shed_drop).
    destruct (_ || _); [|now apply shed_drop]. destruct (e_trace _) as [xs [| | |]]; try reflexivity.
    destruct (_ <=? _); [|reflexivity]. now apply shed_from_parts.
  Qed.

  Lemma from_nested_shed ds cs n (w : W) : shed (w_dropped w) (tn_from_nested ds cs n w) (tn_from_nested_d dtor ds cs n w).
  Proof.
    unfold tn_from_nested, tn_from_nested_d. destruct (sh_checked_len cs); [now apply shed_from_parts|now apply shed_drop].
  Qed.

  Lemma clone_nested_shed (clone : T -> C -> call T C) : forall (n : nested T) (w : W),
    shed (w_dropped w) (clone_nested clone n w) (clone_nested_d dtor clone n w).
  Proof.
    fix IH 1. intros [x|l] w; cbn [clone_nested clone_nested_d].
    - destruct (clone x (w_clo w)) as [y c|c]; [split; reflexivity|]. now apply shed_unwound.
    - match goal with |- shed _ (?g [] l w) (?h [] l w) => set (go := g); set (god := h) end.
      enough (G : forall l done w, shed (w_dropped w) (go done l w) (god done l w)) by apply G.
      clear l w. fix IHl 1. intros [|x l] done w.
      + split; reflexivity.
      + change (go done (x :: l)) with (y <- owning (flat_map flatten done) (clone_nested clone x) ;; go (done ++ [y]) l).
        change (god done (x :: l)) with (y <- owning_d dtor (flat_map flatten done) (clone_nested_d dtor clone x) ;; god (done ++ [y]) l).
        apply shed_seq; [apply shed_owning, IH|]. intros y w1 E. rewrite <- E. apply IHl.
  Qed.

  Lemma map_exact ds l (f : T -> C -> call T C) (w : W) :
    fits (map dim_default ds) -> typed (STuple ds) (map dim_default ds) -> zlen l = prodZ (map dim_default ds) ->
    ar_map_d dtor ds l f w =
    let '(rs, c, b) := gives (map f l) (w_clo w) in
    if b then Done rs (worked c rs l w)
    else unwinding dtor (skipn (S (length rs)) l ++ rs) (worked c rs (firstn (S (length rs)) l) w) (fun w => w).
  Proof.
    intros HF TY HL. pose proof (@ar_map_eq T C ds l f w HF TY HL) as H. unfold ar_map in H. unfold ar_map_d.
    rewrite ar_length_fits in * by exact HF.
    match goal with |- array_fill_d dtor ds ?d ?t ?tr ?r w = _ => destruct (@fill_exact T ds d t tr r w) as [HD HU] end.
    { intros y w1. now destruct (f y (w_clo w1)). }
    destruct (gives (map f l) (w_clo w)) as [[rs c] b]. destruct b; [apply HD|apply HU]; auto.
  Qed.

  Lemma zip_exact {Y} ds l (e : expression Y) (f : T * Y -> C -> call T C) (w : W) z ys o :
    fits (map dim_default ds) -> typed (STuple ds) (map dim_default ds) -> zlen l = prodZ (map dim_default ds) ->
    e_zip (e_into (STuple ds) (map dim_default ds) l) e = Ok z -> e_dims z = map dim_default ds ->
    e_trace z = (combine l ys, o) -> (length ys <= length l)%nat -> (o = Ok tt /\ length ys = length l) \/ o = Panic ->
    ar_zip_with_d dtor ds l e f w =
    let '(rs, c, b) := gives (map f (combine l ys)) (w_clo w) in
    if b
    then match o with
         | Ok _ => Done rs (worked c rs l w)
         | _ => unwinding dtor (skipn (length rs) l ++ rs) (worked c rs (firstn (length rs) l) w) (fun w => w)
         end
    else unwinding dtor (skipn (S (length rs)) l ++ rs) (worked c rs (firstn (S (length rs)) l) w) (fun w => w).
  Proof.
    intros HF TY HL EZ ED ET HY HO. pose proof (@ar_zip_with_items T Y C ds l e f w z ys o HF TY HL EZ ED ET HY HO) as H.
    unfold ar_zip_with in H. unfold ar_zip_with_d.
    rewrite ar_length_fits in * by exact HF. cbn [bind] in *. rewrite EZ in *.
    match goal with |- array_fill_d dtor ds ?d ?t ?tr ?r w = _ => destruct (@fill_exact _ ds d t tr r w) as [HD HU] end.
    { intros y w1. now destruct (f y (w_clo w1)). }
    destruct (gives (map f (combine l ys)) (w_clo w)) as [[rs c] b].
    destruct b; [|apply HU; auto]. destruct HO as [[-> _]| ->]; [apply HD|apply HU]; auto.
  Qed.

  Lemma zip_refused {Y} ds l (e : expression Y) (f : T * Y -> C -> call T C) (w : W) :
    e_zip (e_into (STuple ds) (map dim_default ds) l) e = Panic ->
    ar_zip_with_d dtor ds l e f w = unwinding dtor l w (fun w => w).
  Proof.
    intros E. unfold ar_zip_with_d. destruct (ar_length_cases ds) as [H|H].
    - rewrite ar_length_fits by exact H. cbn [bind]. now rewrite E.
    - now rewrite H.
  Qed.

  (** ** Deserialization *)

  (** The same for operations that can fail: an error drops elements as well, outside of a panic. *)
  Definition wshed {A} (D : list T) (r rd : result W (option A)) : Prop :=
    match r with
    | Done (Some a) w => rd = Done (Some a) w /\ w_dropped w = D
    | Done None w => exists ds w1, w = w_drop ds w1 /\ w_dropped w1 = D /\ rd = dropping dtor ds w1 None (fun w => w)
    | Unwound w => exists ds w1, w = w_drop ds w1 /\ w_dropped w1 = D /\ rd = unwinding dtor ds w1 (fun w => w)
    | Aborted => rd = Aborted
    | Fault => rd = Fault
    end.
  Definition pshed {A} (D : list T) (r rd : result (parts T C) (option A)) : Prop :=
    match r with
    | Done (Some a) p => rd = Done (Some a) p /\ w_dropped (p_w p) = D
    | Done None p => exists ds p1, p = parts_w (w_drop ds (p_w p1)) p1 /\ w_dropped (p_w p1) = D /\
                       rd = dropping dtor ds (p_w p1) None (fun w => parts_w w p1)
    | Unwound p => exists ds p1, p = parts_w (w_drop ds (p_w p1)) p1 /\ w_dropped (p_w p1) = D /\
                     rd = unwinding dtor ds (p_w p1) (fun w => parts_w w p1)
    | Aborted => rd = Aborted
    | Fault => rd = Fault
    end.

  Lemma parts_eta (p : parts T C) : parts_w (w_drop [] (p_w p)) p = p.
  Proof. rewrite w_drop_nil. now destruct p. Qed.
  Lemma set_eta (w : W) : w_drop [] (w_set (w_clo w) w) = w.
  Proof. unfold w_drop, w_set. rewrite app_nil_r. now destruct w. Qed.

  Lemma pshed_none {A} D (p : parts T C) : w_dropped (p_w p) = D -> pshed (A := A) D (Done None p) (Done None p).
  Proof.
    intros H. exists [], p. rewrite parts_eta. split; [reflexivity|]. split; [exact H|].
    unfold dropping. cbn [drop_seq]. rewrite set_eta. now destruct p.
  Qed.
  Lemma pshed_unwound {A} D (p : parts T C) : w_dropped (p_w p) = D -> pshed (A := A) D (Unwound p) (Unwound p).
  Proof.
    intros H. exists [], p. rewrite parts_eta. split; [reflexivity|]. split; [exact H|].
    unfold unwinding. cbn [drop_seq]. rewrite set_eta. now destruct p.
  Qed.

  (** Actions on the parts that drop nothing. *)
  Definition still {A} (m : M (parts T C) A) : Prop :=
    forall p, match m p with Done _ p' | Unwound p' => w_dropped (p_w p') = w_dropped (p_w p) | _ => True end.
  Lemma still_seq {A B} (m : M (parts T C) A) (k : A -> M (parts T C) B) : still m -> (forall a, still (k a)) -> still (seqM m k).
  Proof.
    intros H K p. unfold seqM. specialize (H p). destruct (m p) as [a p'|p'| |]; auto.
    specialize (K a p'). destruct (k a p'); auto; now rewrite K.
  Qed.
  Lemma still_reserve n : still (vec_reserve al n).
  Proof. intros p. unfold vec_reserve. destruct (_ <=? _); [reflexivity|]. destruct (al_ok _ _); reflexivity. Qed.
  Lemma still_check b : still (check b).
  Proof. intros p. unfold check. now destruct b. Qed.
  Lemma still_lift {A} (o : outcome A) : still (lift o).
  Proof. intros p. unfold lift. now destruct o. Qed.
  Lemma still_store ty dims : still (p_store ty dims).
  Proof. apply still_seq; [apply still_lift|]. intros d p. reflexivity. Qed.
  Lemma still_into_vec (t : tensor T) : still (tn_into_vec t).
  Proof. intros p. unfold tn_into_vec, ret. now destruct (to_vec_raw t). Qed.

  Lemma pshed_holding {A B} D items (m : M (parts T C) A) (k kd : A -> M (parts T C) (option B)) p :
    still m -> w_dropped (p_w p) = D ->
    (forall a p, w_dropped (p_w p) = D -> pshed D (k a p) (kd a p)) ->
    pshed D (seqM (holding items m) k p) (seqM (holding_d dtor items m) kd p).
  Proof.
    intros H E K. unfold seqM, holding, holding_d. specialize (H p). destruct (m p) as [a p'|p'| |]; try reflexivity.
    - apply K. congruence.
    - exists items, p'. split; [reflexivity|]. split; [congruence|].
      unfold unwinding. destruct (drop_seq dtor true items (w_clo (p_w p'))); reflexivity.
  Qed.
  Lemma pshed_still {A B} D (m : M (parts T C) A) (k kd : A -> M (parts T C) (option B)) p :
    still m -> w_dropped (p_w p) = D ->
    (forall a p, w_dropped (p_w p) = D -> pshed D (k a p) (kd a p)) -> pshed D (seqM m k p) (seqM m kd p).
  Proof.
    intros H E K. unfold seqM. specialize (H p). destruct (m p) as [a p'|p'| |]; try reflexivity.
    - apply K. congruence.
    - apply pshed_unwound. congruence.
  Qed.

  Lemma still_write x : still (vec_write x).
  Proof. intros p. unfold vec_write. now destruct (_ <? _). Qed.

  Section Data.
    Context {E : Type} (de : sdata E -> C -> call (option T) C).

    Lemma still_elem v : still (inside_parts (de_elem de v)).
    Proof.
      intros p. unfold inside_parts, de_elem. destruct (de v (w_clo (p_w p))) as [[x|] c|c]; reflexivity.
    Qed.

    Lemma elems_shed l : forall size p,
      pshed (w_dropped (p_w p)) (de_elems al de l size p) (de_elems_d dtor al de l size p).
    Proof.
      induction l as [|v l IH]; intros size p; cbn [de_elems de_elems_d].
      - split; reflexivity.
      - apply pshed_still; [apply still_elem|reflexivity|]. intros [x|] p1 E1.
        + apply pshed_holding; [apply still_reserve|exact E1|]. intros _ p2 E2.
          apply pshed_still; [apply still_write|exact E2|]. intros _ p3 E3. rewrite <- E3. apply IH.
        + now apply pshed_none.
    Qed.

    Lemma append_shed {B} D t (k kd : M (parts T C) (option B)) p :
      w_dropped (p_w p) = D -> (forall p, w_dropped (p_w p) = D -> pshed D (k p) (kd p)) ->
      pshed D ((de_append al t ;;; k) p) ((de_append_d dtor al t ;;; kd) p).
    Proof.
      intros H K.
      assert (X : forall S A B C' (m : M S A) (f : A -> M S B) (g : B -> M S C') s, seqM (seqM m f) g s = seqM m (fun a => seqM (f a) g) s).
      { intros. unfold seqM. now destruct (m s). }
      unfold de_append, de_append_d. rewrite !X. apply pshed_still; [apply still_into_vec|exact H|].
      intros x p1 E1. rewrite !X. apply pshed_holding; [apply still_reserve|exact E1|]. intros _ p2 E2.
      unfold seqM at 1 2. apply K. exact E2.
    Qed.

    Lemma inside_shed {A B} D (m md : M W (option A)) (k kd : option A -> M (parts T C) (option B)) p :
      wshed D (m (p_w p)) (md (p_w p)) ->
      (forall p, k None p = Done None p) -> (forall p, kd None p = Done None p) ->
      (forall a p, w_dropped (p_w p) = D -> pshed D (k (Some a) p) (kd (Some a) p)) ->
      pshed D (seqM (inside_parts m) k p) (seqM (inside_parts md) kd p).
    Proof.
      intros H K0 KD0 K. unfold seqM, inside_parts. unfold wshed in H. destruct (m (p_w p)) as [[a|] w|w| |].
      - destruct H as [-> E1]. apply K. exact E1.
      - destruct H as (ds & w1 & -> & E1 & ->). rewrite K0. exists ds, (parts_w w1 p). cbn [parts_w p_items p_cap p_dims p_w].
        split; [reflexivity|]. split; [exact E1|]. unfold dropping.
        destruct (drop_seq dtor false ds (w_clo w1)); try reflexivity. now rewrite KD0.
      - destruct H as (ds & w1 & -> & E1 & ->). exists ds, (parts_w w1 p). cbn [parts_w p_items p_cap p_dims p_w].
        split; [reflexivity|]. split; [exact E1|]. unfold unwinding.
        destruct (drop_seq dtor true ds (w_clo w1)); reflexivity.
      - rewrite H. reflexivity.
      - rewrite H. reflexivity.
    Qed.

    Lemma rows_shed ty (sub subd : sdata E -> M W (option (tensor T))) hint :
      (forall v w, wshed (w_dropped w) (sub v w) (subd v w)) -> forall l size p,
      pshed (w_dropped (p_w p)) (de_rows al ty sub hint l size p) (de_rows_d dtor al ty subd hint l size p).
    Proof.
      intros HS. induction l as [|v l IH]; intros size p; cbn [de_rows de_rows_d].
      - split; reflexivity.
      - apply inside_shed; [apply HS|reflexivity|reflexivity|]. intros t p1 E1. destruct (size =? 0).
        + apply pshed_holding; [|exact E1|].
          * apply still_seq; [apply still_check|]. intros _. apply still_seq; [apply still_reserve|]. intros _ p2. apply still_store.
          * intros _ p2 E2. apply append_shed; [exact E2|]. intros p3 E3. rewrite <- E3. apply IH.
        + destruct (slice_eqb _ _).
          * apply append_shed; [exact E1|]. intros p3 E3. rewrite <- E3. apply IH.
          * exists (tn_mem t), p1. auto.
    Qed.

    Lemma shape_shed ty dims (t : tensor T) (w : W) :
      shed (w_dropped w) (tn_into_shape ty dims t w) (tn_into_shape_d dtor ty dims t w).
    Proof.
      unfold tn_into_shape, tn_into_shape_d. apply shed_seq.
      - unfold tn_into_vec. destruct (to_vec_raw t); [now apply shed_ret|reflexivity].
      - intros x w1 E1. apply shed_seq; [apply shed_owning; rewrite <- E1; apply shed_lift|].
        intros m w2 E2. now apply shed_from_parts.
    Qed.

    Lemma shed_wshed {A} D (r rd : result W A) :
      shed D r rd -> wshed D (match r with Done a w => Done (Some a) w | Unwound w => Unwound w | Aborted => Aborted | Fault => Fault end)
                            (match rd with Done a w => Done (Some a) w | Unwound w => Unwound w | Aborted => Aborted | Fault => Fault end).
    Proof.
      unfold shed, wshed. destruct r as [a w|w| |].
      - intros [-> E1]. auto.
      - intros (ds & w1 & -> & E1 & ->). exists ds, w1. split; [reflexivity|]. split; [exact E1|].
        unfold unwinding. destruct (drop_seq dtor true ds (w_clo w1)); reflexivity.
      - now intros ->.
      - now intros ->.
    Qed.

    (** Leaving [visit_seq] drops the vector. *)
    Lemma finish_shed ds (m md : M (parts T C) (option Z)) (w : W) :
      (forall p, pshed (w_dropped (p_w p)) (m p) (md p)) -> wshed (w_dropped w) (de_finish ds m w) (de_finish_d dtor ds md w).
    Proof.
      intros H. unfold de_finish, de_finish_d.
      match goal with |- context [(r <- m ;; @?k r) ?p] => set (kk := k); set (p0 := p) end.
      assert (HK : forall a p, w_dropped (p_w p) = w_dropped w -> pshed (w_dropped w) (kk (Some a) p) (kk (Some a) p)).
      { intros a p HE. unfold kk. cbn beta iota. destruct (sh_head (STuple ds)).
        - destruct (a =? _); [split; auto|now apply pshed_none].
        - apply pshed_still; [apply still_store|exact HE|]. intros _ p1 E1. split; auto. }
      assert (HM : pshed (w_dropped w) (seqM m kk p0) (seqM md kk p0)).
      { specialize (H p0). unfold seqM. unfold pshed in H. change (w_dropped (p_w p0)) with (w_dropped w) in H.
        destruct (m p0) as [[a|] p|p| |].
        - destruct H as [-> E1]. now apply HK.
        - destruct H as (es & p1 & -> & E1 & ->). exists es, p1. split; [reflexivity|]. split; [exact E1|].
          unfold dropping. destruct (drop_seq dtor false es (w_clo (p_w p1))); reflexivity.
        - destruct H as (es & p1 & -> & E1 & ->). exists es, p1. split; [reflexivity|]. split; [exact E1|].
          unfold unwinding. destruct (drop_seq dtor true es (w_clo (p_w p1))); reflexivity.
        - now rewrite H.
        - now rewrite H. }
      change (fun x => kk x) with kk. unfold pshed in HM. destruct (seqM m kk p0) as [[a|] p|p| |].
      - destruct HM as [-> E1]. unfold tn_from_vec, from_parts. unfold seqM at 1 3. destruct (zlen (p_items p) =? _); [|reflexivity].
        match goal with |- context [tn_into_shape ?ty ?dims ?t] => pose proof (shed_wshed (shape_shed ty dims t (p_w p))) as X end.
        unfold seqM. rewrite E1 in X.
        destruct (tn_into_shape _ _ _ _) as [t' w'|w'| |]; destruct (tn_into_shape_d _ _ _ _ _) as [t'' w''|w''| |]; exact X.
      - destruct HM as (es & p1 & -> & E1 & ->). cbn [parts_w p_items p_w]. exists (es ++ p_items p1), (p_w p1).
        rewrite drop_app. split; [reflexivity|]. split; [exact E1|].
        unfold dropping at 1 3. rewrite drop_seq_app. destruct (drop_seq dtor false es (w_clo (p_w p1))) as [c|c|]; cbn [parts_w p_items p_w].
        + unfold dropping. cbn [w_drop w_set w_clo]. destruct (drop_seq dtor false (p_items p1) c) as [c'|c'|]; try reflexivity;
            now rewrite <- (@drop_drop es (p_items p1) c c' (p_w p1)).
        + unfold unwinding. cbn [w_drop w_set w_clo]. destruct (drop_seq_loud (p_items p1) c) as [(c' & ->)| ->]; [|reflexivity].
          now rewrite <- (@drop_drop es (p_items p1) c c' (p_w p1)).
        + reflexivity.
      - destruct HM as (es & p1 & -> & E1 & ->). cbn [parts_w p_items p_w]. exists (es ++ p_items p1), (p_w p1).
        rewrite drop_app. split; [reflexivity|]. split; [exact E1|].
        unfold unwinding at 1 3. rewrite drop_seq_app. destruct (drop_seq_loud es (w_clo (p_w p1))) as [(c & ->)| ->]; [|reflexivity].
        cbn [parts_w p_items p_w]. unfold unwinding. cbn [w_drop w_set w_clo].
        destruct (drop_seq_loud (p_items p1) c) as [(c' & ->)| ->]; [|reflexivity].
        now rewrite <- (@drop_drop es (p_items p1) c c' (p_w p1)).
      - now rewrite HM.
      - now rewrite HM.
    Qed.

    Lemma tensor_shed ds : forall v (w : W), wshed (w_dropped w) (de_tensor al de ds v w) (de_tensor_d dtor al de ds v w).
    Proof.
      induction ds as [|d ds IH]; intros v w; cbn [de_tensor de_tensor_d].
      - unfold seqM at 1 3. unfold de_elem. destruct (de v (w_clo w)) as [[x|] c|c].
        + match goal with |- context [tn_into_shape ?ty ?dims ?t] => pose proof (shed_wshed (shape_shed ty dims t (w_make c x w))) as X end.
          unfold seqM.
          destruct (tn_into_shape _ _ _ _) as [t' w'|w'| |]; destruct (tn_into_shape_d _ _ _ _ _) as [t'' w''|w''| |]; exact X.
        + exists [], (w_set c w). rewrite w_drop_nil, dropping_nil. auto.
        + exists [], (w_set c w). rewrite w_drop_nil, unwinding_nil. auto.
      - destruct v as [x|hint l].
        + exists [], w. rewrite w_drop_nil, dropping_nil. auto.
        + apply finish_shed. intros p. destruct ds as [|d' ds'].
          * apply pshed_still; [apply still_reserve|reflexivity|]. intros _ p1 E1. rewrite <- E1. apply elems_shed.
          * apply rows_shed. exact IH.
    Qed.

    Lemma deserialize_shed ty v (w : W) : wshed (w_dropped w) (tn_deserialize al de ty v w) (tn_deserialize_d dtor al de ty v w).
    Proof.
      unfold tn_deserialize, tn_deserialize_d. destruct ty; [|apply tensor_shed].
      exists [], w. rewrite w_drop_nil, unwinding_nil. auto.
    Qed.

    Lemma ar_deserialize_shed ds v (w : W) : wshed (w_dropped w) (ar_deserialize al de ds v w) (ar_deserialize_d dtor al de ds v w).
    Proof.
      unfold ar_deserialize, ar_deserialize_d. destruct ds as [|d ds].
      - unfold seqM, de_elem. destruct (de v (w_clo w)) as [[x|] c|c].
        + split; reflexivity.
        + exists [], (w_set c w). rewrite w_drop_nil, dropping_nil. auto.
        + exists [], (w_set c w). rewrite w_drop_nil, unwinding_nil. auto.
      - pose proof (tensor_shed (d :: ds) v w) as HE. unfold seqM at 1 3. unfold wshed in HE.
        destruct (de_tensor al de (d :: ds) v w) as [[t|] w1|w1| |].
        + destruct HE as [-> E2]. pose proof (shed_wshed (from_tensor_shed (d :: ds) t w1)) as X. rewrite E2 in X. unfold seqM.
          destruct (ar_from_tensor _ _ _) as [t' w'|w'| |]; destruct (ar_from_tensor_d _ _ _ _) as [t'' w''|w''| |]; exact X.
        + destruct HE as (es & w2 & -> & E1 & ->). exists es, w2. split; [reflexivity|]. split; [exact E1|].
          unfold dropping. destruct (drop_seq dtor false es (w_clo w2)); reflexivity.
        + destruct HE as (es & w2 & -> & E1 & ->). exists es, w2. split; [reflexivity|]. split; [exact E1|].
          unfold unwinding. destruct (drop_seq dtor true es (w_clo w2)); reflexivity.
        + now rewrite HE.
        + now rewrite HE.
    Qed.
  End Data.
End Facts.
