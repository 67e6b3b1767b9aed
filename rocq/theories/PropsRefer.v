(** Theorems for C78: programs do what a reference interpreter says.

    Refer.v has the interpreter: arrays are sizes and a list of elements, views are the indices that they select, and
    [r_run p s] is the state after the actions [p].  [code k] is the call of the library that the action [k] stands for,
    [seen st] is what can be seen of a state of the library: the shape types, sizes and elements of the arrays, what the
    user's code has captured, and the elements that were handed out.  [acts_ok p s] is what is asked of a program; it
    speaks about states of the interpreter only. *)
From Verif Require Import Base Spec SpecFacts Shape Mapping Index View Wf MappingFacts MapOps
  ReshapeFacts IndexFacts ViewFacts ViewMore PropsView.
From Verif Require Import Expr ExprSpec ExprFacts IterFacts SourceFacts ExprTree ExprMore PropsExpr.
From Verif Require Import Tensor TraceFacts TensorSpec TensorFacts ResizeFacts TensorOps DrainFacts OwnFacts
  ZipFacts OwnMore OpsFacts History HistoryFacts OwnProps PropsTensor PropsMore Program ProgramFacts PropsProgram.
From Verif Require Import Select SelectFacts PropsSelect Refer ReferFacts.
Unset Strict Implicit.

(** ** C78 *)

(** One call of the library does to what can be seen what the interpreter says; nothing becomes inconsistent. *)
Theorem c78_step : forall T C al (k : act T C) (st : state T C) l,
  (forall n, al_ok al n = true) -> consistent st l -> act_ok k (seen st) ->
  exists st' more, exec al (code k st) st = Done tt st' /\ consistent st' (l ++ more) /\ seen st' = r_do k (seen st).
Proof. intros T C al k st l Hal. now apply do_step. Qed.
Print Assumptions c78_step.

(** So do programs, from any consistent state. *)
Theorem c78_run : forall T C al (p : list (act T C)) (st : state T C) l,
  (forall n, al_ok al n = true) -> consistent st l -> acts_ok p (seen st) ->
  exists st' more, run_prog al (map code p) st = Done tt st' /\ consistent st' (l ++ more) /\ seen st' = r_run p (seen st).
Proof. intros T C al p st l Hal. now apply run_refers. Qed.
Print Assumptions c78_run.

(** Every array of the interpreter is in the same variable of the library with the same type, sizes and elements; reading
    any view of it gives the elements that the interpreter has there; views that the interpreter refuses panic. *)
Theorem c78_reads : forall T C al (p : list (act T C)) (c : C),
  (forall n, al_ok al n = true) -> acts_ok p (mkRef [] c []) ->
  let s := r_run p (mkRef [] c []) in
  exists st, run_prog al (map code p) (start c) = Done tt st /\ w_clo (st_w st) = r_clo s /\ w_used (st_w st) = r_out s /\
    length (st_vars st) = length (r_vars s) /\
    forall i,
      match rvar s i with
      | None => var st i = None
      | Some a => exists t, var st i = Some t /\ tn_ty t = a_ty a /\ tn_dims t = a_dims a /\ tn_mem t = a_els a /\
          forall ops, views a ops ->
            if chain_works (a_dims a) ops
            then exists v, v_run (whole (tn_ty t) (tn_dims t)) ops = Ok v /\ v_dims v = chain_dims (a_dims a) ops /\
                   Forall2 (fun idx x => v_get (tn_mem t) v idx = Ok x) (indices (v_dims v)) (view_els a ops)
            else v_run (whole (tn_ty t) (tn_dims t)) ops = Panic
      end.
Proof.
  intros T C al p c Hal HO s. destruct (@c78_run T C al p (start c) [] Hal (start_consistent c) HO) as (st & more & E & HC & S).
  exists st. split; [exact E|]. assert (HS : s = seen st) by (symmetry; exact S). rewrite HS.
  split; [reflexivity|]. split; [reflexivity|]. split; [unfold seen; cbn [r_vars]; now rewrite map_length|].
  intros i. rewrite rvar_seen. destruct (var st i) as [t|] eqn:EV; cbn [option_map]; [|reflexivity].
  exists t. split; [reflexivity|]. cbn [as_arr a_ty a_dims a_els]. do 3 (split; [reflexivity|]). intros ops HV.
  destruct (views_run (var_ok HC EV) HV) as [_ [(EP & K & _)|(v & EK & K & _ & D & _ & _ & X)]]; rewrite K; [exact EP|].
  exists v. split; [exact EK|]. split; [exact D|]. exact X.
Qed.
Print Assumptions c78_reads.

(** Programs that the interpreter does not tell apart cannot be told apart; the allocator makes no difference. *)
Theorem c78_same : forall T C al al' (p q : list (act T C)) (c : C),
  (forall n, al_ok al n = true) -> (forall n, al_ok al' n = true) ->
  acts_ok p (mkRef [] c []) -> acts_ok q (mkRef [] c []) -> r_run p (mkRef [] c []) = r_run q (mkRef [] c []) ->
  exists st st', run_prog al (map code p) (start c) = Done tt st /\ run_prog al' (map code q) (start c) = Done tt st' /\
    seen st = seen st'.
Proof.
  intros T C al al' p q c H1 H2 P Q E.
  destruct (@c78_run T C al p (start c) [] H1 (start_consistent c) P) as (st & _ & E1 & _ & S1).
  destruct (@c78_run T C al' q (start c) [] H2 (start_consistent c) Q) as (st' & _ & E2 & _ & S2).
  exists st, st'. split; [exact E1|]. split; [exact E2|]. rewrite S1, S2. exact E.
Qed.
Print Assumptions c78_same.

(** ** A program *)

(** A 2x3 array; a clone of it; row 1 of the first is added to row 0 of the second; the reversed rows of the first are
    appended to the second and its first row is drained, one element being taken; a counter is written to column 1;
    an element is set through the transposed view; the lower half is copied to the upper half; finally the two are
    zipped, the code panicking at the sixth element, and what is left is refused a shape. *)
Definition ex_acts : list (act Z Z) :=
  let keep := fun (x : Z) c => Gives x (c + 1) in
  [ AFromVec [1; 2; 3; 4; 5; 6];
    AIntoShape 0 (STuple [DDyn; DDyn]) [2; usize_max];
    AClone 0 keep;
    AZipEach 1 [OpView [IxUsize 0; IxFull]] 0 [OpView [IxUsize 1; IxFull]] (fun x y c => Edit (Some (x + y)) c true);
    AExpand 1 0 [OpView [IxStep Unbounded Unbounded (-1); IxFull]] keep;
    ADrain 1 (Included 0) (Excluded 1) 1;
    AFillWith 1 [OpCol 1] (fun c => Gives (10 * c) (c + 1));
    ASetAt 1 [OpReorder] [2; 0] (fun x c => Edit (Some (- x)) c true);
    AHalves 1 [OpView [IxRange (Included 1) Unbounded; IxFull]] AxCols 1 [] [] (fun x y c => Edit (Some y) c true);
    ATruncate 1 2;
    AZipWith 1 0 [] (fun xy c => if c <? 20 then Gives (fst xy + snd xy) (c + 1) else Throws c);
    AIntoShape 0 (STuple [DDyn; DDyn]) [4; 2];
    AClear 1 ].

Lemma lends_works {T C} i j ops (s : rstate T C) b : i <> j -> rvar s j = Some b -> views b ops ->
  chain_works (a_dims b) ops = true -> lends i j ops s.
Proof.
  intros H1 H2 H3 H4. split; [exact H1|]. exists b. split; [exact H2|]. split; [exact H3|].
  apply chain_works_spec in H4; [exact H4|apply H3].
Qed.
Local Ltac views_it :=
  split; [repeat constructor|]; split; [discriminate|]; split; [cbn; lia|]; split; [cbn; repeat split; auto; try lia; repeat constructor; try discriminate|reflexivity].
Local Ltac lends_it := eapply lends_works; [discriminate|reflexivity|views_it|reflexivity].
Local Ltac pos_it := cbn; repeat constructor.

Lemma ex_acts_ok : acts_ok ex_acts (mkRef [] 0 []).
Proof.
  unfold ex_acts. cbv zeta.
  repeat (match goal with |- acts_ok (?k :: ?p) ?s => let s' := eval vm_compute in (r_do k s) in
    change (act_ok k s /\ acts_ok p (r_do k s)); replace (r_do k s) with s' by (vm_compute; reflexivity); split end);
  unfold act_ok, on; try match goal with |- context [rvar ?s ?i] => let a := eval vm_compute in (rvar s i) in change (rvar s i) with a end; cbv iota beta;
  unfold one_ok; cbn [a_dims a_els a_ty].
  - exact I.
  - split; [repeat constructor; discriminate|]. split; [reflexivity|]. split; [repeat constructor|]. intros ds E. injection E as <-. intros [F|[F|[]]]; discriminate F.
  - exact I.
  - split; [views_it|]. split; [lends_it|]. intros _. pos_it.
  - split; [lends_it|]. intros b E. injection E as <-. right. left. pos_it.
  - split; [split; discriminate|]. split; [split; discriminate|discriminate].
  - split; [views_it|]. intros _. right. left. pos_it.
  - split; [views_it|repeat constructor; discriminate].
  - split; [views_it|]. split; [views_it|]. intros _. pos_it.
  - discriminate.
  - split; [lends_it|pos_it].
  - split; [repeat constructor; discriminate|]. split; [reflexivity|]. split; [repeat constructor|]. intros ds E. injection E as <-. intros [F|[F|[]]]; discriminate F.
  - exact I.
  - exact I.
Qed.

(** After ten actions, and at the end, both computed. *)
Example c78_example :
  acts_ok ex_acts (mkRef [] 0 []) /\
  r_run (firstn 10 ex_acts) (mkRef [] 0 []) =
    mkRef [Some (mkArr (STuple [DDyn; DDyn]) [2; 3] [1; 2; 3; 4; 5; 6]);
           Some (mkArr (STuple [DDyn; DDyn]) [2; 3] [4; 120; -6; 1; 140; 3])] 15 [5] /\
  r_run ex_acts (mkRef [] 0 []) = mkRef [None; None] 20 [5; 4; 120; -6; 1; 140; 3] /\
  exists st10 st, run_prog al0 (map code (firstn 10 ex_acts)) (start 0) = Done tt st10 /\
    seen st10 = r_run (firstn 10 ex_acts) (mkRef [] 0 []) /\
    run_prog al0 (map code ex_acts) (start 0) = Done tt st /\ seen st = r_run ex_acts (mkRef [] 0 []).
Proof.
  split; [exact ex_acts_ok|]. split; [vm_compute; reflexivity|]. split; [vm_compute; reflexivity|].
  do 2 eexists. split; [vm_compute; reflexivity|]. split; [vm_compute; reflexivity|]. split; vm_compute; reflexivity.
Qed.

(** A loop over all elements and one over the rows of the transposed view are the same program. *)
Example c78_same_example :
  let double := fun (x : Z) (c : Z) => Edit (Some (2 * x)) c true in
  let p := [AFromVec [1; 2; 3; 4]; AIntoShape 0 (STuple [DDyn; DDyn]) [2; 2]; AEach 0 [] double] in
  let q := [AFromVec [1; 2; 3; 4]; AReserve 0 9; AIntoShape 0 (STuple [DDyn; DDyn]) [2; 2]; AEach 0 [OpReorder] double; AShrink 0 0] in
  r_run p (mkRef [] 0 []) = r_run q (mkRef [] 0 []) /\
  r_run p (mkRef [] 0 []) = mkRef [Some (mkArr (STuple [DDyn; DDyn]) [2; 2] [2; 4; 6; 8])] 0 [].
Proof. split; vm_compute; reflexivity. Qed.


(** User code that panics: at the third clone in [clone_from] (the sizes stay, two elements are new), at the first new
    element of [resize_with] (nothing changes), at the third clone in [expand] and at the second element of [extend]
    (everything is lost). *)
Definition ex_panics : list (act Z Z) :=
  let third := fun (x : Z) c => if c mod 3 =? 2 then Throws (c + 1) else Gives x (c + 1) in
  [ AFromVec [1; 2; 3; 4; 5; 6];
    AIntoShape 0 (STuple [DDyn; DDyn]) [2; 3];
    AFromVec [7; 8; 9];
    AIntoShape 1 (STuple [DDyn; DDyn]) [1; 3];
    AResize 1 [2; 3] 0 (fun x c => Gives x c);
    ACloneFrom 0 1 third;
    AResizeWith 0 [3; 3] (fun c => Throws c);
    AExpand 1 0 [] third;
    AFromVec [5];
    AExtend 2 [(fun c => Gives 1 c); (fun c => Throws (c + 1))] ].
Lemma ex_panics_ok : acts_ok ex_panics (mkRef [] 0 []).
Proof.
  unfold ex_panics. cbv zeta.
  repeat (match goal with |- acts_ok (?k :: ?p) ?s => let s' := eval vm_compute in (r_do k s) in
    change (act_ok k s /\ acts_ok p (r_do k s)); replace (r_do k s) with s' by (vm_compute; reflexivity); split end);
  unfold act_ok, on; try match goal with |- context [rvar ?s ?i] => let a := eval vm_compute in (rvar s i) in change (rvar s i) with a end; cbv iota beta;
  unfold one_ok; cbn [a_dims a_els a_ty]; try exact I.
  1, 2: split; [repeat constructor; discriminate|]; split; [reflexivity|]; split; [repeat constructor|]; intros ds E; injection E as <-; intros [F|[F|[]]]; discriminate F.
  - split; [repeat constructor; discriminate|reflexivity].
  - split; [discriminate|]. intros b E. injection E as <-. reflexivity.
  - split; [repeat constructor; discriminate|reflexivity].
  - split; [lends_it|]. intros b E. now left.
  - reflexivity.
Qed.
Example c78_panics_example :
  acts_ok ex_panics (mkRef [] 0 []) /\
  r_run (firstn 7 ex_panics) (mkRef [] 0 []) =
    mkRef [Some (mkArr (STuple [DDyn; DDyn]) [2; 3] [7; 8; 3; 4; 5; 6]); Some (mkArr (STuple [DDyn; DDyn]) [2; 3] [7; 8; 9; 0; 0; 0])] 3 [] /\
  r_run ex_panics (mkRef [] 0 []) =
    mkRef [Some (mkArr (STuple [DDyn; DDyn]) [2; 3] [7; 8; 3; 4; 5; 6]); Some (mkArr (STuple [DDyn; DDyn]) [0; 0] []);
           Some (mkArr (STuple [DDyn]) [0] [])] 7 [] /\
  exists st, run_prog al0 (map code ex_panics) (start 0) = Done tt st /\ seen st = r_run ex_panics (mkRef [] 0 []).
Proof.
  split; [exact ex_panics_ok|]. split; [vm_compute; reflexivity|]. split; [vm_compute; reflexivity|].
  eexists. split; vm_compute; reflexivity.
Qed.
