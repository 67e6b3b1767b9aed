(** Theorems for C01-C19 and C46: element access and views.

    Vocabulary: [Spec.v] (in-bounds indices, row-major order, selections) and [Wf.v]
    (well-formed views).  [v_get mem v idx] is the Rust expression [v[idx]] run on the storage
    [mem]; [shows v v' f] says that element [idx] of [v'] is the same storage cell as element
    [f idx] of [v]. *)
From Verif Require Import Base Spec SpecFacts Shape Mapping Index View Wf MappingFacts MapOps
  ReshapeFacts IndexFacts ViewFacts ViewMore.
Unset Strict Implicit.

(** Running examples: a storage of 24 cells, the whole array [2;3;4] over it, and a strided
    view with a negative stride. *)
Definition ex_mem : list Z := map (fun i => 100 + i) (zrange 24).
Definition ex_ty : shty := STuple [DDyn; DConst 3; DDyn].
Definition ex_whole : view := whole ex_ty [2; 3; 4].
Definition ex_rev : view := mkView 20 (StridedM ex_ty [2; 3; 2] [-12; -4; 2]).

Example ex_whole_valid : valid_view 24 ex_whole.
Proof. apply whole_valid; repeat constructor; simpl; lia. Qed.

Example ex_rev_valid : valid_view 24 ex_rev.
Proof.
  constructor.
  - repeat constructor; simpl; lia.
  - intros idx H. repeat (inversion H as [|? ? ? ? ? H']; subst; clear H; rename H' into H).
    inversion H; subst. cbv [v_addr ex_rev v_ptr v_map m_offset for_each_stride map seq length fold_left fst snd nth]. lia.
  - intros i j Hi Hj E.
    repeat (inversion Hi as [|? ? ? ? ? Hi']; subst; clear Hi; rename Hi' into Hi). inversion Hi; subst.
    repeat (inversion Hj as [|? ? ? ? ? Hj']; subst; clear Hj; rename Hj' into Hj). inversion Hj; subst.
    cbv [v_addr ex_rev v_ptr v_map m_offset for_each_stride map seq length fold_left fst snd nth] in E.
    repeat f_equal; lia.
Qed.

(** ** Reading through a view *)

(** [shows] is about storage cells; reads agree for every storage content. *)
Theorem shows_reads : forall T (mem : list T) v v' f idx,
  shows v v' f -> in_bounds (v_dims v') idx ->
  in_bounds (v_dims v) (f idx) /\ v_get mem v' idx = v_get mem v (f idx).
Proof. exact shows_reads_lemma. Qed.
Print Assumptions shows_reads.

(** ** C01 *)
Theorem c01_dense_row_major : forall T (mem : list T) ty dims p idx,
  nonneg dims -> typed ty dims -> ty_wf ty ->
  0 <= p -> p + prodZ dims <= Z.of_nat (length mem) -> in_bounds dims idx ->
  exists x, v_get mem (mkView p (DenseM ty dims)) idx = Ok x /\
            nth_error mem (Z.to_nat (p + flat dims idx)) = Some x.
Proof. exact dense_get. Qed.
Print Assumptions c01_dense_row_major.

(** [flat] is a bijection from the in-bounds indices to [0 .. len-1]; row-major order lists
    position [k] as its [k]-th index. *)
Theorem c01_bijection : forall dims,
  nonneg dims ->
  (forall idx, in_bounds dims idx -> 0 <= flat dims idx < prodZ dims) /\
  (forall i j, in_bounds dims i -> in_bounds dims j -> flat dims i = flat dims j -> i = j) /\
  (forall k, 0 <= k < prodZ dims -> exists idx, in_bounds dims idx /\ flat dims idx = k) /\
  map (flat dims) (indices dims) = zrange (prodZ dims).
Proof. exact flat_bijection. Qed.
Print Assumptions c01_bijection.

Example c01_example :
  v_get ex_mem ex_whole [1; 2; 3] = Ok 123 /\ flat [2; 3; 4] [1; 2; 3] = 1 * 12 + 2 * 4 + 3.
Proof. split; reflexivity. Qed.

(** ** C02 *)
Theorem c02_linear : forall T (mem : list T) v k,
  wf_map (v_map v) -> 0 <= k < prodZ (v_dims v) ->
  v_get_linear mem v k = v_get mem v (nth (Z.to_nat k) (indices (v_dims v)) []).
Proof. exact linear_get. Qed.
Print Assumptions c02_linear.

Example c02_example :
  wf_map (v_map ex_rev) /\ v_get_linear ex_mem ex_rev 7 = Ok 110 /\
  nth 7 (indices [2; 3; 2]) [] = [1; 0; 1] /\ v_get ex_mem ex_rev [1; 0; 1] = Ok 110.
Proof. split; [apply (vv_wf ex_rev_valid)|repeat split]. Qed.

(** ** C03 *)
Theorem c03_checked : forall T (mem : list T) v,
  valid_view (Z.of_nat (length mem)) v ->
  (forall idx, in_bounds (v_dims v) idx -> exists x, v_get mem v idx = Ok x) /\
  (forall idx, Forall (fun i => 0 <= i) idx -> ~ in_bounds (v_dims v) idx -> v_get mem v idx = Panic) /\
  (forall k, 0 <= k < prodZ (v_dims v) -> exists x, v_get_linear mem v k = Ok x) /\
  (forall k, prodZ (v_dims v) <= k -> v_get_linear mem v k = Panic).
Proof. exact checked_get. Qed.
Print Assumptions c03_checked.

Example c03_example :
  valid_view (Z.of_nat (length ex_mem)) ex_rev /\
  v_get ex_mem ex_rev [1; 3; 0] = Panic /\ v_get ex_mem ex_rev [1; 2] = Panic /\
  v_get ex_mem ex_rev [1; 2; 1] = Ok 102 /\ v_get_linear ex_mem ex_rev 12 = Panic.
Proof. split; [exact ex_rev_valid|repeat split]. Qed.

(** ** C04, C05 *)
Theorem c04_view : forall v xs,
  wf_map (v_map v) -> Forall ix_arg xs -> Forall (fun d => d <= usize_max) (v_dims v) ->
  length xs = length (v_dims v) -> Forall2 ix_ok (v_dims v) xs ->
  exists v', v_view v xs = Ok v' /\ v_dims v' = sub_dims (v_dims v) xs /\
    wf_map (v_map v') /\ shows v v' (sub_index (v_dims v) xs).
Proof. exact view_ok. Qed.
Print Assumptions c04_view.

Theorem c05_view_panics : forall v xs,
  wf_map (v_map v) -> Forall ix_arg xs -> Forall (fun d => d <= usize_max) (v_dims v) ->
  length xs = length (v_dims v) ->
  (v_view v xs = Panic <-> ~ Forall2 ix_ok (v_dims v) xs) /\
  ((exists v', v_view v xs = Ok v') <-> Forall2 ix_ok (v_dims v) xs).
Proof. exact view_panic_iff. Qed.
Print Assumptions c05_view_panics.

Example c04_example :
  let xs := [IxUsize 1; IxRange (Included 1) Unbounded; IxStep Unbounded Unbounded (-3)] in
  Forall ix_arg xs /\ Forall2 ix_ok [2; 3; 4] xs /\ sub_dims [2; 3; 4] xs = [2; 2] /\
  sub_index [2; 3; 4] xs [1; 1] = [1; 2; 0] /\
  exists v', v_view ex_whole xs = Ok v' /\ v_dims v' = [2; 2] /\ v_get ex_mem v' [1; 1] = Ok 120.
Proof.
  split; [repeat constructor; simpl; unfold usize_max; lia|].
  split; [repeat constructor; simpl; lia|]. split; [reflexivity|]. split; [reflexivity|].
  eexists. split; [vm_compute; reflexivity|]. split; vm_compute; reflexivity.
Qed.

Example c05_example :
  v_view ex_whole [IxFull; IxRange (Included 2) (Excluded 4); IxFull] = Panic /\
  v_view ex_whole [IxFull; IxFull; IxStep Unbounded Unbounded 0] = Panic /\
  exists v', v_view ex_whole [IxFull; IxRange (Included 3) (Excluded 3); IxFull] = Ok v'.
Proof. split; [|split]; [vm_compute; reflexivity..|eexists; vm_compute; reflexivity]. Qed.

Example c05_edges :
  v_view ex_whole [IxFull; IxRange (Included 2) (Excluded 1); IxFull] = Panic /\
  v_view ex_whole [IxFull; IxFull; IxRange (Included 5) (Excluded 5)] = Panic /\
  sub_dims [2; 3; 4] [IxFull; IxRange (Included 1) (Included 2); IxRange (Excluded 0) Unbounded] = [2; 2; 3] /\
  (exists v', v_view ex_whole [IxFull; IxRange (Included 1) (Included 2); IxRange (Excluded 0) Unbounded] = Ok v' /\
     v_dims v' = [2; 2; 3]) /\
  exists v', v_view (whole (STuple [DDyn; DDyn]) [3; 4])
    [IxRange (Included 1) Unbounded; IxRange (Included 0) (Excluded 3)] = Ok v' /\ v_dims v' = [2; 3].
Proof.
  split; [vm_compute; reflexivity|]. split; [vm_compute; reflexivity|]. split; [reflexivity|].
  split; eexists; split; vm_compute; reflexivity.
Qed.

(** ** C06: the positions a step range selects, in closed form.  Together with C04 (whose
    [sub_index] is made of these positions) this describes [view(step(r, s))]. *)
Theorem c06_step_positions : forall d lo hi s,
  ix_ok d (IxStep lo hi s) -> bound_arg lo -> bound_arg hi ->
  let a := range_lo lo in let b := range_hi d hi in
  let ps := ix_positions d (IxStep lo hi s) in
  let n := (b - a + Z.abs s - 1) / Z.abs s in
  Z.of_nat (length ps) = n /\
  (forall k, 0 <= k < n ->
     nth (Z.to_nat k) ps 0 = (if s >? 0 then a + k * s else b - 1 + k * s) /\
     a <= nth (Z.to_nat k) ps 0 < b) /\
  (s > 0 -> forall p, In p ps <-> a <= p < b /\ (p - a) mod s = 0) /\
  (s < 0 -> forall p, In p ps <-> a <= p < b /\ (b - 1 - p) mod (- s) = 0).
Proof. exact step_positions. Qed.
Print Assumptions c06_step_positions.

Example c06_example :
  ix_positions 10 (IxStep (Included 1) (Excluded 9) 3) = [1; 4; 7] /\
  ix_positions 10 (IxStep (Included 1) (Excluded 9) (-3)) = [8; 5; 2] /\
  ix_positions 10 (IxStep (Included 4) (Excluded 4) (-3)) = [] /\
  ix_ok 10 (IxStep (Included 1) (Excluded 9) (-3)).
Proof. repeat split; simpl; lia. Qed.

(** ** C07 *)
Theorem c07_axis_at : forall v a i k,
  wf_map (v_map v) -> is_axis a (length (v_dims v)) i -> 0 <= k < nth i (v_dims v) 0 ->
  exists v', v_axis_at v a k = Ok v' /\ v_dims v' = remove_at i (v_dims v) /\
    wf_map (v_map v') /\ shows v v' (fun idx => insert_at i k idx).
Proof. exact axis_at_ok. Qed.
Print Assumptions c07_axis_at.

Theorem c07_axis_at_panics : forall v a k,
  wf_map (v_map v) -> 0 <= k ->
  (v_axis_at v a k = Panic <->
   ~ exists i, is_axis a (length (v_dims v)) i /\ k < nth i (v_dims v) 0).
Proof. exact axis_at_panic_iff. Qed.
Print Assumptions c07_axis_at_panics.

Example c07_example :
  is_axis AxCols 3 1 /\ is_axis AxRows 3 2 /\ is_axis (AxDyn 0) 3 0 /\
  v_axis_at ex_rev AxCols 3 = Panic /\
  exists v', v_axis_at ex_rev AxCols 2 = Ok v' /\ v_dims v' = [2; 2] /\
    v_get ex_mem v' [1; 0] = v_get ex_mem ex_rev [1; 2; 0].
Proof.
  repeat (split; [simpl; unfold is_axis; lia|]). split; [reflexivity|].
  eexists. split; [vm_compute; reflexivity|]. split; vm_compute; reflexivity.
Qed.

Example c07_edges :
  v_axis_at (whole (STuple [DDyn]) [3]) AxCols 0 = Panic /\ v_axis_at (whole (STuple [DDyn]) [3]) (AxDyn 1) 0 = Panic /\
  v_split_axis_at (whole (STuple [DDyn]) [3]) AxCols 1 = Panic /\
  exists v', v_axis_at ex_whole (AxDyn 1) 2 = Ok v' /\ v_ty v' = STuple [DDyn; DDyn] /\ v_dims v' = [2; 4].
Proof. split; [reflexivity|]. split; [reflexivity|]. split; [reflexivity|]. eexists. repeat split; vm_compute; reflexivity. Qed.

(** ** C08 *)
Theorem c08_split : forall v a i mid,
  wf_map (v_map v) -> is_axis a (length (v_dims v)) i -> 0 <= mid <= nth i (v_dims v) 0 ->
  exists v1 v2, v_split_axis_at v a mid = Ok (v1, v2) /\
    v_dims v1 = upd (v_dims v) i mid /\ v_dims v2 = upd (v_dims v) i (nth i (v_dims v) 0 - mid) /\
    wf_map (v_map v1) /\ wf_map (v_map v2) /\
    shows v v1 (fun idx => idx) /\ shows v v2 (fun idx => upd idx i (nth i idx 0 + mid)).
Proof. exact split_ok. Qed.
Print Assumptions c08_split.

(** Every element is in exactly one half, and the halves share no cell. *)
Theorem c08_partition : forall n v a i mid v1 v2,
  valid_view n v -> is_axis a (length (v_dims v)) i -> 0 <= mid ->
  v_split_axis_at v a mid = Ok (v1, v2) ->
  (forall idx, in_bounds (v_dims v) idx ->
     (in_bounds (v_dims v1) idx /\ nth i idx 0 < mid) \/
     (in_bounds (v_dims v2) (upd idx i (nth i idx 0 - mid)) /\ mid <= nth i idx 0)) /\
  (forall i1 i2, in_bounds (v_dims v1) i1 -> in_bounds (v_dims v2) i2 -> v_addr v1 i1 <> v_addr v2 i2).
Proof. exact split_partition. Qed.
Print Assumptions c08_partition.

Theorem c08_split_panics : forall v a mid,
  wf_map (v_map v) -> 0 <= mid ->
  (v_split_axis_at v a mid = Panic <->
   ~ exists i, is_axis a (length (v_dims v)) i /\ mid <= nth i (v_dims v) 0).
Proof. exact split_panic_iff. Qed.
Print Assumptions c08_split_panics.

Example c08_example : exists v1 v2,
  v_split_axis_at ex_rev AxCols 1 = Ok (v1, v2) /\ v_dims v1 = [2; 1; 2] /\ v_dims v2 = [2; 2; 2] /\
  v_get ex_mem v2 [1; 0; 1] = v_get ex_mem ex_rev [1; 1; 1] /\ v_split_axis_at ex_rev AxCols 4 = Panic.
Proof. do 2 eexists. split; [vm_compute; reflexivity|]. repeat split. Qed.

Example c08_edges : exists v1 v2,
  v_split_axis_at ex_rev AxCols 3 = Ok (v1, v2) /\ v_dims v1 = [2; 3; 2] /\ v_dims v2 = [2; 0; 2].
Proof. do 2 eexists. split; [vm_compute; reflexivity|]. repeat split. Qed.

(** ** C09 *)
Theorem c09_permute : forall v p perm,
  wf_map (v_map v) -> (length (v_dims v) < 64)%nat -> perm_matches p perm ->
  perm_of (length (v_dims v)) perm ->
  exists v' f, v_permute v p perm = Ok v' /\ v_dims v' = pick perm (v_dims v) /\
    wf_map (v_map v') /\ shows v v' f /\
    (forall idx, in_bounds (v_dims v') idx -> pick perm (f idx) = idx).
Proof. exact permute_ok. Qed.
Print Assumptions c09_permute.

Theorem c09_permute_panics : forall v p perm,
  wf_map (v_map v) -> (length (v_dims v) < 64)%nat -> Forall (fun q => 0 <= q) perm ->
  perm_matches p perm ->
  (v_permute v p perm = Panic <-> ~ perm_of (length (v_dims v)) perm).
Proof. exact permute_panic_iff. Qed.
Print Assumptions c09_permute_panics.

Example c09_example :
  perm_of 3 [2; 0; 1] /\ perm_matches (PermTuple [PConst 2; PDyn; PConst 1]) [2; 0; 1] /\
  v_permute ex_whole PermDyn [2; 0; 2] = Panic /\
  exists v', v_permute ex_whole (PermTuple [PConst 2; PDyn; PConst 1]) [2; 0; 1] = Ok v' /\
    v_dims v' = [4; 2; 3] /\ v_get ex_mem v' [3; 1; 2] = v_get ex_mem ex_whole [1; 2; 3].
Proof.
  split. { unfold perm_of. simpl. eapply Permutation_trans; [apply perm_skip, Permutation_refl|].
           apply Permutation_sym. change [2; 0; 1] with ([2] ++ [0; 1]). apply (Permutation_app_comm [0; 1] [2]). }
  split; [repeat constructor|]. split; [vm_compute; reflexivity|].
  eexists. split; [vm_compute; reflexivity|]. split; vm_compute; reflexivity.
Qed.

Example c09_edges : exists v',
  v_permute (whole SDynRank [2; 3; 4]) PermDyn [2; 0; 1] = Ok v' /\ v_dims v' = [4; 2; 3] /\ v_ty v' = SDynRank /\
  m_strides (v_map v') = [1; 12; 4].
Proof. eexists. split; [vm_compute; reflexivity|]. repeat split; reflexivity. Qed.

(** ** C10 *)
Theorem c10_constant_permutation : forall xs perm n l,
  perm_matches (PermTuple xs) perm -> perm_of n perm -> Forall (fun x => x <> PDyn) xs ->
  (perm_arg_layout (PermTuple xs) l = l <-> l = Strided \/ perm = map Z.of_nat (seq 0 n)) /\
  (perm_arg_layout (PermTuple xs) l = l \/ perm_arg_layout (PermTuple xs) l = Strided).
Proof. exact constant_permutation. Qed.
Print Assumptions c10_constant_permutation.

(** If the static layout is dense the run-time permutation is the identity, also with run-time
    entries; so the dense branch never rejects a valid permutation. *)
Theorem c10_dense_is_identity : forall xs l perm n,
  perm_matches (PermTuple xs) perm -> perm_of n perm -> perm_arg_layout (PermTuple xs) l = Dense ->
  l = Dense /\ perm = map Z.of_nat (seq 0 n).
Proof. exact perm_dense_identity. Qed.
Print Assumptions c10_dense_is_identity.

Example c10_example :
  perm_arg_layout (PermTuple [PConst 0; PConst 1; PConst 2]) Dense = Dense /\
  perm_arg_layout (PermTuple [PConst 0; PConst 2; PConst 1]) Dense = Strided.
Proof. split; reflexivity. Qed.

(** ** C11 *)
Theorem c11_reorder : forall v,
  wf_map (v_map v) ->
  exists v', v_reorder v = Ok v' /\ v_dims v' = rev (v_dims v) /\
    wf_map (v_map v') /\ shows v v' (fun idx => rev idx).
Proof. exact reorder_ok. Qed.
Print Assumptions c11_reorder.

Example c11_example : exists v', v_reorder ex_rev = Ok v' /\ v_dims v' = [2; 3; 2] /\
  v_get ex_mem v' [1; 2; 0] = v_get ex_mem ex_rev [0; 2; 1].
Proof. eexists. split; [vm_compute; reflexivity|]. split; vm_compute; reflexivity. Qed.

(** ** C12: which requests are accepted and what dimensions result. *)
Theorem c12_reshape_shape : forall old ty req,
  typed ty req -> const_small ty ->
  (forall dims, sh_reshape old ty req = Ok dims <->
     fits (known req) /\ resolves (prodZ old) req dims) /\
  (sh_reshape old ty req = Panic \/ exists dims, sh_reshape old ty req = Ok dims).
Proof. exact sh_reshape_iff. Qed.
Print Assumptions c12_reshape_shape.

(** ... and the reshaped view has exactly these dimensions. *)
Theorem c12_reshape_view : forall v ty req v',
  wf_map (v_map v) -> Forall usize req -> ty_of_len ty (length req) ->
  v_reshape v ty req = Ok v' -> sh_reshape (v_dims v) ty req = Ok (v_dims v') /\
  prodZ (v_dims v') = prodZ (v_dims v).
Proof. exact reshape_view_dims. Qed.
Print Assumptions c12_reshape_view.

Example c12_example :
  sh_reshape [2; 3; 4] (STuple [DDyn; DDyn]) [6; usize_max] = Ok [6; 4] /\
  sh_reshape [2; 3; 4] (STuple [DDyn; DDyn]) [5; usize_max] = Panic /\
  sh_reshape [2; 3; 4] (STuple [DDyn; DDyn]) [usize_max; usize_max] = Panic /\
  resolves 24 [6; usize_max] [6; 4] /\ typed (STuple [DDyn; DDyn]) [6; usize_max].
Proof.
  split; [vm_compute; reflexivity|]. split; [vm_compute; reflexivity|]. split; [vm_compute; reflexivity|].
  split; [|repeat constructor].
  right. split; [reflexivity|]. split; [|split; [|reflexivity]].
  { constructor; [now right|constructor; [now left|constructor]]. }
  vm_compute. discriminate.
Qed.

Example c12_edges :
  sh_reshape [0; 2] (STuple [DDyn; DDyn]) [0; usize_max] = Panic /\
  sh_reshape [2; 3] (STuple [DDyn]) [5] = Panic /\
  sh_reshape [0] (STuple [DDyn; DDyn; DDyn]) [2 ^ 32; 2 ^ 32; 0] = Panic.
Proof. repeat split. Qed.

(** ** C13: reshaping a dense view always works once the shape does, and keeps row-major order. *)
Theorem c13_dense_reshape : forall T (mem : list T) p ty0 dims ty req nd,
  nonneg dims -> typed ty0 dims -> ty_wf ty0 -> Forall usize req -> ty_of_len ty (length req) ->
  sh_reshape dims ty req = Ok nd ->
  exists v', v_reshape (mkView p (DenseM ty0 dims)) ty req = Ok v' /\ v_dims v' = nd /\
    v_layout v' = Dense /\ wf_map (v_map v') /\
    (forall k, 0 <= k < prodZ dims ->
       v_get_linear mem v' k = v_get_linear mem (mkView p (DenseM ty0 dims)) k).
Proof. exact dense_reshape. Qed.
Print Assumptions c13_dense_reshape.

Example c13_example : exists v', v_reshape ex_whole (STuple [DDyn; DDyn]) [6; usize_max] = Ok v' /\
  v_dims v' = [6; 4] /\ v_get ex_mem v' [5; 1] = Ok 121 /\ v_get_linear ex_mem ex_whole 21 = Ok 121.
Proof. eexists. split; [vm_compute; reflexivity|]. repeat split. Qed.

(** ** C14: any accepted reshape (strided or dense) keeps row-major order. *)
Theorem c14_reshape_sound : forall T (mem : list T) v ty req v',
  wf_map (v_map v) -> Forall usize req -> ty_of_len ty (length req) ->
  v_reshape v ty req = Ok v' ->
  prodZ (v_dims v') = prodZ (v_dims v) /\ wf_map (v_map v') /\
  (forall k, 0 <= k < prodZ (v_dims v) -> v_get_linear mem v' k = v_get_linear mem v k) /\
  shows v v' (fun idx => unflat (v_dims v) (flat (v_dims v') idx)).
Proof. exact reshape_sound. Qed.
Print Assumptions c14_reshape_sound.

Example c14_example : exists v',
  v_reshape (mkView 23 (StridedM ex_ty [2; 3; 4] [-12; -4; -1])) (STuple [DDyn; DDyn]) [6; 4] = Ok v' /\
  v_get_linear ex_mem v' 13 = Ok 110 /\
  v_reshape ex_rev (STuple [DDyn; DDyn]) [6; 2] <> Panic /\
  v_reshape ex_rev (STuple [DDyn; DDyn]) [2; 6] = Panic.
Proof. eexists. split; [vm_compute; reflexivity|]. repeat split. vm_compute. discriminate. Qed.

(** ** C15: reshape fails only for incompatible layouts, if no old dimension has size 1.
    Missing: the claim for old shapes with dimensions of size 1, where it is false
    ([c15_reshape_complete_refuted]). *)
Theorem c15_reshape_complete_partial : forall v ty req nd p2 m2,
  wf_map (v_map v) -> ~ In 1 (v_dims v) -> Forall usize req -> ty_of_len ty (length req) ->
  sh_reshape (v_dims v) ty req = Ok nd ->
  (* some mapping of the requested shape lists the same cells in the same order *)
  wf_map m2 -> m_dims m2 = nd ->
  (forall k, 0 <= k < prodZ (v_dims v) ->
     p2 + m_linear_offset m2 k = v_ptr v + m_linear_offset (v_map v) k) ->
  exists v', v_reshape v ty req = Ok v'.
Proof. exact reshape_complete. Qed.
Print Assumptions c15_reshape_complete_partial.

Example c15_example :
  let v := mkView 3 (StridedM (STuple [DDyn; DDyn]) [3; 4] [8; 2]) in
  let m2 := StridedM (STuple [DDyn; DDyn]) [6; 2] [4; 2] in
  wf_map (v_map v) /\ wf_map m2 /\ ~ In 1 (v_dims v) /\
  (forall k, 0 <= k < 12 -> m_linear_offset m2 k = m_linear_offset (v_map v) k).
Proof.
  split; [repeat constructor; simpl; lia|]. split; [repeat constructor; simpl; lia|].
  split; [simpl; lia|]. intros k Hk.
  assert (H : In k (zrange 12)) by (now apply in_zrange). clear Hk.
  vm_compute in H. repeat (destruct H as [<-|H]; [reflexivity|]). contradiction.
Qed.

(** Exactly what [reshape] demands of a non-empty view: some mapping of the requested shape lists
    the same cells in the same order, and every size-1 dimension with further dimensions inside it
    lies on a border of the new shape or has a stride that continues the next inner dimension. *)
Theorem c15_reshape_exact : forall v ty req nd,
  wf_map (v_map v) -> 0 < prodZ (v_dims v) -> Forall usize req -> ty_of_len ty (length req) ->
  sh_reshape (v_dims v) ty req = Ok nd ->
  ((exists v', v_reshape v ty req = Ok v') <->
   ((exists p2 m2, wf_map m2 /\ m_dims m2 = nd /\
       forall k, 0 <= k < prodZ (v_dims v) ->
         p2 + m_linear_offset m2 k = v_ptr v + m_linear_offset (v_map v) k) /\
    forall i, (S i < length (v_dims v))%nat -> nth i (v_dims v) 0 = 1 ->
      (exists j, (j <= length nd)%nat /\ prodZ (skipn j nd) = prodZ (skipn (S i) (v_dims v))) \/
      nth i (m_strides (v_map v)) 0 = nth (S i) (m_strides (v_map v)) 0 * nth (S i) (v_dims v) 0)).
Proof. exact reshape_exact. Qed.
Print Assumptions c15_reshape_exact.

(** Shape [2,1,3]: with the stride 100 in the middle, [2,3] is accepted (3 is a border), [6] is
    not; with the stride 3 that continues the last dimension, [6] is accepted as well. *)
Example c15_exact_example :
  let v := mkView 0 (StridedM (STuple [DDyn; DDyn; DDyn]) [2; 1; 3] [3; 100; 1]) in
  let w := mkView 0 (StridedM (STuple [DDyn; DDyn; DDyn]) [2; 1; 3] [3; 3; 1]) in
  v_reshape v (STuple [DDyn; DDyn]) [2; 3] = Ok (mkView 0 (StridedM (STuple [DDyn; DDyn]) [2; 3] [3; 1])) /\
  v_reshape v (STuple [DDyn]) [6] = Panic /\
  v_reshape w (STuple [DDyn]) [6] = Ok (mkView 0 (StridedM (STuple [DDyn]) [6] [1])).
Proof. repeat split. Qed.

(** An empty view takes every shape of length 0, whatever its strides. *)
Theorem c15_reshape_empty : forall v ty req nd,
  wf_map (v_map v) -> prodZ (v_dims v) = 0 -> Forall usize req -> ty_of_len ty (length req) ->
  sh_reshape (v_dims v) ty req = Ok nd ->
  exists v', v_reshape v ty req = Ok v'.
Proof. exact reshape_empty. Qed.
Print Assumptions c15_reshape_empty.

Example c15_empty_example :
  let v := mkView 5 (StridedM ex_ty [2; 3; 0] [7; 100; -2]) in
  exists v', v_reshape v (STuple [DDyn; DDyn]) [0; 4] = Ok v' /\ v_dims v' = [0; 4].
Proof. eexists. split; vm_compute; reflexivity. Qed.

(** The documented condition does not describe dimensions of size 1: a [1,2,3] array permuted to
    [2,1,3] lists its elements contiguously, yet [flatten] panics. *)
Theorem c15_reshape_complete_refuted : exists v m2,
  wf_map (v_map v) /\ valid_view 6 v /\ wf_map m2 /\ m_dims m2 = [6] /\
  (exists w, v_permute (whole (STuple [DDyn; DDyn; DDyn]) [1; 2; 3]) PermDyn [1; 0; 2] = Ok w /\ v = w) /\
  (forall k, 0 <= k < 6 -> m_linear_offset m2 k = v_ptr v + m_linear_offset (v_map v) k) /\
  v_flatten v = Panic.
Proof. exact reshape_incomplete. Qed.
Print Assumptions c15_reshape_complete_refuted.

(** ** C16 *)
Theorem c16_reshape_same : forall v,
  wf_map (v_map v) -> fits (v_dims v) -> ~ In usize_max (v_dims v) ->
  exists v', v_reshape v (v_ty v) (v_dims v) = Ok v' /\ v_dims v' = v_dims v /\
    v_ty v' = v_ty v /\ shows v v' (fun idx => idx).
Proof. exact reshape_same. Qed.
Print Assumptions c16_reshape_same.

Example c16_example : fits (v_dims ex_rev) /\ ~ In usize_max (v_dims ex_rev) /\
  exists v', v_reshape ex_rev ex_ty [2; 3; 2] = Ok v'.
Proof.
  split; [|split].
  - intros k. do 4 (destruct k as [|k]; [vm_compute; discriminate|]). vm_compute. discriminate.
  - vm_compute. lia.
  - eexists. vm_compute. reflexivity.
Qed.

(** The guard [~ In usize_max] is needed: the size [usize::MAX] means "infer". *)
Theorem c16_reshape_same_refuted : exists v,
  valid_view 0 v /\ v_dims v = [usize_max; 0] /\ v_reshape v (v_ty v) (v_dims v) = Panic /\
  v_row v 0 = Panic.
Proof. exact reshape_same_fails. Qed.
Print Assumptions c16_reshape_same_refuted.

(** Exactly when: for views of fewer than [usize::MAX] elements, which all views with storage are. *)
Theorem c16_exact : forall v,
  wf_map (v_map v) -> const_small (v_ty v) -> prodZ (v_dims v) < usize_max ->
  ((exists v', v_reshape v (v_ty v) (v_dims v) = Ok v') <-> fits (v_dims v) /\ ~ In usize_max (v_dims v)) /\
  (v_reshape v (v_ty v) (v_dims v) = Panic <-> ~ (fits (v_dims v) /\ ~ In usize_max (v_dims v))).
Proof.
  intros v HW HC HP.
  assert (X : forall v', v_reshape v (v_ty v) (v_dims v) = Ok v' -> fits (v_dims v) /\ ~ In usize_max (v_dims v)).
  { intros v' E. destruct (reshape_same_exact HW HC HP) as [H|H]; [exact H|congruence]. }
  destruct (reshape_same_exact HW HC HP) as [H|H].
  - destruct (reshape_same HW (proj1 H) (proj2 H)) as (v' & E & _). rewrite E. split; split; eauto; try tauto; try discriminate.
  - rewrite H. split; split; auto.
    + intros (v' & E). discriminate.
    + intros [F N]. destruct (reshape_same HW F N) as (v' & E & _). congruence.
    + intros _ [F N]. destruct (reshape_same HW F N) as (v' & E & _). congruence.
Qed.
Print Assumptions c16_exact.
Example c16_exact_example :
  v_reshape (whole SDynRank [2 ^ 40; 2 ^ 40; 0]) SDynRank [2 ^ 40; 2 ^ 40; 0] = Panic /\
  ~ fits [2 ^ 40; 2 ^ 40; 0] /\ prodZ [2 ^ 40; 2 ^ 40; 0] < usize_max /\
  (exists v', v_reshape (whole SDynRank [0; 2 ^ 40; 2 ^ 40]) SDynRank [0; 2 ^ 40; 2 ^ 40] = Ok v').
Proof.
  split; [vm_compute; reflexivity|]. split; [intros H; specialize (H 2%nat); vm_compute in H; auto|].
  split; [vm_compute; reflexivity|]. eexists. vm_compute. reflexivity.
Qed.

(** ** C17 *)
Theorem c17_remap_strided : forall v ty,
  wf_map (v_map v) -> typed ty (v_dims v) -> ty_wf ty ->
  exists v', v_remap v Strided ty = Ok v' /\ v_dims v' = v_dims v /\ v_layout v' = Strided /\
    wf_map (v_map v') /\ shows v v' (fun idx => idx).
Proof. exact remap_strided. Qed.
Print Assumptions c17_remap_strided.

Theorem c17_remap_dense : forall v ty,
  wf_map (v_map v) -> typed ty (v_dims v) -> ty_wf ty ->
  (is_contiguous (v_map v) = true ->
   exists v', v_remap v Dense ty = Ok v' /\ v_dims v' = v_dims v /\ v_layout v' = Dense /\
     wf_map (v_map v') /\ shows v v' (fun idx => idx)) /\
  (is_contiguous (v_map v) = false -> v_remap v Dense ty = Panic).
Proof. exact remap_dense. Qed.
Print Assumptions c17_remap_dense.

Theorem c17_contiguous : forall v,
  wf_map (v_map v) -> is_contiguous (v_map v) = true ->
  forall idx, in_bounds (v_dims v) idx -> v_addr v idx = v_ptr v + flat (v_dims v) idx.
Proof. exact contiguous_addr. Qed.
Print Assumptions c17_contiguous.

(** Conversely, if every index sits at its row-major offset and all dimensions are larger than 1,
    the view is reported contiguous. *)
Theorem c17_contiguous_complete : forall v,
  wf_map (v_map v) -> Forall (fun d => 2 <= d) (v_dims v) ->
  (forall idx, in_bounds (v_dims v) idx -> v_addr v idx = v_ptr v + flat (v_dims v) idx) ->
  is_contiguous (v_map v) = true.
Proof. exact contiguous_complete. Qed.
Print Assumptions c17_contiguous_complete.

Example c17_example :
  let v := mkView 4 (StridedM ex_ty [1; 3; 4] [12; 4; 1]) in
  wf_map (v_map v) /\ is_contiguous (v_map v) = true /\ is_contiguous (v_map ex_rev) = false /\
  (exists v', v_remap v Dense (STuple [DConst 1; DDyn; DDyn]) = Ok v' /\ v_get ex_mem v' [0; 2; 3] = Ok 115) /\
  v_remap v Dense (STuple [DConst 2; DDyn; DDyn]) = Panic.
Proof.
  split; [repeat constructor; simpl; lia|]. split; [reflexivity|]. split; [reflexivity|].
  split; [|reflexivity]. eexists. split; vm_compute; reflexivity.
Qed.

(** ** C18 *)
Theorem c18_diag : forall v d0 d1 k,
  wf_map (v_map v) -> v_dims v = [d0; d1] ->
  d0 < usize_max -> d1 < usize_max -> d0 * d1 <= usize_max ->
  (- d0 <= k <= d1 ->
   exists v', v_diag v k = Ok v' /\
     v_dims v' = [if k >=? 0 then Z.min d0 (d1 - k) else Z.min d1 (d0 + k)] /\ wf_map (v_map v') /\
     shows v v' (fun idx => if k >=? 0 then [hd 0 idx; hd 0 idx + k] else [hd 0 idx - k; hd 0 idx])) /\
  (k < - d0 \/ d1 < k -> v_diag v k = Panic).
Proof. exact diag_spec. Qed.
Print Assumptions c18_diag.

Theorem c18_row_col : forall v d0 d1 i,
  wf_map (v_map v) -> v_dims v = [d0; d1] ->
  d0 < usize_max -> d1 < usize_max -> d0 * d1 <= usize_max -> usize i ->
  (i < d0 -> exists v', v_row v i = Ok v' /\ v_dims v' = [d1] /\ wf_map (v_map v') /\
     shows v v' (fun idx => [i; hd 0 idx])) /\
  (d0 <= i -> v_row v i = Panic) /\
  (i < d1 -> exists v', v_col v i = Ok v' /\ v_dims v' = [d0] /\ wf_map (v_map v') /\
     shows v v' (fun idx => [hd 0 idx; i])) /\
  (d1 <= i -> v_col v i = Panic).
Proof. exact row_col_spec. Qed.
Print Assumptions c18_row_col.

(** [into_diag] of a rank-2 view needs no guard on the sizes. *)
Theorem c18_into_diag : forall v d0 d1 k,
  wf_map (v_map v) -> v_dims v = [d0; d1] ->
  (- d0 <= k <= d1 ->
   exists v', v_into_diag v k = Ok v' /\
     v_dims v' = [if k >=? 0 then Z.min d0 (d1 - k) else Z.min d1 (d0 + k)] /\ wf_map (v_map v') /\
     shows v v' (fun idx => if k >=? 0 then [hd 0 idx; hd 0 idx + k] else [hd 0 idx - k; hd 0 idx])) /\
  (k < - d0 \/ d1 < k -> v_into_diag v k = Panic).
Proof. exact into_diag_spec. Qed.
Print Assumptions c18_into_diag.

Theorem c18_rank : forall v k,
  length (v_dims v) <> 2%nat -> v_diag v k = Panic /\ v_row v k = Panic /\ v_col v k = Panic.
Proof. exact rank2_only. Qed.
Print Assumptions c18_rank.

Example c18_example :
  let v := mkView 2 (StridedM (STuple [DDyn; DConst 3]) [4; 3] [4; 1]) in
  wf_map (v_map v) /\
  (exists v', v_diag v (-2) = Ok v' /\ v_dims v' = [2] /\ v_get ex_mem v' [1] = v_get ex_mem v [3; 1]) /\
  (exists v', v_col v 2 = Ok v' /\ v_dims v' = [4] /\ v_get ex_mem v' [3] = v_get ex_mem v [3; 2]) /\
  v_row v 4 = Panic /\ v_diag v 4 = Panic.
Proof.
  split; [repeat constructor; simpl; lia|].
  split; [eexists; split; [vm_compute; reflexivity|split; vm_compute; reflexivity]|].
  split; [eexists; split; [vm_compute; reflexivity|split; vm_compute; reflexivity]|].
  split; vm_compute; reflexivity.
Qed.

(** The first diagonal above the main one has one element less; strides that are not 1. *)
Example c18_edges :
  let v := mkView 0 (StridedM (STuple [DDyn; DDyn]) [3; 3] [7; 2]) in
  exists v', v_diag v 1 = Ok v' /\ v_dims v' = [2] /\ v_get ex_mem v' [1] = Ok 111 /\ v_get ex_mem v [1; 2] = Ok 111.
Proof. eexists. split; [vm_compute; reflexivity|]. repeat split. Qed.

(** ** C19: any chain of view operations on an owned array. *)
Theorem c19_chain : forall T (mem : list T) ty dims os,
  nonneg dims -> typed ty dims -> ty_wf ty -> Forall (fun d => d <= usize_max) dims ->
  prodZ dims = Z.of_nat (length mem) -> Z.of_nat (length mem) <= usize_max ->
  run_args (whole ty dims) os ->
  v_run (whole ty dims) os = Panic \/
  exists v', v_run (whole ty dims) os = Ok v' /\
    (* every index reads a cell of the storage *)
    (forall idx, in_bounds (v_dims v') idx -> exists x, v_get mem v' idx = Ok x) /\
    (* different indices address different cells *)
    (forall i j, in_bounds (v_dims v') i -> in_bounds (v_dims v') j ->
                 v_addr v' i = v_addr v' j -> i = j) /\
    (* and the cell is one of the original elements *)
    (exists f, shows (whole ty dims) v' f).
Proof. exact chain_safe. Qed.
Print Assumptions c19_chain.

(** One step keeps any valid view valid (so the chain may start at any valid view). *)
Theorem c19_step : forall n v o v',
  0 <= n <= usize_max -> valid_view n v -> Forall (fun d => d <= usize_max) (v_dims v) ->
  op_arg v o -> v_step v o = Ok v' ->
  valid_view n v' /\ Forall (fun d => d <= usize_max) (v_dims v') /\ exists f, shows v v' f.
Proof. exact step_valid. Qed.
Print Assumptions c19_step.

Example c19_example : let os :=
    [OpPermute PermDyn [2; 0; 1]; OpView [IxStep Unbounded Unbounded (-2); IxFull; IxRange (Included 1) Unbounded];
     OpReorder; OpAxisAt AxRows 1; OpReshape (STuple [DDyn; DDyn; DConst 2]) [usize_max; 1; 2]] in
  run_args ex_whole os /\
  exists v', v_run ex_whole os = Ok v' /\ v_dims v' = [2; 1; 2] /\
    map (v_get ex_mem v') (indices [2; 1; 2]) = [Ok 105; Ok 117; Ok 109; Ok 121].
Proof.
  split.
  - assert (U : forall n, 0 <= n < 10 -> usize n) by (intros; unfold usize, usize_max; lia).
    cbn [run_args]. split; [split; [do 3 (constructor; [apply U; lia|]); constructor|exact I]|].
    intros v1 E. vm_compute in E. injection E as <-.
    split; [split; [do 3 (constructor; [simpl; try split; try exact I; apply U; lia|]); constructor|reflexivity]|].
    intros v2 E. vm_compute in E. injection E as <-. split; [exact I|].
    intros v3 E. vm_compute in E. injection E as <-. split; [apply U; lia|].
    intros v4 E. vm_compute in E. injection E as <-.
    split; [|intros; exact I]. split; [|split; [simpl; lia|reflexivity]].
    constructor; [unfold usize, usize_max; lia|]. constructor; [apply U; lia|constructor; [apply U; lia|constructor]].
  - eexists. split; [vm_compute; reflexivity|]. split; vm_compute; reflexivity.
Qed.

(** ** C46: result shape types admit the computed dimensions. *)
Theorem c46_remove : forall a s dims i,
  typed s dims -> ty_wf s -> is_axis a (length dims) i ->
  typed (ax_remove a s) (remove_at i dims) /\ ty_wf (ax_remove a s).
Proof. exact remove_types. Qed.
Print Assumptions c46_remove.

Theorem c46_resize : forall a s dims i n,
  typed s dims -> ty_wf s -> is_axis a (length dims) i ->
  typed (ax_resize_ty a s) (upd dims i n) /\ ty_wf (ax_resize_ty a s).
Proof. exact resize_types. Qed.
Print Assumptions c46_resize.

Theorem c46_view : forall xs s dims,
  nonneg dims -> typed s dims -> length xs = length dims ->
  typed (vi_shape xs s) (sub_dims dims xs) /\ ty_wf (vi_shape xs s).
Proof. exact view_types. Qed.
Print Assumptions c46_view.

Theorem c46_permute : forall p s dims perm,
  typed s dims -> ty_wf s -> perm_of (length dims) perm -> perm_matches p perm ->
  typed (perm_arg_shape p s) (pick perm dims) /\ ty_wf (perm_arg_shape p s).
Proof. exact permute_types. Qed.
Print Assumptions c46_permute.

Theorem c46_reverse : forall s dims,
  typed s dims -> ty_wf s -> typed (sh_reverse s) (rev dims) /\ ty_wf (sh_reverse s).
Proof. exact reverse_types. Qed.
Print Assumptions c46_reverse.

Example c46_example :
  typed ex_ty [2; 3; 4] /\ ax_remove AxCols ex_ty = STuple [DDyn; DDyn] /\
  ax_resize_ty (AxConst 1) ex_ty = STuple [DDyn; DDyn; DDyn] /\
  vi_shape [IxUsize 0; IxFull; IxRange Unbounded Unbounded] ex_ty = STuple [DConst 3; DDyn] /\
  perm_arg_shape (PermTuple [PConst 1; PDyn; PConst 2]) ex_ty = STuple [DConst 3; DDyn; DDyn].
Proof. repeat split. repeat constructor. Qed.

Example c46_edges :
  ax_remove (AxDyn 1) (STuple [DConst 2; DConst 3; DConst 4]) = STuple [DDyn; DDyn] /\
  ax_remove (AxConst 1) (STuple [DConst 2; DConst 3; DConst 4]) = STuple [DConst 2; DConst 4] /\
  perm_arg_shape (PermTuple [PConst 2; PConst 0; PConst 1]) (STuple [DConst 2; DConst 3; DConst 4]) =
    STuple [DConst 4; DConst 2; DConst 3] /\
  perm_arg_shape PermDyn (STuple [DConst 2; DDyn]) = STuple [DDyn; DDyn].
Proof. repeat split. Qed.
