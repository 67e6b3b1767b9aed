# Formal model of mdarray (Rocq/Coq 8.16.1)

The model is a function-by-function transcription of `/repo/src` into small total Gallina functions;
every definition cites the file and lines it stands for.  The theorems are about the model.  What
ties it to the code is that reading; the code was never run here.

## Modelling decisions

* **Numbers.**  Dimensions, strides, offsets and indices are `Z`; positions of a dimension inside a
  shape are `nat`.  In all files but `Machine*.v` arithmetic is exact.  `Machine.v` is a second
  transcription of the address arithmetic with `usize`/`isize` operations that wrap (release build) or
  panic (debug build); `PropsMachine.v` says when the two agree, `PropsWrap.v` that nothing goes wrong where
  they do not.  `MachineIter.v` does the same for iteration (`PropsMachineIter.v`),
  `MachineTensor.v` for owned arrays and programs of their operations (`PropsMachineTensor.v`).
* **Outcomes.**  `outcome A = Ok a | Panic | UB | NoFuel`.  Reading or writing outside the storage or
  the capacity is `UB`.  Moving a pointer outside without reading is harmless in all files but `Pointer.v`,
  where it is `UB` as well.  `NoFuel` is the model's own "loop ran too long"; every theorem that concludes
  `Ok`, or `Ok or Panic`, excludes it.
* **Types as data.**  A shape type is `SDynRank` or `STuple [DConst n | DDyn; ..]`, a layout is `Dense` or
  `Strided`.  The type-level computations (`Prepend`, `Merge`, `Reverse`, `Axis::Remove`,
  `ViewIndex::Layout`, permutation types, ...) are ordinary functions, so that theorems quantify over
  all types, not over the instances some test happens to use.
* **Views** are a base address and a mapping; the storage is a list of cells.  `&` and `&mut` forms run
  the same code and share a model.
* **Expressions** are records with a state and the methods of the `Expression` trait.  Closures are
  state-passing functions that may panic, so the number and the order of calls are visible.
* **Owned arrays** are a list of elements, a capacity, dimensions and a shape type.  Their operations run in
  `M S A = S -> result S A` with `Done a s | Unwound s | Aborted | Fault`: a panic has a state after
  unwinding, because the caller can catch it and go on.  The drop guards are part of the model.  A ledger
  (`world`) records every element that is made, handed out or dropped; "not lost, not dropped twice"
  is a statement about the ledger.
* **The allocator** decides by an arbitrary predicate which requests are granted and by an arbitrary
  function how far a vector grows.
* **Programs** (`History.v`) are arbitrary lists of operations over any number of tensors, with every panic
  caught (the worst case for consistency).

## Files

| file | content |
|---|---|
| `Base`, `Spec` | outcomes and list helpers; specification vocabulary (valid indices, row-major order and position, selections), free of any code |
| `Shape` | `dim.rs`, `shape.rs` |
| `Mapping` | `mapping.rs`, `layout.rs` |
| `Index` | `index/*.rs` |
| `View`, `Wf` | `view.rs`, view part of `slice.rs`; what the Rust types guarantee about values |
| `Expr`, `ExprSpec` | `expr/*.rs` without the buffers; what it means to visit elements in order |
| `Tensor`, `TensorSpec` | `raw_tensor.rs`, `tensor.rs`, `array.rs`, `expr/buffer.rs`, `expr/into_expr.rs`; consistency and balance |
| `History` | programs over tensors |
| `Ops` | `ops.rs`; equality, hashing, `contains`, `Debug` of `slice.rs` |
| `Serde`, `SerdeSpec` | `serde.rs` |
| `Nested`, `NestedSpec` | conversions from and to nested Rust arrays, remaining conversions of `array.rs` |
| `Consume`, `ConsumeSpec` | cloning `IntoExpr`, copies of subarrays (`slice.rs`), the `nightly` guard of `raw_tensor.rs` |
| `Machine`, `MachineSpec` | the address arithmetic with machine integers; bounds used in the statements |
| `MachineIter` | iteration (`expr/*.rs`, the expression methods of `view.rs`) with machine integers |
| `MachineTensor` | `raw_tensor.rs`, `tensor.rs`, `expr/buffer.rs` and the programs of `History` with machine integers |
| `Alloc` | the `nightly` branches of `raw_tensor.rs`, `tensor.rs`, `expr/buffer.rs`: tensors that own an allocator value, and the programs of `History` with them |
| `MachineProgram` | the writes and programs of `Program` with machine integers, in both build modes |
| `Select` | the meaning of view operations in terms of indices alone (specification, no code) |
| `Refer` | a reference interpreter for programs on plain arrays, and the call that each action stands for (specification, no code) |
| `ReferRoom` | what an action of `Refer` asks the allocator for; owned arrays of zero-sized elements (`raw_tensor.rs:61-63`) and the interpreter for them |
| `ReferMachine` | the code of the actions of `Refer` with the operands that machine code makes, and what is asked of programs that run on the machine, without and with overflow checks |
| `MachineSerde` | deserialization of tensors with machine arithmetic in both builds |
| `MachineRows` | equality, `contains`, hashing, debug output and serialization with machine arithmetic in both builds |
| `MachineArray` | `array.rs`, deserialization of arrays and operators on them with machine arithmetic in both builds |
| `Zst` | views of arrays of zero-sized elements: access and iteration with the index computations of `Machine` |
| `Macros` | `macros.rs`; the `IntoShape` conversions of `shape.rs`; the guards of `Debug` and `Clone` of `iter.rs` |
| `Dtor` | the operations of `Tensor` and `History` once more, with destructors of elements that may panic |
| `DtorMore` | the same for arrays, conversions between arrays and tensors, nested arrays and deserialization |
| `Unsafe` | `get_unchecked`, raw parts, `set_mapping` with `spare_capacity_mut`; indexing with ranges (`index/slice.rs`) |
| `Handle` | `raw_slice.rs`, `Deref`: how a reference to a slice finds its pointer and mapping |
| `Program` | writes through mutable views with panicking element code; programs of such writes and owned operations |
| `Sink` | serialization to a serializer that may fail |
| `Pointer` | iteration over views with every pointer movement checked against the allocation |
| `*Facts` (`TablesFacts` with the tables of C65), `*More`, `MapOps`, `ExprTree`, `TensorOps`, `OwnProps`, `OwnExact`, `Machine*` | lemmas |
| `PropsView` `PropsExpr` `PropsTensor` `PropsOps` `PropsSerde` `PropsNested` `PropsMachine` `PropsConsume` `PropsPointer` `PropsDtor` `PropsDtorMore` `PropsMacros` `PropsExact` `PropsExactMore` `PropsMore` `PropsUnsafe` `PropsTables` `PropsWrap` `PropsHandle` `PropsSink` `PropsMachineIter` `PropsPrimitive` `PropsProgram` `PropsMachineTensor` `PropsAlloc` `PropsZst` `PropsMachineProgram` `PropsSelect` `PropsPanic` `PropsRefer` `PropsReferRoom` `PropsReferMachine` `PropsReferChecked` `PropsMachineSerde` `PropsMachineRows` `PropsMachineArray` `PropsMachineOps` | the theorems, each with `Print Assumptions` and examples meeting its hypotheses |

Model files contain no proofs.  The `Props*` files contain theorems, examples and nothing else that matters.

## Conventions in the theorems

* `x_partial`: a theorem weaker than the property, because the property is false in general; the comment above it
  says what is missing.
* `x_refuted : exists ..`: the property is false of the model, with a witness computed by `vm_compute`.
  The witness, read back as Rust, is the finding.
* The remaining theorems are the property at full strength.

## Properties

| id | property | status | theorems | remark |
|---|---|---|---|---|
| C01 | Multi-index access is row-major | proved | `c01_dense_row_major`, `c01_bijection` |  |
| C02 | Linear indexing follows row-major order for any layout | proved | `c02_linear` |  |
| C03 | Checked indexing panics exactly when out of bounds and is otherwise memory safe | proved | `c03_checked` |  |
| C04 | view(..) selects exactly the requested subarray | proved | `c04_view`, `shows_reads` |  |
| C05 | view(..) panics exactly when an index is out of bounds | proved | `c05_view_panics` |  |
| C06 | Step ranges select every |step|-th position, reversed for negative steps | proved | `c06_step_positions`, `c04_view`, `c05_view_panics` |  |
| C07 | axis_at / at fixes one coordinate | proved | `c07_axis_at`, `c07_axis_at_panics` |  |
| C08 | split_axis_at partitions an array | proved | `c08_split`, `c08_partition`, `c08_split_panics` |  |
| C09 | permute permutes the dimensions | proved | `c09_permute`, `c09_permute_panics` | rank < 64 (debug-build shift semantics) |
| C10 | A compile-time permutation keeps the layout exactly when it is the identity | proved | `c10_constant_permutation`, `c10_dense_is_identity` |  |
| C11 | reorder reverses the dimensions | proved | `c11_reorder` |  |
| C12 | reshape resolves the inferred dimension and preserves the length | proved | `c12_reshape_shape`, `c12_reshape_view` |  |
| C13 | reshape of a dense array preserves row-major order | proved | `c13_dense_reshape` |  |
| C14 | An accepted reshape of a strided view preserves row-major order | proved | `c14_reshape_sound` |  |
| C15 | reshape and flatten panic only for incompatible layouts | partial | `c15_reshape_complete_partial`, `c15_reshape_exact`, `c15_reshape_empty`, `c15_reshape_complete_refuted` | c15_reshape_exact says exactly when reshape of a non-empty view succeeds: compatible layout, and every size-1 dimension lies on a border of the new shape or continues the next stride; empty views always succeed. As documented (compatible layout only) it is false: a permuted [1,2,3] array (c15_reshape_complete_refuted). |
| C16 | Reshaping a view to its own shape always succeeds (row, col and diag never fail on layout) | partial | `c16_reshape_same`, `c16_exact`, `c16_reshape_same_refuted`, `c18_row_col`, `c18_diag` | Holds unless a dimension equals usize::MAX (which reshape reads as 'infer') or the dimensions overflow; exactly when it succeeds: c16_exact. Refuted for a dimension usize::MAX. |
| C17 | remap and into_mapping preserve elements; to Dense exactly when contiguous | proved | `c17_remap_strided`, `c17_remap_dense`, `c17_contiguous`, `c17_contiguous_complete` |  |
| C18 | diag, row and col address the documented elements | proved | `c18_diag`, `c18_row_col`, `c18_into_diag`, `c18_rank` | row/col/diag: dimensions below usize::MAX, see C16 |
| C19 | No chain of safe view operations can leave the storage or alias elements | proved | `c19_chain`, `c19_step` |  |
| C20 | axis_expr yields the subarrays in order, disjointly | partial | `c20_axis_expr_partial`, `c20_exact`, `c20_nonempty`, `c20_refuted` | Exactly for which views: c20_exact (the axis is empty or the other dimensions do not overflow; otherwise the first item panics). Refuted for an empty permuted view with overflowing remaining dimensions, where axis_expr panics although axis_at works. |
| C21 | lanes yields every lane once | partial | `c21_lanes_partial`, `c21_refuted`, `c21_exact`, `c21_alias`, `c21_panics` | holds when the remaining dimensions are dense or the rank is at most 2; refuted for rows() of a rank-3 array (get_unchecked ignores the offset; lanes_mut yields aliasing lanes). c21_exact: exactly for which arrays the lanes are right; c21_alias: otherwise two lanes of a non-empty array are the same view. |
| C22 | Internal iteration visits every element exactly once in row-major order | partial | `c22_fold_partial`, `c22_exact`, `c22_count`, `c22_refuted` | exact condition proved: fails precisely for strided views with a zero before a non-zero last dimension |
| C23 | External iteration agrees with internal iteration | partial | `c23_next_partial`, `c23_exact`, `c27_tree_next_partial`, `c23_refuted` | Exactly for which views next() yields the elements and then None: c23_exact (dense, rank <= 1, non-empty, or an empty row with at most one row). fold after any number of next() calls: c23_next_partial. Refuted for an empty strided view (c23_refuted). |
| C24 | size_hint is exact | partial | `c24_size_partial`, `c24_exact`, `c23_next_partial`, `c27_tree_next_partial`, `c24_refuted` | Exactly for which views size_hint stays right for ever: c24_exact (dense, rank <= 1, or a single row). Up to the end of the iteration it is right for all non-empty views. Refuted after exhaustion for strided rank >= 2. |
| C25 | The iterator is fused | partial | `c25_fused_partial`, `c25_exact`, `c25_cycle`, `c27_tree_next_partial`, `c25_refuted`, `c25_tree` | Exactly for which views the iterator is fused: c25_exact (dense, rank <= 1, or a single row). Otherwise all rows but the first are visited again and again (c25_cycle). Refuted for a transposed 2x2 view. c25_tree: for every expression, not only views, None is final exactly when no outer dimension exceeds 1. |
| C26 | zip broadcasts the lower-rank operand over outer dimensions | proved | `c26_zip`, `c26_build`, `c26_zip_items`, `c26_zip_items_partial`, `c46_zip_type`, `c26_drain` | the element theorem excludes lanes operands (C21) |
| C27 | Expression adapters transform elements pointwise and in order | proved | `c27_tree_fold_partial`, `c27_nonempty`, `c27_tree_next_partial`, `c27_map`, `c27_enumerate`, `c27_copied`, `c27_fill`, `c27_from_elem_panics`, `c27_exact` | quantifier is non-degenerate shapes: guard t_fine. c27_exact: folding a tree that is not fine never yields its elements, so the guard is exact. |
| C28 | from_fn calls the function with each index once, in row-major order | partial | `c28_from_fn_partial`, `c28_tensor_partial`, `c28_array_partial`, `c28_dyn_refuted`, `c28_zero_refuted`, `c28_owned_refuted`, `c28_exact`, `c28_dynrank`, `c28_panics` | static rank and no zero outer dimension before a non-zero one; refuted for DynRank (panics) and for [0,3] (closure called, Tensor::from_fn/Array::from_fn write out of bounds). c28_exact: for static ranks from_fn calls the closure as documented exactly when no outer dimension is zero or the last one is; for DynRank every shape but the scalar panics (c28_dynrank). |
| C29 | eval, to_tensor, to_vec and to_array reproduce the expression | partial | `c29_eval_partial`, `c29_array_partial`, `c29_array_mismatch`, `c29_to_tensor_partial`, `c29_to_vec`, `c29_refuted`, `c28_owned_refuted`, `c29_exact`, `c29_array_exact` | holds for every expression tree under the guard t_fine of C22 (all non-empty arrays without lanes, all dense arrays); refuted for empty strided views and from_fn([0,3]). c29_exact, c29_array_exact: evaluation gives the elements exactly under the guard. |
| C30 | assign and fill write exactly the target elements | partial | `c30_assign_partial`, `c30_assign_panics`, `c30_fill_partial`, `c30_refuted`, `c30_ub_refuted`, `c30_fill_exact`, `c30_assign_exact` | guard of C22; refuted for an empty strided view: cells outside the view are overwritten. c30_fill_exact, c30_assign_exact: the closure is called once per element exactly under the guard. |
| C31 | A tensor's length always matches its storage | partial | `c31_history_partial`, `c31_operand`, `c31_zip_operand`, `c31_refuted`, `c29_exact` | all sequences of operations with panics at any point; operands must not run into C22/C28; refuted for from_fn([0,3]). c29_exact: exactly which operands evaluate. |
| C32 | expand and append concatenate along the first dimension | partial | `c32_expand`, `c32_expand_empty`, `c32_elements`, `c32_mismatch_partial`, `c32_no_rows`, `c32_nothing`, `c32_append`, `c32_append_empty`, `c32_append_nothing`, `c32_append_mismatch`, `c32_refuted`, `c32_exact` | holds for non-empty expressions; refuted for empty ones (dimensions not taken over, mismatch accepted). c32_exact: exactly for which expressions the documentation is right. |
| C33 | drain removes exactly the range | proved | `c33_drain`, `c33_panics`, `c33_rows` |  |
| C34 | truncate and clear keep a prefix of rows | proved | `c34_truncate`, `c34_truncate_panics`, `c34_clear`, `c34_clear_panics`, `c34_clear_dynamic` | clear and truncate panic on shapes where the result is not representable (all dimensions constant, constant first dimension) |
| C35 | resize keeps the common subarray and fills the rest | proved | `c35_resize`, `c35_resize_value`, `c35_resize_panics` | under the condition that new_dims matches the shape type; otherwise C49 |
| C36 | No element is dropped twice or lost when a user closure panics | partial | `c36_history`, `c36_zip_with`, `c36_map`, `c36_array_from_expr`, `c36_array_map`, `c36_array_unfit`, `c36_array_zip_with`, `c36_array_zip_items`, `c36_drop`, `c36_leak_refuted`, `c36_zip_exact`, `c36_clean` | no double drop or use after drop for any program; no leak except at most one element per Tensor::zip_with; the leak clause is refuted for zip_with with a panicking operand (the last result is leaked, although not being processed). c36_zip_exact: zip_with loses something exactly when the operand panics after a result has been made; c36_clean: programs without zip_with and leaked drains lose nothing. |
| C37 | Consuming iteration moves every element out exactly once | proved | `c37_into_iter`, `c37_into_expr` |  |
| C38 | Equality is elementwise for any combination of layouts | partial | `c38_eq_partial`, `c38_nonempty`, `c38_calls_partial`, `c38_refuted`, `c38_exact` | full for arrays with elements and for all arrays whose dimensions do not overflow; refuted for an empty permuted view with overflowing dimensions (== panics). c38_exact: exactly when == of two arrays of equal dimensions works. |
| C39 | Equal arrays hash equally | partial | `c39_hash_partial`, `c39_nonempty`, `c39_sequence_partial`, `c39_refuted`, `c39_unsafe_refuted`, `c39_exact` | full for arrays with elements; refuted for empty strided views: equal arrays hash differently, or hashing reads out of bounds. c39_exact: exactly when hash feeds the elements and nothing else. |
| C40 | contains finds an element exactly when present | partial | `c40_contains_partial`, `c40_nonempty`, `c40_calls_partial`, `c40_refuted`, `c40_exact` | full for arrays with elements; guard and counterexample as C38. c40_exact: exactly when contains works. |
| C41 | Operators are elementwise with operands in source order | partial | `c41_expr_partial`, `c41_values_partial`, `c41_arrays`, `c41_tensor_partial`, `c41_tensor_right_partial`, `c41_array_partial`, `c41_array_right_partial`, `c41_tensor_calls_partial`, `c41_array_calls_partial`, `c41_owned_mismatch`, `c41_agree_partial`, `c41_nonempty`, `c41_assign_partial`, `c41_assign_calls_partial`, `c41_assign_mismatch`, `c41_unary_partial`, `c41_unary_tensor`, `c41_unary_array`, `c41_refuted`, `c41_exact`, `c41_unary_exact`, `c41_assign_exact`, `c41_tensor_exact`, `c41_array_exact` | all operand kinds and shapes under the guard t_fine, which holds for all non-empty operands (c41_nonempty); refuted for an empty owned tensor with an empty strided operand. c41_exact, c41_unary_exact, c41_assign_exact, c41_tensor_exact, c41_array_exact: the guard is exact for each kind of operand, and what happens otherwise. |
| C42 | Serialization round-trips | partial | `c42_serialized`, `c42_partial`, `c42_shape_iff`, `c42_nonempty`, `c42_array`, `c42_refuted`, `c42_dynrank` | Contents always round-trip; dimensions exactly when every dynamic dimension after an empty one is empty (c42_shape_iff), so always for nonempty tensors and for arrays. c42_refuted: dims [0,3] come back as [0,0]. |
| C43 | Deserialization rejects ragged input | partial | `c43_partial`, `c43_safe`, `c43_array_partial`, `c43_rect_elements`, `c43_refuted`, `c43_overflow_refuted`, `c43_returns`, `c43_array_returns` | Success exactly on rectangular nests agreeing with the constants, error otherwise, provided the size hints of the input are not absurdly large; with a large hint the code panics (c43_refuted, c43_overflow_refuted). c43_safe holds for every input and element deserializer. c43_returns, c43_array_returns: whatever the hints, an answer that is returned is right, and a panic means an inadequate hint or an element that panics. |
| C44 | Conversions from and to nested Rust arrays keep element positions | partial | `c44_tensor_partial`, `c44_tensor_ref_partial`, `c44_try_tensor`, `c44_round_partial`, `c44_view_partial`, `c44_try_view`, `c44_as_ref`, `c44_unique`, `c44_array`, `c44_array_back`, `c44_array_ref`, `c44_array_shape`, `c44_array_scalar`, `c44_tensor_from_array`, `c44_tensor_from_array_exact`, `c44_slice`, `c44_slice_view`, `c44_unfit`, `c44_refuted` | full for every array whose length computation does not overflow, hence for every array with elements; empty arrays such as [[[T; 0]; 2^40]; 2^40] make Tensor::from and View::from panic (c44_refuted) |
| C45 | No arithmetic overflow for allocated arrays | partial | `c45_len`, `c45_strides`, `c45_empty_partial`, `c45_refuted`, `c45_len_release`, `c45_get`, `c45_get_linear`, `c45_offset`, `c45_linear_offset`, `c45_step_partial`, `c45_reshape_partial`, `c45_whole`, `c45_run_partial`, `c45_plain_run`, `c45_bytes_refuted`, `c45_room_refuted` | Proved for all arrays with elements: lengths, strides, offsets, linear offsets and element access equal the exact values in both build modes. View operations and programs agree for storages of at most isize::MAX/2 cells when stepped ranges and diagonals leave room. False in general: empty shapes with huge dimensions overflow in checked builds (c45_refuted), as do byte storages above half of isize::MAX (c45_bytes_refuted) and repeated steps/diagonals on unit dimensions (c45_room_refuted). |
| C46 | Result shape types always accept the computed dimensions | proved | `c46_remove`, `c46_resize`, `c46_view`, `c46_permute`, `c46_reverse`, `c46_zip_type`, `c46_zip_keeps_constants`, `c26_zip` |  |
| C47 | Owned conversions keep contents | proved | `c47_into_vec`, `c47_from_vec`, `c47_into_flat`, `c47_into_shape`, `c47_into_mapping`, `c47_accepts`, `c47_extend`, `c47_extend_panics`, `c47_into_scalar`, `c47_clone`, `c47_clone_from` | FromIterator is From<Vec> of the collected vector (std) |
| C48 | Debug output is the nested element list | partial | `c48_debug_partial`, `c48_nonempty`, `c48_leaves_partial`, `c48_layout_partial`, `c48_refuted`, `c48_exact` | full for arrays with elements; guard and counterexample as C38. c48_exact: exactly when Debug works. |
| C49 | A failed resize leaves a usable tensor | partial | `c49_dynamic_partial`, `c34_clear_dynamic`, `c49_refuted`, `c49_exact` | holds for shapes with a dynamic dimension; refuted for shapes whose dimensions are all constant (process aborts). c49_exact: after a refused resize the tensor is usable exactly when the default shape is empty or the number of elements is unchanged; otherwise the process aborts. |
| C50 | Dynamic-rank shapes compare by dimensions, not representation | proved | `c50_eq`, `c50_cmp`, `c50_hash`, `c50_clone`, `c50_from`, `c50_new` |  |
| C51 | permute rejects non-permutations at every rank | partial | `c51_partial`, `c51_checked`, `c51_exact`, `c51_wide`, `c51_refuted` | Proved for ranks below 64 in both modes and for all ranks with overflow checks. Exactly which lists pass at higher ranks without overflow checks: c51_exact; no permutation does (c51_wide). False without overflow checks: at rank 65 the list of zeros passes and the resulting view reads outside the storage (c51_refuted). |
| C52 | A consumed array in a zip gives every element once | partial | `c52_left`, `c52_right`, `c52_zip`, `c52_drain_left`, `c52_drain_right`, `c52_pass_partial`, `c52_refuted`, `c52_drain_refuted`, `c52_exact`, `c52_right_exact` | Proved for every operand, side and number of calls that ends normally: each element comes out once, in order, and the rest is dropped. The first pass is free of undefined behaviour (c52_pass_partial). False: calling next after None with an operand that has outer dimensions starts the iteration again and takes elements that are gone (c52_refuted, c52_drain_refuted). c52_exact, c52_right_exact: exactly for which operands next can be called for ever; otherwise it reads a moved element eventually. |
| C53 | Cloning a consuming expression | partial | `c53_clone`, `c53_in_use`, `c53_clone_from`, `c53_clone_from_safe`, `c53_drop`, `c53_balanced_partial`, `c53_refuted`, `c53_clone_exact`, `c53_clone_from_exact`, `c53_clone_from_lost`, `c53_drop` | Contents, order and refusal proved. Elements are lost when a clone panics, and clone_from never drops the elements it replaces (c53_refuted). c53_clone_exact, c53_clone_from_exact, c53_clone_from_lost: exactly when something is lost, and that nothing is ever duplicated. |
| C54 | array(..), tensor(..) and to_owned copy exactly the selected elements | partial | `c54_copy_partial`, `c54_sub_partial`, `c54_panics`, `c54_refuted`, `c54_exact` | Full for dense selections and for those whose outer dimensions are non-zero or whose last dimension is 0. Selections that are empty only in an outer dimension read elements that do not exist (c54_refuted; the cause is C25). c54_exact: exactly which selections are copied. |
| C55 | The nightly guard leaves a tensor consistent after a panic | partial | `c55_dynamic_partial`, `c55_done`, `c55_safe_partial`, `c55_guard_partial`, `c55_refuted`, `c55_exact` | Equal to the stable guard for shape types whose default is empty, hence safe there. False for shape types without dynamic dimension: the tensor claims elements that have been dropped (c55_refuted). c55_exact: with the nightly guard the tensor is consistent exactly under the condition of c49_exact; otherwise dropping it is undefined behaviour. |
| C56 | Pointers stay inside the allocation | partial | `c56_step`, `c56_chain`, `c56_iteration_partial`, `c56_nonempty`, `c56_dense`, `c56_full`, `c56_refuted`, `c56_refuted_transposed`, `c56_exact`, `c56_exact_empty` | View operations never leave the allocation. Iteration stays inside for all non-empty views, dense views and subarrays. False for an empty strided view whose last dimension is 0: fold moves the pointer along the outer dimensions (c56_refuted). c56_exact: exactly which views can be iterated with the pointer inside the allocation; every iteration of the others is undefined. |
| C57 | Panicking destructors do no damage | proved | `c57_history`, `c57_no_destructor`, `c57_clear`, `c57_truncate`, `c57_drain`, `c57_append`, `c57_drop`, `c57_iterate`, `c57_array_map`, `c57_array_zip`, `c57_array_refused`, `c57_array_from_expr`, `c57_conversions`, `c57_deserialize`, `c57_deserialize_safe` | For every program and every destructor. Items of the second operand of expand and zip_with, and values of the deserializer that are not elements, have no destructor. |
| C58 | An iterator in use is neither shown nor cloned | proved | `c58_used`, `c58_unused`, `c58_into`, `c58_zip`, `c58_clone` | For any expression and any way of showing it. The state after a caught panic in next is not modelled (the index is advanced first, so the guard holds as well). |
| C59 | array!, tensor! and view! make what is written | proved | `c59_tensor`, `c59_array`, `c59_view`, `c59_tensor_repeat`, `c59_tensor_repeat_unfit`, `c59_repeat`, `c59_agree` | Arguments are trees of lists, repetitions and other expressions with given values; the number of elements must not overflow (otherwise c59_tensor_repeat_unfit, c44_unfit). |
| C60 | All ways to give a shape agree | proved | `c60_into`, `c60_dynrank`, `c50_eq` |  |
| C61 | Creating, reserving and shrinking change only the capacity | proved | `c61_reserve`, `c61_shrink`, `c61_with_capacity` | The allocator may refuse any request and grow to any capacity; element types are not zero-sized. |
| C62 | Mappings are built as given and debug builds catch every wrong offset | proved | `c62_strided_new`, `c62_default`, `c62_offset_debug`, `c62_linear_debug`, `c62_offset_release`, `c62_linear_release` |  |
| C63 | The unsafe entry points do what they say within their contracts | proved | `c63_get`, `c63_get_linear`, `c63_get_debug`, `c63_round_trip`, `c63_usable`, `c63_set_mapping`, `c63_fill`, `c63_shrink` | Cells of an allocation are initialized or not; addresses and alignment of the allocation are not modelled. |
| C64 | Indexing a dense array with a range gives the elements of the range | proved | `c64_range`, `c64_unchecked` |  |
| C65 | View operations have the documented layouts | proved | `c65_lane`, `c65_axis_at`, `c65_split_axis_at`, `c65_needed`, `c65_view`, `c65_others` |  |
| C66 | Overflowing address arithmetic is harmless | proved | `c66_release_step`, `c66_step`, `c66_checks`, `c66_safe`, `c66_release_run` | Removes the room conditions of C45 for the safety of view operations: no condition on strides, steps, diagonals or emptiness. Permutations from rank 64 on are C51. |
| C67 | A reference to a slice leads to its elements and its mapping | proved | `c67_size`, `c67_deref`, `c67_array`, `c67_nested`, `c67_back_and_forth` | Sizes are those of a 64-bit target. |
| C68 | Serialization stops at the first error | proved | `c68_emit`, `c68_dynrank`, `c68_builds` | For shapes that can exist (fits: no huge empty shapes, see C48). |
| C69 | Iterating with machine integers | proved | `c69_build`, `c69_fold`, `c69_next`, `c69_release`, `c69_debug`, `c69_checks`, `c69_checks_next`, `c69_refused`, `c69_run`, `c69_refuted`, `c69_empty_refuted` | c69_refuted and c69_empty_refuted are witnesses for the two exceptions in the statement. |
| C70 | Mapping primitives are right or panic | proved | `c70_prepend`, `c70_remove`, `c70_resize`, `c70_reorder` | For any mapping with as many strides as dimensions, whether or not it is the mapping of a valid view. c70_reorder asks that the type of the mapping takes its dimensions. Remap, permute and reshape are C17, C09/C51 and C12-C16. |
| C71 | Writing through a view changes exactly its elements | proved | `c71_each`, `c71_fill_with`, `c71_fill`, `c71_zip`, `c71_at`, `c71_linear`, `c71_refused`, `c71_halves`, `c71_refuted` | For views with elements and for dense views (and the empty strided ones whose last dimension is 0); c71_refuted is the witness that other empty strided views are written through. c71_halves asks that the written half has elements. |
| C72 | Programs mixing owned operations and writes through views | proved | `c72_program`, `c72_clean`, `c72_others`, `c72_operand` | Conditions as in C31 and C71: operands behave (every fine expression tree does, c72_operand, c31_operand), views iterate rightly. The abort is that of C49. |
| C73 | Owned arrays with machine integers | proved | `c73_programs_exact`, `c73_step_exact`, `c73_programs_safe`, `c73_resize_checked`, `c73_release_exact`, `c73_resize_checked_refuted`, `c73_drain_once` | The dimensions given to resize, into_shape and operands are machine integers, the operands of expand and from_expr have lengths that are computed right (as owned arrays do), and zip_with on an empty array asks that the operand is contiguous or the strides of the array fit (zip_small). c73_resize_checked_refuted is the witness for the exception in the statement. Vec and its capacity checks are trusted; zero-sized elements are not modelled. |
| C74 | Allocators are owned once | proved | `c74_step`, `c74_programs`, `c74_once`, `c74_all_freed`, `c74_keeps_allocator`, `c74_new_allocator`, `c74_clone_allocator`, `c74_resize_allocator`, `c74_clone_refuted` | The panic of an allocator's clone is modelled, that of its drop is not; where stable stops the process (C49, C55) nothing is claimed. c74_clone_refuted is the witness for the exception in the statement. One reallocation is counted for a step that grows a vector several times. |
| C75 | Arrays of elements without size | proved | `c75_get`, `c75_get_linear`, `c75_get_checked`, `c75_fold`, `c75_next`, `c75_checks`, `c75_run`, `c75_accepts`, `c75_refuted` | For views with elements (iteration of empty ones is C69). c75_accepts covers axis_at, the splits, view, permute and reorder, and flatten of the dense layout; for reshape, remap, col, row and diag c75_run says what an answer is, not when there is one. c75_refuted is the witness for the exception in the statement. |
| C76 | Writes through views with machine integers | proved | `c76_each`, `c76_each_exact`, `c76_fill_with`, `c76_fill`, `c76_zip`, `c76_at`, `c76_linear`, `c76_halves`, `c76_refused`, `c76_program`, `c76_clean`, `c76_operand`, `c76_release_step`, `c76_release`, `c76_refuted` | Loops are over views with elements or contiguous ones (other empty views: C71). c76_release, the equality of whole programs with those on unbounded integers, is for the commands other than zips and halves of splits, whose results c76_zip and c76_halves give exactly. c76_refuted is the witness for the exception in the statement. |
| C77 | What chains of view operations select, by indices alone | proved | `c77_step`, `c77_panics`, `c77_chain`, `c77_chain_panics`, `c77_write`, `c77_machine`, `c77_machine_write`, `c77_same`, `c77_context`, `c77_reorder_twice`, `c77_permute_twice`, `c77_axis_at_view`, `c77_split_view`, `c77_row_col`, `c77_diag_reorder`, `c77_view_reorder`, `c77_reverse_twice`, `c77_reshape_twice` | When reshape, flatten and remap to the dense layout panic depends on the layout: C12-C17. The exact panic condition is for dimensions below usize::MAX and fewer than 64 of them (C16, C51). Writes are for views that iterate rightly (C71) and, with overflow checks, can be walked through (C76). The laws hold for the meanings, so for runs in which both sides do not panic. |
| C78 | Programs do what a reference interpreter on plain arrays says | proved | `c78_step`, `c78_run`, `c78_reads`, `c78_same` | The exceptions are in the statement; they are conditions on states of the interpreter (one_ok in Refer.v). Operands of expand, zip_with and assignments are views of one other array whose elements are read; general operands are C30, C36 and C71. Leaked drains are left out (C33). The allocator never refuses; allocators that may are C80. Machine integers: C73 and C76. |
| C79 | What a panic of the user's code leaves behind in expand, resize and clone_from | proved | `c79_expand`, `c79_resize_rows`, `c79_resize_other`, `c79_resize_value`, `c79_clone_from_kept`, `c79_clone_from_lost` | For requests that can be met and an allocator that does not refuse; refused requests are C32, C35 and C49, refusals of the allocator C61. extend is C47. Panicking destructors are C57. |
| C80 | Programs with allocators that may refuse, and on arrays of zero-sized elements, do what a reference interpreter says | proved | `c80_granted`, `c80_same`, `c80_zst_step`, `c80_zst_run`, `c80_zst_stored`, `c80_zst_like_others`, `c80_zst_over` | The conditions on programs are those of C78 (z_acts_ok adds the bound on given vectors and on extend). Index computations are exact here; those for views of zero-sized elements with machine integers are C75. What single calls do when an allocator refuses is C61; that no refusal breaks an array in any program is part of C31. |
| C81 | With machine integers and no overflow checks programs still do what the reference interpreter says | proved | `c81_step`, `c81_run`, `c81_reads`, `c81_same`, `c81_checked_refuted` | c81_checked_refuted shows the last sentence: a debug build leaves another state than the interpreter. The conditions on programs are acts_ok (Refer.v, as for C78) and m_acts_ok (ReferMachine.v). Loops over empty views are left out since walking through a view without elements multiplies by sizes that may be anything; C73 and C76 treat those that end. |
| C82 | With overflow checks programs whose views do not overflow do what the reference interpreter says | proved | `c82_step`, `c82_run`, `c82_builds`, `c82_plain`, `c82_plain_run`, `c82_resize_refuted` | calm_acts and plain_acts (ReferMachine.v) are the conditions on overflow, acts_ok and m_acts_ok those of C78 and C81. c82_resize_refuted shows the last sentence. That a view which overflows does panic is c81_checked_refuted; which single view operations overflow is C66. |
| C83 | Deserialization with machine integers | proved | `c83_exact`, `c83_safe`, `c83_returns`, `c83_dyn_rank`, `c83_builds`, `c83_hint_refuted` | c83_hint_refuted shows the last sentence. sized (MachineSerde.v) says that lengths of sequences and size hints are machine integers; al_machine that no vector has more than isize::MAX elements, so element types of size zero are left out. That large hints can panic in every build is c43_refuted. |
| C84 | Equality, contains, hashing, debug output and serialization with machine integers | proved | `c84_walkable`, `c84_dense`, `c84_exact`, `c84_equal`, `c84_contains`, `c84_debug`, `c84_hash`, `c84_hash_equal`, `c84_round`, `c84_stride_refuted` | modest (MachineRows.v) is the condition on views; c84_walkable and c84_dense say which views meet it. c84_stride_refuted shows the last sentence. Hashing of empty strided arrays is wrong with unbounded integers already (c39_refuted), so it is claimed for arrays with elements only. c84_round asks for the memory of C42. |
| C85 | Fixed-size arrays with machine integers | proved | `c85_from_expr`, `c85_from_tensor`, `c85_map`, `c85_zip_with`, `c85_calls`, `c85_empty_refuted`, `c85_deserialize`, `c85_deserialize_returns` | c85_empty_refuted shows the last sentence. Without overflow checks c85_deserialize asks that size hints do not make a product overflow; c85_deserialize_returns does not. c85_zip_with asks of an empty array only that the length of the inner loop is computed right. The size of an array is a matter of its type (at most isize::MAX elements) and exact; element types of size zero are left out. |
| C86 | Lazy operators with machine integers | proved | `c86_binary`, `c86_unary`, `c86_arrays` | walkable and t_machine are defined in MachineIter.v. Empty strided operands are left out: iterating them is wrong with unbounded integers already (C22, C41). Compound assignment is C76, operators on owned operands are C73 and C85. |

## Findings

Places where the code, as modelled, does not do what the property (usually the documentation) says:

1. `Lanes::get_unchecked` ignores the offset of the outer position: for rank 3 and more `rows()` repeats
   lanes and `lanes_mut` hands out overlapping mutable views (C21).
2. Iteration over a strided view with a zero dimension before a non-zero last one visits elements that do not
   exist (C22, C23); `assign` through such a view overwrites foreign cells (C30, C71); hashing, `to_tensor`,
   operators inherit it (C29, C39, C41).
3. `Tensor::from_fn([0, 3], f)` calls `f` and writes outside the allocation (C28, C29, C31); `from_fn` with a
   `DynRank` shape panics (C28).
4. `Iter` is not fused and `size_hint` is wrong after the end for strided arrays of rank 2 or more (C24, C25).
5. `reshape` of a strided view can panic although the layout is compatible, when a dimension of size 1 has an
   unrelated stride (C15); a dimension equal to `usize::MAX` cannot be reshaped to itself (C16).
6. `expand` with an empty expression accepts mismatched inner dimensions and does not take over the shape (C32).
7. `Tensor::zip_with` leaks the last result when the other operand panics (C36).
8. `resize` of a tensor whose dimensions are all constant aborts the process on a mismatch (C49).
9. Empty arrays with huge dimensions: `==`, `contains`, `Debug`, `axis_expr` panic on a permuted view (C20, C38, C40,
   C48); the conversions from `[[[T; 0]; 2^40]; 2^40]` panic (C44); debug builds overflow (C45).
10. Serialization: `[0, 3]` comes back as `[0, 0]` (C42); a large size hint panics (C43).
11. `permute` of a rank-65 array accepts a list of zeros in release builds and reads outside the storage (C51).
12. Zipping an owned array or a drain with a strided operand: `next` after `None` moves elements out a second time or
    reads past the end (C52).  An owned empty array and a strided operand of shape `[0, 3]`: `zip_with` and the operators
    panic in a debug build and read an element that is not there in a release build (C85, `c85_empty_refuted`).
13. `IntoExpr::clone_from` never drops the elements it replaces, and a panicking clone leaks the clones before it (C53).
14. With `nightly`, the guard of `with_mut_parts` does not check that the default shape is empty: a caught panic in
    `resize` of a constant-shape tensor leaves it claiming elements that were dropped (C55).
15. `for_each` over an empty strided view whose last dimension is 0 moves the pointer along the outer dimensions, out of
    the allocation, which `ptr.offset` forbids even when nothing is read (C56).
16. With overflow checks, a view whose unit dimension got the stride `isize::MIN` (a range with step `-2^62`, say) cannot be
    iterated: `reset_dim` negates the stride (C69).  A write loop over such a view can end half way (C76, `c76_refuted`).
17. With overflow checks, `resize` of an empty array such as `[0, 2^40, 2^40]` to a non-empty one panics: `copy_dim`
    computes a stride it does not need (C73).
18. With `nightly`, cloning a tensor clones a bitwise copy of its allocator (`with_vec`, raw_tensor.rs:278).  If the
    allocator's `clone` replaces a value inside itself (`RefCell<Box<..>>`), the tensor keeps the old, dropped value and
    the new one is lost: a double free with safe user code (C74, `c74_clone_refuted`).
19. With overflow checks, an array of zero-sized elements such as `Tensor<(), (Dyn, Dyn)>` of shape `[2^62, 3]` cannot be
    indexed at all indices within its bounds, though it can be indexed linearly and iterated: the offset, which is not
    needed, overflows (C75, `c75_refuted`).
20. A panicking `clone` in `expand` loses the elements that the array had before, although appending could leave them: the
    new sizes are stored before the clones are made, so the guard empties the array (C79).

## Trusted base

* The Coq 8.16.1 kernel (`coqc`; `vm_compute` is used in examples and refutations).
* `Print Assumptions` says "Closed under the global context" for every theorem of the `Props*` files: no axioms,
  neither our own nor the standard library's.
* The transcription of the code into the model files, definition by definition.
* Rust semantics as modelled: evaluation order, unwinding order, drop of locals, integer semantics.
* The standard library as documented: `Vec` (a list with a capacity, `truncate`, `reserve`, `resize_with`,
  `clone_from`, `extend`, `drain`-free raw parts), slices, `Iterator::eq/any`, `ManuallyDrop`, array layout.

## Not modelled, or simplified

* What rustc checks: typing, lifetimes, borrow rules, variance, `Send`/`Sync`, trait selection.
* The allocator beyond "grants or refuses" (no addresses, no alignment); `Box` allocation failure for shapes.
* Element types of size zero, except in `Zst.v` (views of them, C75) and `ReferRoom.v` (programs on owned arrays of them,
  with exact index computations, C80).
* Elements whose `drop` panics, except in `Dtor.v` and `DtorMore.v` (C57).
* The `nightly` feature: outside `Alloc.v` (C74) and the guard of `with_mut_parts` (C55) only the stable `cfg` branches
  are transcribed.  In `Alloc.v` an allocator's `drop` does not panic, and a step that grows a vector several times counts
  as one reallocation.
* In `Program.v` an operand does not share captured state with the element code (its items are computed independently),
  and an element that is replaced counts as dropped even if the code keeps it (`mem::replace`).
* In `MachineTensor.v`, `Vec` itself stays exact: it refuses what does not fit.  The nested conversions
  are not repeated there; deserialization is, in `MachineSerde.v`, and arrays (`array.rs`) are, in `MachineArray.v`,
  where the size of an array is a matter of its type and exact.
* In `Serde.v` serializers do not fail (they may in `Sink.v`); deserializers are arbitrary.
* Formatting is modelled as the tree of `debug_list` entries, not as text; the hasher as the sequence of values it
  is given.
* Of the unsafe functions with a safety contract, `get_unchecked`, raw parts and `set_mapping` are modelled as entry
  points (`Unsafe.v`, C63); `View::new_unchecked` is a view given by its pointer and mapping, whose contract is
  `valid_view`.
* The macros (`Macros.v`): an argument is a tree of lists, repetitions and other expressions with their values; how Rust
  parses expressions, evaluates them and infers the lengths of ragged literals (a type error) is not modelled.

## Testing the theorems against wrong programs

`seeded/LOG.jsonl` has one line per wrong program: the definition edited, the edit, the claim it breaks, what failed
to build, and what was tightened because of it.  The edits are made in a scratch copy and rebuilt there.

In each line `failed.lemmas` are the lemmas and theorems whose proofs no longer build (all failures in the first file
that fails), `failed.checks` are the `Example`s that no longer compute to the stated result when the proofs are taken
for granted, and `failed.theorems_using_the_failed_lemmas` are the property theorems whose proofs rely on the failed
lemmas.  `verdict` says whether the edit is observable at all: some turn out to be equivalent, because a later check
rejects the same inputs or no caller reaches the difference, and a few repair a defect, so that a refutation fails.
