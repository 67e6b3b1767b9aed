{
 "claims": [
  {
   "property": "C01",
   "status": "proved",
   "theorems": [
    "c01_dense_row_major",
    "c01_bijection"
   ],
   "note": ""
  },
  {
   "property": "C02",
   "status": "proved",
   "theorems": [
    "c02_linear"
   ],
   "note": ""
  },
  {
   "property": "C03",
   "status": "proved",
   "theorems": [
    "c03_checked"
   ],
   "note": ""
  },
  {
   "property": "C04",
   "status": "proved",
   "theorems": [
    "c04_view",
    "shows_reads"
   ],
   "note": ""
  },
  {
   "property": "C05",
   "status": "proved",
   "theorems": [
    "c05_view_panics"
   ],
   "note": ""
  },
  {
   "property": "C06",
   "status": "proved",
   "theorems": [
    "c06_step_positions",
    "c04_view",
    "c05_view_panics"
   ],
   "note": ""
  },
  {
   "property": "C07",
   "status": "proved",
   "theorems": [
    "c07_axis_at",
    "c07_axis_at_panics"
   ],
   "note": ""
  },
  {
   "property": "C08",
   "status": "proved",
   "theorems": [
    "c08_split",
    "c08_partition",
    "c08_split_panics"
   ],
   "note": ""
  },
  {
   "property": "C09",
   "status": "proved",
   "theorems": [
    "c09_permute",
    "c09_permute_panics"
   ],
   "note": "rank < 64 (debug-build shift semantics)"
  },
  {
   "property": "C10",
   "status": "proved",
   "theorems": [
    "c10_constant_permutation",
    "c10_dense_is_identity"
   ],
   "note": ""
  },
  {
   "property": "C11",
   "status": "proved",
   "theorems": [
    "c11_reorder"
   ],
   "note": ""
  },
  {
   "property": "C12",
   "status": "proved",
   "theorems": [
    "c12_reshape_shape",
    "c12_reshape_view"
   ],
   "note": ""
  },
  {
   "property": "C13",
   "status": "proved",
   "theorems": [
    "c13_dense_reshape"
   ],
   "note": ""
  },
  {
   "property": "C14",
   "status": "proved",
   "theorems": [
    "c14_reshape_sound"
   ],
   "note": ""
  },
  {
   "property": "C15",
   "status": "partial",
   "theorems": [
    "c15_reshape_complete_partial",
    "c15_reshape_exact",
    "c15_reshape_empty",
    "c15_reshape_complete_refuted"
   ],
   "note": "c15_reshape_exact says exactly when reshape of a non-empty view succeeds: compatible layout, and every size-1 dimension lies on a border of the new shape or continues the next stride; empty views always succeed. As documented (compatible layout only) it is false: a permuted [1,2,3] array (c15_reshape_complete_refuted)."
  },
  {
   "property": "C16",
   "status": "partial",
   "theorems": [
    "c16_reshape_same",
    "c16_exact",
    "c16_reshape_same_refuted",
    "c18_row_col",
    "c18_diag"
   ],
   "note": "Holds unless a dimension equals usize::MAX (which reshape reads as 'infer') or the dimensions overflow; exactly when it succeeds: c16_exact. Refuted for a dimension usize::MAX."
  },
  {
   "property": "C17",
   "status": "proved",
   "theorems": [
    "c17_remap_strided",
    "c17_remap_dense",
    "c17_contiguous",
    "c17_contiguous_complete"
   ],
   "note": ""
  },
  {
   "property": "C18",
   "status": "proved",
   "theorems": [
    "c18_diag",
    "c18_row_col",
    "c18_into_diag",
    "c18_rank"
   ],
   "note": "row/col/diag: dimensions below usize::MAX, see C16"
  },
  {
   "property": "C19",
   "status": "proved",
   "theorems": [
    "c19_chain",
    "c19_step"
   ],
   "note": ""
  },
  {
   "property": "C20",
   "status": "partial",
   "theorems": [
    "c20_axis_expr_partial",
    "c20_exact",
    "c20_nonempty",
    "c20_refuted"
   ],
   "note": "Exactly for which views: c20_exact (the axis is empty or the other dimensions do not overflow; otherwise the first item panics). Refuted for an empty permuted view with overflowing remaining dimensions, where axis_expr panics although axis_at works."
  },
  {
   "property": "C21",
   "status": "partial",
   "theorems": [
    "c21_lanes_partial",
    "c21_refuted",
    "c21_exact",
    "c21_alias",
    "c21_panics"
   ],
   "note": "holds when the remaining dimensions are dense or the rank is at most 2; refuted for rows() of a rank-3 array (get_unchecked ignores the offset; lanes_mut yields aliasing lanes). c21_exact: exactly for which arrays the lanes are right; c21_alias: otherwise two lanes of a non-empty array are the same view."
  },
  {
   "property": "C22",
   "status": "partial",
   "theorems": [
    "c22_fold_partial",
    "c22_exact",
    "c22_count",
    "c22_refuted"
   ],
   "note": "exact condition proved: fails precisely for strided views with a zero before a non-zero last dimension"
  },
  {
   "property": "C23",
   "status": "partial",
   "theorems": [
    "c23_next_partial",
    "c23_exact",
    "c27_tree_next_partial",
    "c23_refuted"
   ],
   "note": "Exactly for which views next() yields the elements and then None: c23_exact (dense, rank <= 1, non-empty, or an empty row with at most one row). fold after any number of next() calls: c23_next_partial. Refuted for an empty strided view (c23_refuted)."
  },
  {
   "property": "C24",
   "status": "partial",
   "theorems": [
    "c24_size_partial",
    "c24_exact",
    "c23_next_partial",
    "c27_tree_next_partial",
    "c24_refuted"
   ],
   "note": "Exactly for which views size_hint stays right for ever: c24_exact (dense, rank <= 1, or a single row). Up to the end of the iteration it is right for all non-empty views. Refuted after exhaustion for strided rank >= 2."
  },
  {
   "property": "C25",
   "status": "partial",
   "theorems": [
    "c25_fused_partial",
    "c25_exact",
    "c25_cycle",
    "c27_tree_next_partial",
    "c25_refuted",
    "c25_tree"
   ],
   "note": "Exactly for which views the iterator is fused: c25_exact (dense, rank <= 1, or a single row). Otherwise all rows but the first are visited again and again (c25_cycle). Refuted for a transposed 2x2 view. c25_tree: for every expression, not only views, None is final exactly when no outer dimension exceeds 1."
  },
  {
   "property": "C26",
   "status": "proved",
   "theorems": [
    "c26_zip",
    "c26_build",
    "c26_zip_items",
    "c26_zip_items_partial",
    "c46_zip_type",
    "c26_drain"
   ],
   "note": "the element theorem excludes lanes operands (C21)"
  },
  {
   "property": "C27",
   "status": "proved",
   "theorems": [
    "c27_tree_fold_partial",
    "c27_nonempty",
    "c27_tree_next_partial",
    "c27_map",
    "c27_enumerate",
    "c27_copied",
    "c27_fill",
    "c27_from_elem_panics",
    "c27_exact"
   ],
   "note": "quantifier is non-degenerate shapes: guard t_fine. c27_exact: folding a tree that is not fine never yields its elements, so the guard is exact."
  },
  {
   "property": "C28",
   "status": "partial",
   "theorems": [
    "c28_from_fn_partial",
    "c28_tensor_partial",
    "c28_array_partial",
    "c28_dyn_refuted",
    "c28_zero_refuted",
    "c28_owned_refuted",
    "c28_exact",
    "c28_dynrank",
    "c28_panics"
   ],
   "note": "static rank and no zero outer dimension before a non-zero one; refuted for DynRank (panics) and for [0,3] (closure called, Tensor::from_fn/Array::from_fn write out of bounds). c28_exact: for static ranks from_fn calls the closure as documented exactly when no outer dimension is zero or the last one is; for DynRank every shape but the scalar panics (c28_dynrank)."
  },
  {
   "property": "C29",
   "status": "partial",
   "theorems": [
    "c29_eval_partial",
    "c29_array_partial",
    "c29_array_mismatch",
    "c29_to_tensor_partial",
    "c29_to_vec",
    "c29_refuted",
    "c28_owned_refuted",
    "c29_exact",
    "c29_array_exact"
   ],
   "note": "holds for every expression tree under the guard t_fine of C22 (all non-empty arrays without lanes, all dense arrays); refuted for empty strided views and from_fn([0,3]). c29_exact, c29_array_exact: evaluation gives the elements exactly under the guard."
  },
  {
   "property": "C30",
   "status": "partial",
   "theorems": [
    "c30_assign_partial",
    "c30_assign_panics",
    "c30_fill_partial",
    "c30_refuted",
    "c30_ub_refuted",
    "c30_fill_exact",
    "c30_assign_exact"
   ],
   "note": "guard of C22; refuted for an empty strided view: cells outside the view are overwritten. c30_fill_exact, c30_assign_exact: the closure is called once per element exactly under the guard."
  },
  {
   "property": "C31",
   "status": "partial",
   "theorems": [
    "c31_history_partial",
    "c31_operand",
    "c31_zip_operand",
    "c31_refuted",
    "c29_exact"
   ],
   "note": "all sequences of operations with panics at any point; operands must not run into C22/C28; refuted for from_fn([0,3]). c29_exact: exactly which operands evaluate."
  },
  {
   "property": "C32",
   "status": "partial",
   "theorems": [
    "c32_expand",
    "c32_expand_empty",
    "c32_elements",
    "c32_mismatch_partial",
    "c32_no_rows",
    "c32_nothing",
    "c32_append",
    "c32_append_empty",
    "c32_append_nothing",
    "c32_append_mismatch",
    "c32_refuted",
    "c32_exact"
   ],
   "note": "holds for non-empty expressions; refuted for empty ones (dimensions not taken over, mismatch accepted). c32_exact: exactly for which expressions the documentation is right."
  },
  {
   "property": "C33",
   "status": "proved",
   "theorems": [
    "c33_drain",
    "c33_panics",
    "c33_rows"
   ],
   "note": ""
  },
  {
   "property": "C34",
   "status": "proved",
   "theorems": [
    "c34_truncate",
    "c34_truncate_panics",
    "c34_clear",
    "c34_clear_panics",
    "c34_clear_dynamic"
   ],
   "note": "clear and truncate panic on shapes where the result is not representable (all dimensions constant, constant first dimension)"
  },
  {
   "property": "C35",
   "status": "proved",
   "theorems": [
    "c35_resize",
    "c35_resize_value",
    "c35_resize_panics"
   ],
   "note": "under the condition that new_dims matches the shape type; otherwise C49"
  },
  {
   "property": "C36",
   "status": "partial",
   "theorems": [
    "c36_history",
    "c36_zip_with",
    "c36_map",
    "c36_array_from_expr",
    "c36_array_map",
    "c36_array_unfit",
    "c36_array_zip_with",
    "c36_array_zip_items",
    "c36_drop",
    "c36_leak_refuted",
    "c36_zip_exact",
    "c36_clean"
   ],
   "note": "no double drop or use after drop for any program; no leak except at most one element per Tensor::zip_with; the leak clause is refuted for zip_with with a panicking operand (the last result is leaked, although not being processed). c36_zip_exact: zip_with loses something exactly when the operand panics after a result has been made; c36_clean: programs without zip_with and leaked drains lose nothing."
  },
  {
   "property": "C37",
   "status": "proved",
   "theorems": [
    "c37_into_iter",
    "c37_into_expr"
   ],
   "note": ""
  },
  {
   "property": "C38",
   "status": "partial",
   "theorems": [
    "c38_eq_partial",
    "c38_nonempty",
    "c38_calls_partial",
    "c38_refuted",
    "c38_exact"
   ],
   "note": "full for arrays with elements and for all arrays whose dimensions do not overflow; refuted for an empty permuted view with overflowing dimensions (== panics). c38_exact: exactly when == of two arrays of equal dimensions works."
  },
  {
   "property": "C39",
   "status": "partial",
   "theorems": [
    "c39_hash_partial",
    "c39_nonempty",
    "c39_sequence_partial",
    "c39_refuted",
    "c39_unsafe_refuted",
    "c39_exact"
   ],
   "note": "full for arrays with elements; refuted for empty strided views: equal arrays hash differently, or hashing reads out of bounds. c39_exact: exactly when hash feeds the elements and nothing else."
  },
  {
   "property": "C40",
   "status": "partial",
   "theorems": [
    "c40_contains_partial",
    "c40_nonempty",
    "c40_calls_partial",
    "c40_refuted",
    "c40_exact"
   ],
   "note": "full for arrays with elements; guard and counterexample as C38. c40_exact: exactly when contains works."
  },
  {
   "property": "C41",
   "status": "partial",
   "theorems": [
    "c41_expr_partial",
    "c41_values_partial",
    "c41_arrays",
    "c41_tensor_partial",
    "c41_tensor_right_partial",
    "c41_array_partial",
    "c41_array_right_partial",
    "c41_tensor_calls_partial",
    "c41_array_calls_partial",
    "c41_owned_mismatch",
    "c41_agree_partial",
    "c41_nonempty",
    "c41_assign_partial",
    "c41_assign_calls_partial",
    "c41_assign_mismatch",
    "c41_unary_partial",
    "c41_unary_tensor",
    "c41_unary_array",
    "c41_refuted",
    "c41_exact",
    "c41_unary_exact",
    "c41_assign_exact",
    "c41_tensor_exact",
    "c41_array_exact"
   ],
   "note": "all operand kinds and shapes under the guard t_fine, which holds for all non-empty operands (c41_nonempty); refuted for an empty owned tensor with an empty strided operand. c41_exact, c41_unary_exact, c41_assign_exact, c41_tensor_exact, c41_array_exact: the guard is exact for each kind of operand, and what happens otherwise."
  },
  {
   "property": "C42",
   "status": "partial",
   "theorems": [
    "c42_serialized",
    "c42_partial",
    "c42_shape_iff",
    "c42_nonempty",
    "c42_array",
    "c42_refuted",
    "c42_dynrank"
   ],
   "note": "Contents always round-trip; dimensions exactly when every dynamic dimension after an empty one is empty (c42_shape_iff), so always for nonempty tensors and for arrays. c42_refuted: dims [0,3] come back as [0,0]."
  },
  {
   "property": "C43",
   "status": "partial",
   "theorems": [
    "c43_partial",
    "c43_safe",
    "c43_array_partial",
    "c43_rect_elements",
    "c43_refuted",
    "c43_overflow_refuted",
    "c43_returns",
    "c43_array_returns"
   ],
   "note": "Success exactly on rectangular nests agreeing with the constants, error otherwise, provided the size hints of the input are not absurdly large; with a large hint the code panics (c43_refuted, c43_overflow_refuted). c43_safe holds for every input and element deserializer. c43_returns, c43_array_returns: whatever the hints, an answer that is returned is right, and a panic means an inadequate hint or an element that panics."
  },
  {
   "property": "C44",
   "status": "partial",
   "theorems": [
    "c44_tensor_partial",
    "c44_tensor_ref_partial",
    "c44_try_tensor",
    "c44_round_partial",
    "c44_view_partial",
    "c44_try_view",
    "c44_as_ref",
    "c44_unique",
    "c44_array",
    "c44_array_back",
    "c44_array_ref",
    "c44_array_shape",
    "c44_array_scalar",
    "c44_tensor_from_array",
    "c44_tensor_from_array_exact",
    "c44_slice",
    "c44_slice_view",
    "c44_unfit",
    "c44_refuted"
   ],
   "note": "full for every array whose length computation does not overflow, hence for every array with elements; empty arrays such as [[[T; 0]; 2^40]; 2^40] make Tensor::from and View::from panic (c44_refuted)"
  },
  {
   "property": "C45",
   "status": "partial",
   "theorems": [
    "c45_len",
    "c45_strides",
    "c45_empty_partial",
    "c45_refuted",
    "c45_len_release",
    "c45_get",
    "c45_get_linear",
    "c45_offset",
    "c45_linear_offset",
    "c45_step_partial",
    "c45_reshape_partial",
    "c45_whole",
    "c45_run_partial",
    "c45_plain_run",
    "c45_bytes_refuted",
    "c45_room_refuted"
   ],
   "note": "Proved for all arrays with elements: lengths, strides, offsets, linear offsets and element access equal the exact values in both build modes. View operations and programs agree for storages of at most isize::MAX/2 cells when stepped ranges and diagonals leave room. False in general: empty shapes with huge dimensions overflow in checked builds (c45_refuted), as do byte storages above half of isize::MAX (c45_bytes_refuted) and repeated steps/diagonals on unit dimensions (c45_room_refuted)."
  },
  {
   "property": "C46",
   "status": "proved",
   "theorems": [
    "c46_remove",
    "c46_resize",
    "c46_view",
    "c46_permute",
    "c46_reverse",
    "c46_zip_type",
    "c46_zip_keeps_constants",
    "c26_zip"
   ],
   "note": ""
  },
  {
   "property": "C47",
   "status": "proved",
   "theorems": [
    "c47_into_vec",
    "c47_from_vec",
    "c47_into_flat",
    "c47_into_shape",
    "c47_into_mapping",
    "c47_accepts",
    "c47_extend",
    "c47_extend_panics",
    "c47_into_scalar",
    "c47_clone",
    "c47_clone_from"
   ],
   "note": "FromIterator is From<Vec> of the collected vector (std)"
  },
  {
   "property": "C48",
   "status": "partial",
   "theorems": [
    "c48_debug_partial",
    "c48_nonempty",
    "c48_leaves_partial",
    "c48_layout_partial",
    "c48_refuted",
    "c48_exact"
   ],
   "note": "full for arrays with elements; guard and counterexample as C38. c48_exact: exactly when Debug works."
  },
  {
   "property": "C49",
   "status": "partial",
   "theorems": [
    "c49_dynamic_partial",
    "c34_clear_dynamic",
    "c49_refuted",
    "c49_exact"
   ],
   "note": "holds for shapes with a dynamic dimension; refuted for shapes whose dimensions are all constant (process aborts). c49_exact: after a refused resize the tensor is usable exactly when the default shape is empty or the number of elements is unchanged; otherwise the process aborts."
  },
  {
   "property": "C50",
   "status": "proved",
   "theorems": [
    "c50_eq",
    "c50_cmp",
    "c50_hash",
    "c50_clone",
    "c50_from",
    "c50_new"
   ],
   "note": ""
  },
  {
   "property": "C51",
   "status": "partial",
   "theorems": [
    "c51_partial",
    "c51_checked",
    "c51_exact",
    "c51_wide",
    "c51_refuted"
   ],
   "note": "Proved for ranks below 64 in both modes and for all ranks with overflow checks. Exactly which lists pass at higher ranks without overflow checks: c51_exact; no permutation does (c51_wide). False without overflow checks: at rank 65 the list of zeros passes and the resulting view reads outside the storage (c51_refuted)."
  },
  {
   "property": "C52",
   "status": "partial",
   "theorems": [
    "c52_left",
    "c52_right",
    "c52_zip",
    "c52_drain_left",
    "c52_drain_right",
    "c52_pass_partial",
    "c52_refuted",
    "c52_drain_refuted",
    "c52_exact",
    "c52_right_exact"
   ],
   "note": "Proved for every operand, side and number of calls that ends normally: each element comes out once, in order, and the rest is dropped. The first pass is free of undefined behaviour (c52_pass_partial). False: calling next after None with an operand that has outer dimensions starts the iteration again and takes elements that are gone (c52_refuted, c52_drain_refuted). c52_exact, c52_right_exact: exactly for which operands next can be called for ever; otherwise it reads a moved element eventually."
  },
  {
   "property": "C53",
   "status": "partial",
   "theorems": [
    "c53_clone",
    "c53_in_use",
    "c53_clone_from",
    "c53_clone_from_safe",
    "c53_drop",
    "c53_balanced_partial",
    "c53_refuted",
    "c53_clone_exact",
    "c53_clone_from_exact",
    "c53_clone_from_lost",
    "c53_drop"
   ],
   "note": "Contents, order and refusal proved. Elements are lost when a clone panics, and clone_from never drops the elements it replaces (c53_refuted). c53_clone_exact, c53_clone_from_exact, c53_clone_from_lost: exactly when something is lost, and that nothing is ever duplicated."
  },
  {
   "property": "C54",
   "status": "partial",
   "theorems": [
    "c54_copy_partial",
    "c54_sub_partial",
    "c54_panics",
    "c54_refuted",
    "c54_exact"
   ],
   "note": "Full for dense selections and for those whose outer dimensions are non-zero or whose last dimension is 0. Selections that are empty only in an outer dimension read elements that do not exist (c54_refuted; the cause is C25). c54_exact: exactly which selections are copied."
  },
  {
   "property": "C55",
   "status": "partial",
   "theorems": [
    "c55_dynamic_partial",
    "c55_done",
    "c55_safe_partial",
    "c55_guard_partial",
    "c55_refuted",
    "c55_exact"
   ],
   "note": "Equal to the stable guard for shape types whose default is empty, hence safe there. False for shape types without dynamic dimension: the tensor claims elements that have been dropped (c55_refuted). c55_exact: with the nightly guard the tensor is consistent exactly under the condition of c49_exact; otherwise dropping it is undefined behaviour."
  },
  {
   "property": "C56",
   "status": "partial",
   "theorems": [
    "c56_step",
    "c56_chain",
    "c56_iteration_partial",
    "c56_nonempty",
    "c56_dense",
    "c56_full",
    "c56_refuted",
    "c56_refuted_transposed",
    "c56_exact",
    "c56_exact_empty"
   ],
   "note": "View operations never leave the allocation. Iteration stays inside for all non-empty views, dense views and subarrays. False for an empty strided view whose last dimension is 0: fold moves the pointer along the outer dimensions (c56_refuted). c56_exact: exactly which views can be iterated with the pointer inside the allocation; every iteration of the others is undefined."
  },
  {
   "property": "C57",
   "status": "proved",
   "theorems": [
    "c57_history",
    "c57_no_destructor",
    "c57_clear",
    "c57_truncate",
    "c57_drain",
    "c57_append",
    "c57_drop",
    "c57_iterate",
    "c57_array_map",
    "c57_array_zip",
    "c57_array_refused",
    "c57_array_from_expr",
    "c57_conversions",
    "c57_deserialize",
    "c57_deserialize_safe"
   ],
   "note": "For every program and every destructor. Items of the second operand of expand and zip_with, and values of the deserializer that are not elements, have no destructor."
  },
  {
   "property": "C58",
   "status": "proved",
   "theorems": [
    "c58_used",
    "c58_unused",
    "c58_into",
    "c58_zip",
    "c58_clone"
   ],
   "note": "For any expression and any way of showing it. The state after a caught panic in next is not modelled (the index is advanced first, so the guard holds as well)."
  },
  {
   "property": "C59",
   "status": "proved",
   "theorems": [
    "c59_tensor",
    "c59_array",
    "c59_view",
    "c59_tensor_repeat",
    "c59_tensor_repeat_unfit",
    "c59_repeat",
    "c59_agree"
   ],
   "note": "Arguments are trees of lists, repetitions and other expressions with given values; the number of elements must not overflow (otherwise c59_tensor_repeat_unfit, c44_unfit)."
  },
  {
   "property": "C60",
   "status": "proved",
   "theorems": [
    "c60_into",
    "c60_dynrank",
    "c50_eq"
   ],
   "note": ""
  },
  {
   "property": "C61",
   "status": "proved",
   "theorems": [
    "c61_reserve",
    "c61_shrink",
    "c61_with_capacity"
   ],
   "note": "The allocator may refuse any request and grow to any capacity; element types are not zero-sized."
  },
  {
   "property": "C62",
   "status": "proved",
   "theorems": [
    "c62_strided_new",
    "c62_default",
    "c62_offset_debug",
    "c62_linear_debug",
    "c62_offset_release",
    "c62_linear_release"
   ],
   "note": ""
  },
  {
   "property": "C63",
   "status": "proved",
   "theorems": [
    "c63_get",
    "c63_get_linear",
    "c63_get_debug",
    "c63_round_trip",
    "c63_usable",
    "c63_set_mapping",
    "c63_fill",
    "c63_shrink"
   ],
   "note": "Cells of an allocation are initialized or not; addresses and alignment of the allocation are not modelled."
  },
  {
   "property": "C64",
   "status": "proved",
   "theorems": [
    "c64_range",
    "c64_unchecked"
   ],
   "note": ""
  },
  {
   "property": "C65",
   "status": "proved",
   "theorems": [
    "c65_lane",
    "c65_axis_at",
    "c65_split_axis_at",
    "c65_needed",
    "c65_view",
    "c65_others"
   ],
   "note": ""
  },
  {
   "property": "C66",
   "status": "proved",
   "theorems": [
    "c66_release_step",
    "c66_step",
    "c66_checks",
    "c66_safe",
    "c66_release_run"
   ],
   "note": "Removes the room conditions of C45 for the safety of view operations: no condition on strides, steps, diagonals or emptiness. Permutations from rank 64 on are C51."
  },
  {
   "property": "C67",
   "status": "proved",
   "theorems": [
    "c67_size",
    "c67_deref",
    "c67_array",
    "c67_nested",
    "c67_back_and_forth"
   ],
   "note": "Sizes are those of a 64-bit target."
  },
  {
   "property": "C68",
   "status": "proved",
   "theorems": [
    "c68_emit",
    "c68_dynrank",
    "c68_builds"
   ],
   "note": "For shapes that can exist (fits: no huge empty shapes, see C48)."
  },
  {
   "property": "C69",
   "status": "proved",
   "theorems": [
    "c69_build",
    "c69_fold",
    "c69_next",
    "c69_release",
    "c69_debug",
    "c69_checks",
    "c69_checks_next",
    "c69_refused",
    "c69_run",
    "c69_refuted",
    "c69_empty_refuted"
   ],
   "note": "c69_refuted and c69_empty_refuted are witnesses for the two exceptions in the statement."
  },
  {
   "property": "C70",
   "status": "proved",
   "theorems": [
    "c70_prepend",
    "c70_remove",
    "c70_resize",
    "c70_reorder"
   ],
   "note": "For any mapping with as many strides as dimensions, whether or not it is the mapping of a valid view. c70_reorder asks that the type of the mapping takes its dimensions. Remap, permute and reshape are C17, C09/C51 and C12-C16."
  },
  {
   "property": "C71",
   "status": "proved",
   "theorems": [
    "c71_each",
    "c71_fill_with",
    "c71_fill",
    "c71_zip",
    "c71_at",
    "c71_linear",
    "c71_refused",
    "c71_halves",
    "c71_refuted"
   ],
   "note": "For views with elements and for dense views (and the empty strided ones whose last dimension is 0); c71_refuted is the witness that other empty strided views are written through. c71_halves asks that the written half has elements."
  },
  {
   "property": "C72",
   "status": "proved",
   "theorems": [
    "c72_program",
    "c72_clean",
    "c72_others",
    "c72_operand"
   ],
   "note": "Conditions as in C31 and C71: operands behave (every fine expression tree does, c72_operand, c31_operand), views iterate rightly. The abort is that of C49."
  },
  {
   "property": "C73",
   "status": "proved",
   "theorems": [
    "c73_programs_exact",
    "c73_step_exact",
    "c73_programs_safe",
    "c73_resize_checked",
    "c73_release_exact",
    "c73_resize_checked_refuted",
    "c73_drain_once"
   ],
   "note": "The dimensions given to resize, into_shape and operands are machine integers, the operands of expand and from_expr have lengths that are computed right (as owned arrays do), and zip_with on an empty array asks that the operand is contiguous or the strides of the array fit (zip_small). c73_resize_checked_refuted is the witness for the exception in the statement. Vec and its capacity checks are trusted; zero-sized elements are not modelled."
  },
  {
   "property": "C74",
   "status": "proved",
   "theorems": [
    "c74_step",
    "c74_programs",
    "c74_once",
    "c74_all_freed",
    "c74_keeps_allocator",
    "c74_new_allocator",
    "c74_clone_allocator",
    "c74_resize_allocator",
    "c74_clone_refuted"
   ],
   "note": "The panic of an allocator's clone is modelled, that of its drop is not; where stable stops the process (C49, C55) nothing is claimed. c74_clone_refuted is the witness for the exception in the statement. One reallocation is counted for a step that grows a vector several times."
  },
  {
   "property": "C75",
   "status": "proved",
   "theorems": [
    "c75_get",
    "c75_get_linear",
    "c75_get_checked",
    "c75_fold",
    "c75_next",
    "c75_checks",
    "c75_run",
    "c75_accepts",
    "c75_refuted"
   ],
   "note": "For views with elements (iteration of empty ones is C69). c75_accepts covers axis_at, the splits, view, permute and reorder, and flatten of the dense layout; for reshape, remap, col, row and diag c75_run says what an answer is, not when there is one. c75_refuted is the witness for the exception in the statement."
  },
  {
   "property": "C76",
   "status": "proved",
   "theorems": [
    "c76_each",
    "c76_each_exact",
    "c76_fill_with",
    "c76_fill",
    "c76_zip",
    "c76_at",
    "c76_linear",
    "c76_halves",
    "c76_refused",
    "c76_program",
    "c76_clean",
    "c76_operand",
    "c76_release_step",
    "c76_release",
    "c76_refuted"
   ],
   "note": "Loops are over views with elements or contiguous ones (other empty views: C71). c76_release, the equality of whole programs with those on unbounded integers, is for the commands other than zips and halves of splits, whose results c76_zip and c76_halves give exactly. c76_refuted is the witness for the exception in the statement."
  },
  {
   "property": "C77",
   "status": "proved",
   "theorems": [
    "c77_step",
    "c77_panics",
    "c77_chain",
    "c77_chain_panics",
    "c77_write",
    "c77_machine",
    "c77_machine_write",
    "c77_same",
    "c77_context",
    "c77_reorder_twice",
    "c77_permute_twice",
    "c77_axis_at_view",
    "c77_split_view",
    "c77_row_col",
    "c77_diag_reorder",
    "c77_view_reorder",
    "c77_reverse_twice",
    "c77_reshape_twice"
   ],
   "note": "When reshape, flatten and remap to the dense layout panic depends on the layout: C12-C17. The exact panic condition is for dimensions below usize::MAX and fewer than 64 of them (C16, C51). Writes are for views that iterate rightly (C71) and, with overflow checks, can be walked through (C76). The laws hold for the meanings, so for runs in which both sides do not panic."
  },
  {
   "property": "C78",
   "status": "proved",
   "theorems": [
    "c78_step",
    "c78_run",
    "c78_reads",
    "c78_same"
   ],
   "note": "The exceptions are in the statement; they are conditions on states of the interpreter (one_ok in Refer.v). Operands of expand, zip_with and assignments are views of one other array whose elements are read; general operands are C30, C36 and C71. Leaked drains are left out (C33). The allocator never refuses; allocators that may are C80. Machine integers: C73 and C76."
  },
  {
   "property": "C79",
   "status": "proved",
   "theorems": [
    "c79_expand",
    "c79_resize_rows",
    "c79_resize_other",
    "c79_resize_value",
    "c79_clone_from_kept",
    "c79_clone_from_lost"
   ],
   "note": "For requests that can be met and an allocator that does not refuse; refused requests are C32, C35 and C49, refusals of the allocator C61. extend is C47. Panicking destructors are C57."
  },
  {
   "property": "C80",
   "status": "proved",
   "theorems": [
    "c80_granted",
    "c80_same",
    "c80_zst_step",
    "c80_zst_run",
    "c80_zst_stored",
    "c80_zst_like_others",
    "c80_zst_over"
   ],
   "note": "The conditions on programs are those of C78 (z_acts_ok adds the bound on given vectors and on extend). Index computations are exact here; those for views of zero-sized elements with machine integers are C75. What single calls do when an allocator refuses is C61; that no refusal breaks an array in any program is part of C31."
  },
  {
   "property": "C81",
   "status": "proved",
   "theorems": [
    "c81_step",
    "c81_run",
    "c81_reads",
    "c81_same",
    "c81_checked_refuted"
   ],
   "note": "c81_checked_refuted shows the last sentence: a debug build leaves another state than the interpreter. The conditions on programs are acts_ok (Refer.v, as for C78) and m_acts_ok (ReferMachine.v). Loops over empty views are left out since walking through a view without elements multiplies by sizes that may be anything; C73 and C76 treat those that end."
  },
  {
   "property": "C82",
   "status": "proved",
   "theorems": [
    "c82_step",
    "c82_run",
    "c82_builds",
    "c82_plain",
    "c82_plain_run",
    "c82_resize_refuted"
   ],
   "note": "calm_acts and plain_acts (ReferMachine.v) are the conditions on overflow, acts_ok and m_acts_ok those of C78 and C81. c82_resize_refuted shows the last sentence. That a view which overflows does panic is c81_checked_refuted; which single view operations overflow is C66."
  },
  {
   "property": "C83",
   "status": "proved",
   "theorems": [
    "c83_exact",
    "c83_safe",
    "c83_returns",
    "c83_dyn_rank",
    "c83_builds",
    "c83_hint_refuted"
   ],
   "note": "c83_hint_refuted shows the last sentence. sized (MachineSerde.v) says that lengths of sequences and size hints are machine integers; al_machine that no vector has more than isize::MAX elements, so element types of size zero are left out. That large hints can panic in every build is c43_refuted."
  },
  {
   "property": "C84",
   "status": "proved",
   "theorems": [
    "c84_walkable",
    "c84_dense",
    "c84_exact",
    "c84_equal",
    "c84_contains",
    "c84_debug",
    "c84_hash",
    "c84_hash_equal",
    "c84_round",
    "c84_stride_refuted"
   ],
   "note": "modest (MachineRows.v) is the condition on views; c84_walkable and c84_dense say which views meet it. c84_stride_refuted shows the last sentence. Hashing of empty strided arrays is wrong with unbounded integers already (c39_refuted), so it is claimed for arrays with elements only. c84_round asks for the memory of C42."
  },
  {
   "property": "C85",
   "status": "proved",
   "theorems": [
    "c85_from_expr",
    "c85_from_tensor",
    "c85_map",
    "c85_zip_with",
    "c85_calls",
    "c85_empty_refuted",
    "c85_deserialize",
    "c85_deserialize_returns"
   ],
   "note": "c85_empty_refuted shows the last sentence. Without overflow checks c85_deserialize asks that size hints do not make a product overflow; c85_deserialize_returns does not. c85_zip_with asks of an empty array only that the length of the inner loop is computed right. The size of an array is a matter of its type (at most isize::MAX elements) and exact; element types of size zero are left out."
  },
  {
   "property": "C86",
   "status": "proved",
   "theorems": [
    "c86_binary",
    "c86_unary",
    "c86_arrays"
   ],
   "note": "walkable and t_machine are defined in MachineIter.v. Empty strided operands are left out: iterating them is wrong with unbounded integers already (C22, C41). Compound assignment is C76, operators on owned operands are C73 and C85."
  }
 ]
}
