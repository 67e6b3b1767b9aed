{"id": "C01", "title": "Multi-index access is row-major", "statement": "For a dense array (Tensor, Array, or dense view) of any rank and shape, a[[i0,..,ik]] with every i_j < dim(j) reads the element at row-major position i0*d1*..*dk + .. + ik of the buffer (to_vec/as_ptr order); the map from in-bounds multi-indices to positions is a bijection onto 0..len().", "quantifier": "every rank, every shape, every in-bounds multi-index", "why_tests_cant": "the set of shapes and indices is unbounded; the tests index one 3x4x5 array", "anchors": ["src/mapping.rs: Mapping::offset, DenseMapping::for_each_stride, DenseMapping::stride", "src/index/slice.rs: SliceIndex for &[usize]"]}
{"id": "C02", "title": "Linear indexing follows row-major order for any layout", "statement": "v[k] with a plain usize k < len() is the k-th element of v in row-major order, i.e. v[k] == v[unravel(k)], for dense and for strided arrays, whatever the strides are (including negative ones).", "quantifier": "every shape, every strides vector, every k < len()", "why_tests_cant": "strides and shapes are unbounded and the div/mod loop has to be right at every carry", "anchors": ["src/mapping.rs: DenseMapping::linear_offset, StridedMapping::linear_offset", "src/index/slice.rs: SliceIndex for usize"]}
{"id": "C03", "title": "Checked indexing panics exactly when out of bounds and is otherwise memory safe", "statement": "a[idx] returns an element exactly when idx has one entry per dimension and every entry is below its dimension, and panics in every other case; it never reads outside the array's storage. The same holds for a[k] with k < len().", "quantifier": "every valid array or view, every index vector of any length, every linear index", "why_tests_cant": "needs every length and every out-of-range combination, and absence of out-of-bounds reads is not observable in a test", "anchors": ["src/index/slice.rs: SliceIndex::index, index_mut, get_unchecked", "src/index/mod.rs: panic_bounds_check"]}
{"id": "C04", "title": "view(..) selects exactly the requested subarray", "statement": "view(x0,..,xk) with each xj a usize, a range of any kind or a step range returns a view whose element at a sub-index is the parent's element at the position obtained by replacing each kept coordinate with the selected position and each usize coordinate with that value; its shape lists the lengths of the kept selections in order.", "quantifier": "every rank, every combination of index kinds, every bounds, every parent layout, every sub-index", "why_tests_cant": "the combinations of index kinds times shapes times strides are unbounded", "anchors": ["src/index/view.rs: DimIndex, ViewIndex::view_index", "src/view.rs: into_view", "src/slice.rs: view, view_mut", "src/index/mod.rs: range"]}
{"id": "C05", "title": "view(..) panics exactly when an index is out of bounds", "statement": "view(..) succeeds exactly when every usize index is below its dimension, every range has start <= end <= dimension and every step is non-zero; otherwise it panics. In particular the internal layout/stride/shape assertions never fire for in-bounds arguments, for any layout and any mix of constant-sized and dynamic dimensions.", "quantifier": "every rank up to 6, every static shape type, every layout, every index tuple", "why_tests_cant": "whether an internal assertion fires depends on type-level layout arithmetic for every index-kind tuple", "anchors": ["src/index/view.rs: dim_index, Layout/Outer/Shape associated types", "src/mapping.rs: DenseMapping::prepend_dim, DenseMapping::remap"]}
{"id": "C06", "title": "Step ranges select every |step|-th position, reversed for negative steps", "statement": "step(r, s) on a dimension selects, for s > 0, the positions start, start+s, .. below end in increasing order, and for s < 0 the positions end-1, end-1-|s|, .. down to start in decreasing order; s = 0 panics; an empty range gives an empty selection.", "quantifier": "every range, every non-zero step, every dimension size", "why_tests_cant": "rounding of the length and the start of the reversed walk must be right for every remainder", "anchors": ["src/ops.rs: step, StepRange", "src/index/view.rs: DimIndex for StepRange"]}
{"id": "C07", "title": "axis_at / at fixes one coordinate", "statement": "a.axis_at(axis, i) (and at(i), col/row-like axes, their _mut and into_ forms) is the array of the remaining dimensions in order, whose element at idx equals a at idx with i inserted at the axis; it panics exactly when the axis is out of range or i >= dim(axis).", "quantifier": "every rank, axis kind (Const<N>, Rows, Cols, dynamic), layout, index", "why_tests_cant": "ranks, axes and strides are unbounded", "anchors": ["src/view.rs: axis_at, into_axis_at, into_at", "src/index/axis.rs: Axis::remove, Axis::index", "src/mapping.rs: remove_dim"]}
{"id": "C08", "title": "split_axis_at partitions an array", "statement": "split_axis_at(axis, mid) succeeds exactly when mid <= dim(axis); element idx of the first half is element idx of the array and element idx of the second is the array's element with mid added along the axis; every element of the array is in exactly one half, and no element of the first half shares storage with one of the second (so the two mutable halves never alias).", "quantifier": "every valid view, axis and split point", "why_tests_cant": "disjointness must hold for every strides vector a safe program can build", "anchors": ["src/view.rs: split_axis_at, into_split_axis_at, into_split_at", "src/mapping.rs: resize_dim"]}
{"id": "C09", "title": "permute permutes the dimensions", "statement": "permute(p) succeeds exactly when p is a permutation of 0..rank, and then the result has dim(i) == a.dim(p[i]) and result[idx] == a[idx'] where idx'[p[i]] = idx[i].", "quantifier": "every rank below 64, every index list p, every layout", "why_tests_cant": "the number of permutations is factorial in the rank and the bit-mask test must accept exactly permutations", "anchors": ["src/mapping.rs: DenseMapping::permute, StridedMapping::permute", "src/slice.rs: permute", "src/view.rs: into_permuted"]}
{"id": "C10", "title": "A compile-time permutation keeps the layout exactly when it is the identity", "statement": "For a tuple of constant axes, the result type of permute has the input's layout exactly when the (valid) permutation is the identity, and Strided otherwise; so a valid compile-time permutation never panics.", "quantifier": "every tuple of constant axes of length 1 to 6", "why_tests_cant": "a claim about a type-level computation for every tuple; unit tests instantiate a few", "anchors": ["src/index/permutation.rs: Permutation::Layout, Init", "src/slice.rs: permute"]}
{"id": "C11", "title": "reorder reverses the dimensions", "statement": "reorder() never panics and result[idx] == a[reverse(idx)] with reversed shape.", "quantifier": "every rank, shape, layout", "why_tests_cant": "ranks, shapes and strides are unbounded", "anchors": ["src/mapping.rs: DenseMapping::reorder, StridedMapping::reorder", "src/shape.rs: Shape::reverse"]}
{"id": "C12", "title": "reshape resolves the inferred dimension and preserves the length", "statement": "reshape(shape)/into_shape(shape) yields the requested dimensions, with at most one usize::MAX dimension replaced by len / product(others); it panics if two dimensions are inferred, if the division is not exact, if the new length overflows usize or differs from len(), or if a constant-sized dimension does not match.", "quantifier": "every old shape and every requested shape", "why_tests_cant": "unbounded shapes, and the division/overflow corner cases", "anchors": ["src/shape.rs: Shape::reshape, checked_len", "src/slice.rs: reshape", "src/tensor.rs: into_shape"]}
{"id": "C13", "title": "reshape of a dense array preserves row-major order", "statement": "A reshaped dense array lists the same elements in the same row-major order: r[k] == a[k] for every linear index.", "quantifier": "every shape pair with equal length", "why_tests_cant": "unbounded", "anchors": ["src/mapping.rs: DenseMapping::reshape", "src/slice.rs: reshape, flatten", "src/tensor.rs: into_shape, into_flat"]}
{"id": "C14", "title": "An accepted reshape of a strided view preserves row-major order", "statement": "If reshape on a strided view does not panic, then the result lists the same elements in the same row-major order as the view (r[k] == v[k] for every linear index k).", "quantifier": "every shape, strides vector and target shape for which reshape returns", "why_tests_cant": "the stride-merging loop is a region-matching algorithm over two factorizations; wrong acceptance would only show on rare shape/stride combinations", "anchors": ["src/mapping.rs: StridedMapping::reshape"]}
{"id": "C15", "title": "reshape and flatten panic only for incompatible layouts", "statement": "reshape/flatten of a strided view to a shape of the same length panics only if no strides vector for the new shape addresses the same elements in the same order (documented: 'Panics if the memory layout is not compatible').", "quantifier": "every strided view and every target shape of the same length", "why_tests_cant": "a completeness claim over all strides vectors", "anchors": ["src/mapping.rs: StridedMapping::reshape", "src/slice.rs: reshape, flatten"]}
{"id": "C16", "title": "Reshaping a view to its own shape always succeeds (row, col and diag never fail on layout)", "statement": "v.reshape(v.shape()) returns the same elements for every view; hence row(i), col(i) and diag(k) of a rank-2 view panic only for the documented out-of-bounds reasons.", "quantifier": "every shape and strides vector", "why_tests_cant": "the region-merging loop must accept every layout when the shapes agree", "anchors": ["src/mapping.rs: StridedMapping::reshape", "src/slice.rs: row, col, diag"]}
{"id": "C17", "title": "remap and into_mapping preserve elements; to Dense exactly when contiguous", "statement": "remap to a Strided layout always preserves shape and elements; remap to Dense returns exactly when is_contiguous() is true and then preserves every element; is_contiguous() == true implies element idx sits at its row-major offset.", "quantifier": "every mapping, every target shape type", "why_tests_cant": "unbounded strides", "anchors": ["src/mapping.rs: is_contiguous, remap", "src/slice.rs: remap", "src/view.rs: into_mapping, into_dyn"]}
{"id": "C18", "title": "diag, row and col address the documented elements", "statement": "On a rank-2 array diag(k) has length min(d0, d1-k) (k >= 0) or min(d1, d0+k) (k < 0) and its j-th element is a[[j, j+k]] resp. a[[j-k, j]]; row(i)[j] == a[[i,j]], col(j)[i] == a[[i,j]]; panics exactly when the rank is not 2 or the index is out of range.", "quantifier": "every rank-2 shape and strides, every index", "why_tests_cant": "unbounded, empty diagonals included", "anchors": ["src/view.rs: into_diag, into_row, into_col", "src/slice.rs: diag, row, col"]}
{"id": "C19", "title": "No chain of safe view operations can leave the storage or alias elements", "statement": "Starting from any owned array, any sequence of view, axis_at, split_axis_at, permute, reorder, reshape, remap, diag, row and col operations yields a view in which every in-bounds index addresses a cell of the original storage and different indices address different cells.", "quantifier": "every initial shape, every finite sequence of operations with any arguments for which no operation panics", "why_tests_cant": "quantifies over all operation histories; out-of-bounds pointers and aliasing &mut are not observable in a passing test", "anchors": ["src/view.rs", "src/index/view.rs", "src/mapping.rs", "src/slice.rs"]}
{"id": "C20", "title": "axis_expr yields the subarrays in order, disjointly", "statement": "axis_expr(axis)/outer_expr and the _mut forms yield exactly dim(axis) views, the i-th being axis_at(axis, i); views yielded by one axis_expr_mut share no element.", "quantifier": "every valid view, axis, layout", "why_tests_cant": "unbounded, and aliasing is not observable in tests", "anchors": ["src/expr/sources.rs: AxisExpr, AxisExprMut", "src/index/axis.rs: Axis::get"]}
{"id": "C21", "title": "lanes yields every lane once", "statement": "lanes(axis)/rows/cols and the _mut forms yield, for each index of the other dimensions in row-major order, the one-dimensional view along axis at that index; lanes yielded by lanes_mut share no element.", "quantifier": "every valid view of every rank, every axis", "why_tests_cant": "the tests only take lanes of rank-2 arrays; the claim is for every rank", "anchors": ["src/expr/sources.rs: Lanes, LanesMut", "src/slice.rs: lanes, rows, cols"]}
{"id": "C22", "title": "Internal iteration visits every element exactly once in row-major order", "statement": "for_each/fold over an array or view of any layout calls the closure once per element, in row-major order, exactly len() times (zero times for an empty array).", "quantifier": "every shape (including shapes with zero dimensions), every layout and strides", "why_tests_cant": "must hold for every split between inner and outer dimensions and for every empty shape", "anchors": ["src/expr/iter.rs: Iter::fold, step_outer, new", "src/view.rs: Expression for View/ViewMut"]}
{"id": "C23", "title": "External iteration agrees with internal iteration", "statement": "Calling next() repeatedly yields exactly the sequence that fold visits, then None; fold called after n calls of next() visits exactly the remaining elements.", "quantifier": "every expression, every number of next() calls before fold", "why_tests_cant": "history-dependent: every cut point between next and fold", "anchors": ["src/expr/iter.rs: Iter::next, Iter::fold"]}
{"id": "C24", "title": "size_hint is exact", "statement": "At any point of an iteration size_hint()/len() of the iterator equals the number of elements still to come (ExactSizeIterator).", "quantifier": "every shape, every number of next() calls", "why_tests_cant": "every iterator state", "anchors": ["src/expr/iter.rs: Iter::size_hint, ExactSizeIterator"]}
{"id": "C25", "title": "The iterator is fused", "statement": "After next() has returned None it returns None forever (FusedIterator).", "quantifier": "every shape and layout, every number of further next() calls", "why_tests_cant": "unbounded histories after exhaustion", "anchors": ["src/expr/iter.rs: FusedIterator for Iter, step_outer"]}
{"id": "C26", "title": "zip broadcasts the lower-rank operand over outer dimensions", "statement": "a.zip(b) succeeds exactly when the shorter shape equals the trailing dimensions of the longer and no non-repeatable operand has to be repeated; the result has the longer shape and its element at idx pairs a and b at the trailing coordinates of idx.", "quantifier": "every pair of expressions and shapes, nested zips included", "why_tests_cant": "every rank combination and every mix of inner ranks in nested expression trees", "anchors": ["src/expr/adapters.rs: Zip"]}
{"id": "C27", "title": "Expression adapters transform elements pointwise and in order", "statement": "map calls its closure once per element in row-major order threading its captured state; enumerate pairs the n-th produced element with n; cloned/copied keep elements; fill, fill_with and from_elem give the value, the successive closure results, or the value with the given shape; any tree built from them evaluates to the pointwise composition.", "quantifier": "every expression tree, every stateful closure, every non-degenerate shape", "why_tests_cant": "expression trees and closures are unbounded", "anchors": ["src/expr/adapters.rs: Map, Enumerate, Cloned, Copied", "src/expr/sources.rs: Fill, FillWith, FromElem"]}
{"id": "C28", "title": "from_fn calls the function with each index once, in row-major order", "statement": "from_fn(shape, f) (expression, Tensor::from_fn, Array::from_fn) calls f exactly len times with the multi-indices of the shape in row-major order and stores the result at that index, for static and dynamic rank shapes.", "quantifier": "every shape of every kind, every closure", "why_tests_cant": "unbounded shapes; dynamic rank is a different code path", "anchors": ["src/expr/sources.rs: FromFn", "src/tensor.rs: from_fn", "src/array.rs: from_fn"]}
{"id": "C29", "title": "eval, to_tensor, to_vec and to_array reproduce the expression", "statement": "eval()/from_expr/to_tensor/to_array produce an array with the expression's shape whose row-major contents are the expression's elements, writing only inside the allocation; to_vec is the row-major element list.", "quantifier": "every expression and shape, including empty shapes", "why_tests_cant": "out-of-capacity writes are undefined behaviour that a test may not observe; all shapes must be covered", "anchors": ["src/tensor.rs: from_expr", "src/array.rs: from_expr", "src/expr/expression.rs: clone_into_vec, eval", "src/slice.rs: to_tensor, to_vec, to_array"]}
{"id": "C30", "title": "assign and fill write exactly the target elements", "statement": "v.assign(e) stores e's (broadcast) element at idx into v's element idx for every idx, v.fill(x)/fill_with likewise; no other storage cell changes; assign panics exactly when e cannot be broadcast to v's shape.", "quantifier": "every view, layout, source expression and initial contents", "why_tests_cant": "frame property over all other cells and all layouts", "anchors": ["src/slice.rs: assign, fill, fill_with", "src/traits.rs: IntoCloned"]}
{"id": "C31", "title": "A tensor's length always matches its storage", "statement": "After any sequence of safe tensor operations (expand, append, extend, drain, resize, truncate, clear, into_shape, clone_from, ..), including ones that panic part-way in a user closure, len() equals the product of the dimensions, equals the number of initialized elements, and is at most capacity().", "quantifier": "every history of operations, every panic point", "why_tests_cant": "histories and panic points are unbounded", "anchors": ["src/raw_tensor.rs: with_mut_parts, resize_with, from_parts", "src/tensor.rs", "src/expr/buffer.rs: Drain"]}
{"id": "C32", "title": "expand and append concatenate along the first dimension", "statement": "t.expand(e) with non-empty t and matching inner dimensions gives the array whose first rows are t and next rows are e (row-major contents concatenated, first dimension added); with empty t it gives e's shape and contents; a mismatch panics and leaves t unchanged; append additionally leaves the source with first dimension 0.", "quantifier": "every pair of arrays and shapes", "why_tests_cant": "unbounded shapes and contents", "anchors": ["src/tensor.rs: expand, append", "src/expr/expression.rs: eval_into"]}
{"id": "C33", "title": "drain removes exactly the range", "statement": "t.drain(r) yields the rows in r in order and, once dropped after any number of elements have been taken, leaves t with the other rows in order; elements not taken are dropped exactly once; if the drain is leaked t keeps only the rows before r.", "quantifier": "every tensor, range, number of elements consumed, and both drop and leak", "why_tests_cant": "every consumption point and leak", "anchors": ["src/expr/buffer.rs: Drain", "src/expr/into_expr.rs: IntoExpr", "src/tensor.rs: drain"]}
{"id": "C34", "title": "truncate and clear keep a prefix of rows", "statement": "truncate(n) keeps the first min(n, dim(0)) rows unchanged and drops the rest; clear drops everything and gives length 0.", "quantifier": "every tensor and n", "why_tests_cant": "unbounded", "anchors": ["src/tensor.rs: truncate, clear"]}
{"id": "C35", "title": "resize keeps the common subarray and fills the rest", "statement": "After resize(new_dims, x)/resize_with, element idx equals the old element idx when idx is inside both shapes and a new value otherwise; new values are produced by the closure in row-major order, exactly once per new element.", "quantifier": "every rank, every old and new shape", "why_tests_cant": "the recursive copy must be right for every mixture of growing and shrinking dimensions", "anchors": ["src/raw_tensor.rs: resize_with, copy_dim"]}
{"id": "C36", "title": "No element is dropped twice or lost when a user closure panics", "statement": "In resize_with, expand, extend, map/zip_with (and the arithmetic operators built on it), Array::from_expr and from_fn, if the closure panics at any call, every element created or owned so far is dropped at most once, none stays reachable after being dropped, and elements are neither duplicated nor (apart from the one being processed) leaked.", "quantifier": "every operation, every shape, every panic point", "why_tests_cant": "crash-point quantification; double drops are undefined behaviour", "anchors": ["src/raw_tensor.rs: DropGuard, with_mut_parts", "src/tensor.rs: zip_with DropGuard", "src/array.rs: from_expr DropGuard"]}
{"id": "C37", "title": "Consuming iteration moves every element out exactly once", "statement": "into_iter()/into_expr() of an owned array yields the elements in row-major order; if it is dropped after k elements, exactly the remaining len-k elements are dropped.", "quantifier": "every shape, every k", "why_tests_cant": "every abandonment point", "anchors": ["src/expr/into_expr.rs: IntoExpr", "src/tensor.rs: IntoExpression for Tensor", "src/array.rs: IntoExpression for Array"]}
{"id": "C38", "title": "Equality is elementwise for any combination of layouts", "statement": "a == b exactly when the shapes are equal and all corresponding elements are equal, for any combination of dense and strided operands and shape types.", "quantifier": "every pair of arrays, any element equality", "why_tests_cant": "unbounded shapes, recursive algorithm differs per layout", "anchors": ["src/ops.rs: PartialEq for Slice"]}
{"id": "C39", "title": "Equal arrays hash equally", "statement": "If a == b then a and b feed the same sequence of values to the hasher, whatever their layouts (Hash/Eq consistency, needed for HashMap keys).", "quantifier": "every pair of equal arrays, all layouts, all shapes including empty ones", "why_tests_cant": "relational property over all layouts", "anchors": ["src/slice.rs: Hash for Slice", "src/ops.rs: PartialEq"]}
{"id": "C40", "title": "contains finds an element exactly when present", "statement": "a.contains(&x) is true exactly when some element of a equals x, for every layout and shape.", "quantifier": "every array and value", "why_tests_cant": "unbounded, recursive per-axis search for strided arrays", "anchors": ["src/slice.rs: contains"]}
{"id": "C41", "title": "Operators are elementwise with operands in source order", "statement": "a op b evaluates at every index to a[idx] op b[idx] (broadcast, left operand first even though evaluation is delegated to the right operand), -a and !a are elementwise, and a op= b stores a[idx] op b[idx]; mixed owned/reference/expression operands agree.", "quantifier": "every operator function (including non-commutative), shapes, layouts, operand kinds", "why_tests_cant": "every operand-kind combination and shape", "anchors": ["src/ops.rs: impl_binary_op, impl_op_assign, impl_unary_op", "src/expr/expression.rs: Apply"]}
{"id": "C42", "title": "Serialization round-trips", "statement": "Deserializing the serialized form of a static-rank array gives back the same shape and contents.", "quantifier": "every static-rank shape (including zero-sized dimensions) and contents", "why_tests_cant": "every shape, in particular empty ones", "anchors": ["src/serde.rs: Serialize for Slice, TensorVisitor::visit_seq, Deserialize"]}
{"id": "C43", "title": "Deserialization rejects ragged input", "statement": "Deserializing a nested sequence into a tensor of rank n succeeds exactly when the input is a rectangular nest of depth n agreeing with the constant-sized dimensions, and then the contents are its leaves in order; otherwise an error is returned (no panic, no inconsistent tensor).", "quantifier": "every nested sequence and every static shape type", "why_tests_cant": "unbounded nested inputs", "anchors": ["src/serde.rs: TensorVisitor::visit_seq"]}
{"id": "C44", "title": "Conversions from and to nested Rust arrays keep element positions", "statement": "Tensor/Array/View from [[..];..] has element [[i,j,..]] equal to array[i][j].., and TryFrom back succeeds exactly for matching dimensions and returns the same nested array.", "quantifier": "every nesting depth and size", "why_tests_cant": "unbounded sizes", "anchors": ["src/tensor.rs: impl_from_array, impl_try_from_array", "src/view.rs: impl_from_array_ref, impl_try_from_array_ref", "src/array.rs: impl_from_array"]}
{"id": "C45", "title": "No arithmetic overflow for allocated arrays", "statement": "For every array whose storage exists (length and all addresses within isize), computing len, strides, offsets, linear offsets and reshape strides never overflows usize/isize, so debug and release builds agree and no offset wraps.", "quantifier": "every shape with len <= isize::MAX and every in-bounds index; including zero-length shapes", "why_tests_cant": "overflow only occurs for sizes no test can allocate", "anchors": ["src/mapping.rs: stride, for_each_stride, offset, linear_offset, reshape", "src/shape.rs: len, checked_len"]}
{"id": "C46", "title": "Result shape types always accept the computed dimensions", "statement": "The shape type computed for views, axis removal/resize, permutation, reversal and zip (with any mix of constant-sized, dynamic and dynamic-rank dimensions) always admits the dimensions computed at run time: no such operation panics with 'invalid size' or 'invalid rank' on valid arguments.", "quantifier": "every static shape type of rank up to 6 and dynamic rank, every valid argument", "why_tests_cant": "type-level computation over all shape types", "anchors": ["src/shape.rs: Prepend, Merge, Reverse, Tail, from_dims", "src/index/axis.rs: Dim, Remove, Insert", "src/dim.rs: Merge, from_size"]}
{"id": "C47", "title": "Owned conversions keep contents", "statement": "into_vec, into_flat, into_shape, into_dyn, into_mapping, From<Vec>, FromIterator and Extend keep the row-major element list (appending for extend); into_scalar returns the only element and panics exactly when len() != 1.", "quantifier": "every tensor, every target shape", "why_tests_cant": "unbounded", "anchors": ["src/tensor.rs: into_vec, into_flat, into_shape, into_mapping, into_scalar, Extend, FromIterator"]}
{"id": "C48", "title": "Debug output is the nested element list", "statement": "The Debug form of an array is the element itself for rank 0 and otherwise the list of the Debug forms of the subarrays along the first dimension, i.e. the nested list of elements in row-major order, independent of layout.", "quantifier": "every shape and layout", "why_tests_cant": "unbounded", "anchors": ["src/slice.rs: Debug for Slice"]}
{"id": "C49", "title": "A failed resize leaves a usable tensor", "statement": "If resize panics because the new dimensions do not match a constant-sized dimension, the panic can be caught and the tensor remains valid (its length matches its storage) -- the process is not aborted.", "quantifier": "every shape type with constant-sized dimensions and every new_dims", "why_tests_cant": "depends on the panic-in-destructor path for every shape type", "anchors": ["src/raw_tensor.rs: with_mut_parts DropGuard, resize_with", "src/shape.rs: with_mut_dims", "src/dim.rs: Const::from_size"]}
{"id": "C50", "title": "Dynamic-rank shapes compare by dimensions, not representation", "statement": "Two DynRank shapes are equal, ordered and hashed by their list of dimensions regardless of whether they use the inline one-dimensional representation or the boxed one; clone and clone_from preserve the dimensions.", "quantifier": "every pair of DynRank values", "why_tests_cant": "two representations of every rank-1 shape", "anchors": ["src/shape.rs: DynRank"]}
{"id": "C51", "title": "permute rejects non-permutations at every rank", "statement": "For a DynRank array of any rank, permute (and into_permuted) panics when the index list is not a permutation of 0..rank, in builds with and without overflow checks; it never returns a view that addresses memory outside the storage.", "quantifier": "every rank (including 64 and more), every index list, every layout, both build modes", "why_tests_cant": "the mask test shifts by the rank, which only misbehaves for ranks of at least 64 in builds without overflow checks", "anchors": ["src/mapping.rs: StridedMapping::permute", "src/slice.rs: permute", "src/view.rs: into_permuted"]}
{"id": "C52", "title": "A consumed array in a zip gives every element once", "statement": "When an owned array or a drained range (into_expr, drain) is zipped with any other expression, the items contain its elements in row-major order, each at most once; dropping the iterator drops exactly the elements that were not given out; no call of next reads an element that was moved out, also after the end was reached.", "quantifier": "every owned array or drained range, every other operand, either side, every number of calls of next", "why_tests_cant": "the element taken is determined by a counter inside the expression and not by the index that the iterator passes, so the two must agree for every iteration order", "anchors": ["src/expr/into_expr.rs: IntoExpr", "src/expr/iter.rs: Iter::next", "src/expr/adapters.rs: Zip", "src/expr/buffer.rs: Drain"]}
{"id": "C53", "title": "Cloning a consuming expression", "statement": "Clone and clone_from of IntoExpr give an expression over clones of all elements in order, panic when either expression is in use, and neither lose nor duplicate elements, also when a clone panics.", "quantifier": "every IntoExpr over a tensor, every clone function (may panic)", "why_tests_cant": "the buffer holds ManuallyDrop elements, so a missing drop is invisible in results", "anchors": ["src/expr/into_expr.rs: Clone for IntoExpr", "src/raw_tensor.rs: clone, clone_from"]}
{"id": "C54", "title": "array(..), tensor(..) and to_owned copy exactly the selected elements", "statement": "tensor(..) and array(..) of a slice, and to_tensor/to_owned/to_array, give an owned array of the shape selected by the indices whose element at each index is a clone of the selected element, cloned in row-major order; invalid indices or a wrong constant shape panic before anything is cloned; clones made before a panicking clone are dropped.", "quantifier": "every valid view, layout, rank, index list and clone function (may panic)", "why_tests_cant": "combination of views, strides and iteration order over unbounded shapes", "anchors": ["src/slice.rs: array, tensor, to_array, to_tensor, to_owned"]}
{"id": "C55", "title": "The nightly guard leaves a tensor consistent after a panic", "statement": "With the nightly feature, when an operation that changes a tensor in place (such as resize_with) panics, the tensor is consistent afterwards: its dimensions describe initialized elements, and no element is dropped twice.", "quantifier": "every tensor, every shape type, every operation under the guard", "why_tests_cant": "only shapes without dynamic dimension misbehave, and only after a caught panic; the project is mostly tested on stable", "anchors": ["src/raw_tensor.rs: with_mut_parts (nightly)"]}
{"id": "C56", "title": "Pointers stay inside the allocation", "statement": "Every pointer that safe code computes with ptr.add/offset while making views, subarrays and while iterating stays inside the allocation or one past its end, also for empty views.", "quantifier": "every valid view, every chain of view operations, every expression tree over views", "why_tests_cant": "computing such a pointer is undefined behaviour that neither crashes nor changes a result", "anchors": ["src/view.rs: into_diag, split_axis_at, axis_at, step_dim, reset_dim", "src/expr/sources.rs: AxisExpr, Lanes"]}
{"id": "C57", "title": "Panicking destructors do no damage", "statement": "When the destructor of an element panics inside clear, truncate, resize, drain, append, clone_from, map, zip_with, iteration by value or drop of a tensor, every other element is still dropped exactly once, every tensor stays consistent and usable, and nothing that was dropped can be reached; a second panic during unwinding ends the process and does nothing else.", "quantifier": "every destructor (any function of the element and of what the program captured), every sequence of operations, every panic point", "why_tests_cant": "needs a panic in the destructor of every single element in every operation, and unwinding through every guard", "anchors": ["src/raw_tensor.rs: with_mut_parts, resize_with, copy_dim, clone_from", "src/tensor.rs: clear, truncate, drain, append", "src/expr/into_expr.rs: Drop", "src/expr/buffer.rs: Drop for Drain"]}
{"id": "C58", "title": "An iterator in use is neither shown nor cloned", "statement": "Once an iterator has given an item, Debug on it panics instead of showing an expression that is in the middle of an iteration, and cloning an iterator over a consumed array panics without cloning anything; so no element that was moved out is ever read. Before the first item it shows the whole expression, and its clone starts at the beginning with clones of all elements in order.", "quantifier": "every expression, every number of calls of next, every array, every clone function", "why_tests_cant": "reading a moved element is undefined behaviour that a test may not notice; all iteration states of all expressions", "anchors": ["src/expr/iter.rs: Debug, Clone, next", "src/expr/into_expr.rs: as_ref, Clone, Debug", "src/expr/adapters.rs: Debug for Zip"]}
{"id": "C59", "title": "array!, tensor! and view! make what is written", "statement": "The list form makes an array of as many dimensions as levels of brackets, but at most 6, with the written lengths as dimensions and the written expression at every index; the repetition form has the counts as dimensions, the outermost first, and copies (array!, view!) or clones in row-major order (tensor!) of the expression as elements; writing a repetition out as lists gives the same array.", "quantifier": "every literal of any depth and any lengths (only the innermost may be 0), every repetition, every clone function", "why_tests_cant": "unbounded literals; the order of 12 arms of three macros for all depths", "anchors": ["src/macros.rs: array!, tensor!, view!"]}
{"id": "C60", "title": "All ways to give a shape agree", "statement": "A shape, an array, a reference to an array or slice, a box, a vector or a single dimension given as shape are turned into a shape of the documented type with exactly the dimensions that into_dims gives, and dynamic-rank shapes with equal dimensions are equal whatever they were made from.", "quantifier": "every argument, every rank, every dimension", "why_tests_cant": "all ranks and dimensions", "anchors": ["src/shape.rs: IntoShape"]}
{"id": "C61", "title": "Creating, reserving and shrinking change only the capacity", "statement": "new and with_capacity give an empty tensor of the default shape with at least the requested capacity and panic exactly when the default shape has elements, its length overflows or the allocator refuses; reserve and try_reserve make room for the additional elements, keep a sufficient capacity and change nothing else, and when the allocator refuses they panic or report it and leave the tensor as it was; shrink_to and shrink_to_fit reduce the capacity to the given bound but not below the length and change nothing else.", "quantifier": "every tensor, every number of elements, every allocator", "why_tests_cant": "arbitrary allocators and capacities", "anchors": ["src/tensor.rs: new, with_capacity, reserve, reserve_exact, try_reserve, shrink_to, shrink_to_fit"]}
{"id": "C62", "title": "Mappings are built as given and debug builds catch every wrong offset", "statement": "StridedMapping::new keeps the given dimensions and strides and panics exactly when their numbers differ; a default mapping has the default dimensions and dense or zero strides; with debug assertions, offset panics for every index that is not in bounds and linear_offset for every index from the length on; without them, offset panics exactly when the index has too few entries.", "quantifier": "every mapping, every index of any length", "why_tests_cant": "all ranks, strides and indices", "anchors": ["src/mapping.rs: StridedMapping::new, Default, Mapping::offset, linear_offset"]}
{"id": "C63", "title": "The unsafe entry points do what they say within their contracts", "statement": "For an index in bounds get_unchecked gives the element that indexing gives; from_raw_parts of into_raw_parts is the same tensor; after set_mapping the tensor is usable exactly when the cells covered by the mapping are within the capacity and initialized, and they are then its elements; filling the spare capacity from its start and setting a mapping that covers it appends the values; a mapping for fewer elements keeps the first ones and drops none; debug builds panic exactly when the mapping overflows or exceeds the capacity.", "quantifier": "every view and index; every tensor, capacity, mapping and filling", "why_tests_cant": "undefined behaviour is not observable by tests; all capacities and mappings", "anchors": ["src/index/slice.rs: get_unchecked", "src/tensor.rs: from_raw_parts, into_raw_parts, set_mapping, spare_capacity_mut", "src/raw_tensor.rs: set_mapping"]}
{"id": "C64", "title": "Indexing a dense array with a range gives the elements of the range", "statement": "a[r] with a range of any kind gives a slice of the elements at the linear indices of the range in order, and panics exactly when the start exceeds the end or the end exceeds the length; get_unchecked of a range within the length gives the same slice.", "quantifier": "every dense view of any rank, every range", "why_tests_cant": "all ranks, shapes and bounds including usize::MAX", "anchors": ["src/index/slice.rs: impl_slice_index"]}
{"id": "C65", "title": "View operations have the documented layouts", "statement": "The layout type of a lane and of the rest of an array when a dimension is fixed, removed or split is the one in the tables of axis.rs, for constant and run-time axes, Rows and Cols, static and run-time rank; where the tables give up the layout, arrays exist for which they must. view(..) gives a dense array exactly for a dense array and indices that fix leading dimensions, take a range of the next one and all of the others; reshape, flatten and row keep the layout, col and diag give it up, reorder keeps it exactly for a static rank below 2.", "quantifier": "every shape type, rank, axis, layout and list of indices", "why_tests_cant": "the layouts are computed by recursive trait implementations for every combination of rank, axis and index types", "anchors": ["src/index/axis.rs: Keep, Split, impl_axis, impl_cols_rows", "src/index/view.rs: ViewIndex, DimIndex (Outer, Layout)", "src/shape.rs: Shape::Layout"]}
{"id": "C66", "title": "Overflowing address arithmetic is harmless", "statement": "A view operation whose address arithmetic overflows (large strides, stepped ranges, diagonals, empty views with huge dimensions) panics in builds with overflow checks. Without them it wraps around to a view of exactly the right elements: same pointer, shape, layout and element addresses as with unbounded integers. No sequence of operations, in either build mode, gives a view with an element outside the storage or two elements in one cell, and the checks only ever add panics.", "quantifier": "every view of at most isize::MAX cells including empty ones, every operation and argument of machine type (permutations below rank 64), every sequence of operations, both build modes", "why_tests_cant": "overflow needs sizes no test can allocate or long chains of operations, and the two build modes are never compared", "anchors": ["src/mapping.rs: permute, remap, reshape, offset", "src/view.rs: axis_at, split_axis_at, diag, into_diag", "src/index/view.rs: view_index", "src/shape.rs: reshape"]}
{"id": "C67", "title": "A reference to a slice leads to its elements and its mapping", "statement": "Slice has no fields: a reference to it is the address of a descriptor if the mapping type takes up space, and the address of the elements otherwise. For every view, tensor and array, whatever the shape type and layout, dereferencing to a slice and asking for the pointer and the mapping gives back those of the owner; elements are never taken for a descriptor or the other way round, and the assertions in raw_slice.rs never fail. The mapping takes up no space exactly if its type admits only one value, so that nothing is lost.", "quantifier": "every shape type, layout and well-formed mapping, every number of conversions back and forth", "why_tests_cant": "the two representations depend on the size of a type; a wrong one would read elements as pointers, and only for some combinations of shape and layout", "anchors": ["src/raw_slice.rs: as_slice, from_slice", "src/slice.rs: as_ptr, mapping, expr", "src/array.rs: Deref", "src/view.rs: Deref"]}
{"id": "C68", "title": "Serialization stops at the first error", "statement": "A serializer is given the calls for the nested sequences of elements in order (length of each sequence, every item, the end), up to and including the first call that returns an error or panics, which is the result; if none does the calls build the nested sequences of C42.", "quantifier": "every serializer with any state, every view of static rank and valid layout", "why_tests_cant": "errors may occur at any of the calls, in any nesting", "anchors": ["src/serde.rs: Serialize for Slice"]}
{"id": "C69", "title": "Iterating with machine integers", "statement": "Folding over an expression and calling next on its iterator with 64-bit counters, offsets and strides gives what exact arithmetic gives: the items at all indices in row-major order, an exact size hint, None after the last. Without overflow checks this holds for every view with elements; with them it holds unless a stride is isize::MIN, and then iterating to the end panics. Overflow checks only ever add panics, whatever the expression, empty views included.", "quantifier": "every tree of sources and adapters over views with elements and at most isize::MAX cells, every closure, every view that view operations with machine integers can make, both build modes; for the comparison of build modes every tree without condition", "why_tests_cant": "overflow needs strides and dimensions no test has; the two build modes are never compared", "anchors": ["src/expr/iter.rs: new, step_outer, fold, next, size_hint", "src/view.rs: get_unchecked, reset_dim, step_dim", "src/expr/sources.rs: AxisExpr, Lanes, FromFn", "src/expr/adapters.rs: Enumerate", "src/expr/into_expr.rs: get_unchecked"]}
{"id": "C70", "title": "Mapping primitives are right or panic", "statement": "Asked for a dense or a strided result, Mapping::prepend_dim, remove_dim, resize_dim and reorder succeed exactly when the target shape type takes the dimensions, the index is a dimension and a mapping of the layout asked for exists by the rules of the code (dense from dense, at the first dimension, with the length as stride, reversed only below rank 2); the result then has the documented dimensions, and every index means the same element as in the given mapping; otherwise they panic.", "quantifier": "every mapping, layout, shape type, dimension, size and stride", "why_tests_cant": "all ranks, strides, types and both layouts", "anchors": ["src/mapping.rs: prepend_dim, remove_dim, resize_dim, reorder of DenseMapping and StridedMapping"]}
{"id": "C71", "title": "Writing through a view changes exactly its elements", "statement": "assign, fill, fill_with, the assignment operators, loops over iter_mut or expr_mut and v[idx] = x through a mutable view of an owned array, made by any sequence of view operations, visit exactly the elements of the view, each once and in row-major order, with the item of the operand at the same trailing index. If the user's code or the operand panics, what was written so far stays, everything else is unchanged, no element is lost or dropped twice, and a refused operand or operation leaves no trace. The two halves of a split can be used at once, one being written while the other is read, as if the second had been read before.", "quantifier": "every tensor, every sequence of view operations leading to a view that has elements or is dense, every expression tree as operand, every element code with captured state, panicking at any element", "why_tests_cant": "all views and all points at which user code can panic", "anchors": ["src/slice.rs: assign, fill, fill_with, iter_mut, expr_mut, split_axis_at_mut", "src/ops.rs: impl_op_assign", "src/index/slice.rs: index_mut", "src/expr/expression.rs: for_each"]}
{"id": "C72", "title": "Programs mixing owned operations and writes through views", "statement": "Whatever a program does with its tensors - any operation on owned arrays and any write through any view of them, in any order, depending on what it sees, going on after any panic - nothing undefined happens, every tensor keeps as many elements as its dimensions ask for within its capacity, every element is in exactly one place, and a write touches no other tensor.", "quantifier": "every program, every number of tensors and steps, every allocator, every panic", "why_tests_cant": "the space of programs is unbounded", "anchors": ["src/tensor.rs", "src/slice.rs: assign, fill, fill_with, iter_mut", "src/ops.rs: impl_op_assign", "src/index/slice.rs: index_mut"]}
{"id": "C73", "title": "Owned arrays with machine integers", "statement": "A program of operations on owned arrays, run with 64-bit integers, gives the same tensors, the same calls of user code, the same drops and the same panics as with unbounded integers, in builds with and without overflow checks: no length, offset or count computed on the way wraps or overflows. The only exception is resize or resize_with of an empty array to a non-empty one when the dimensions behind the first empty dimension do not fit a usize: with overflow checks it panics and leaves everything as it was. In every case nothing undefined happens and every element stays in exactly one place.", "quantifier": "every program over any number of tensors, every allocator that grants at most isize::MAX elements, both kinds of build, every panic of user code", "why_tests_cant": "overflow needs sizes that cannot be allocated, or empty arrays with huge dimensions in every operation and state", "anchors": ["src/raw_tensor.rs: from_parts, with_mut_parts, expand, resize_with, copy_dim, set_mapping", "src/tensor.rs: append, drain, truncate, into_shape, into_mapping, into_scalar, zip_with, from_expr, with_capacity", "src/expr/buffer.rs: Drain, IntoExpr", "src/mapping.rs: len"]}
{"id": "C74", "title": "Allocators are owned once", "statement": "With the nightly feature, whatever a program does with tensors that have their own allocators, also when element code, an allocation or the clone of an allocator panics, every allocator value is in exactly one place: in a tensor, handed back by into_vec or into_raw_parts_with_alloc, or dropped; none is lost and none dropped twice. Memory is freed at most once, with its size, by the allocator it came from. Tensors keep their allocators through every move and every change except resize, which may replace it by its clone, and the elements end up as they do on stable. The exception is clone of a tensor whose allocator changes itself when it is cloned: the change is made to a bitwise copy, so that the tensor keeps a value already dropped.", "quantifier": "every program over any number of tensors and allocators, every allocator type whose clone leaves the original as it was, every panic", "why_tests_cant": "each unwinding path moves the allocator through ManuallyDrop and ptr::read; tests use the global allocator, which has no size", "anchors": ["src/raw_tensor.rs: with_mut_parts, with_vec, resize_with, from_parts, into_parts, drop, clone, clone_from", "src/tensor.rs: *_in, into_vec, into_raw_parts_with_alloc, from_raw_parts_in, zip_with, into_scalar", "src/expr/buffer.rs: IntoExpr, Drain"]}
{"id": "C75", "title": "Arrays of elements without size", "statement": "Arrays of zero-sized elements may have any number of elements up to usize::MAX, far more than offsets can count. Without overflow checks every index within bounds is taken and every other one panics, every view operation gives the shape it describes and no more elements than there were, and iteration visits each element once, however strides and offsets wrap. With overflow checks the same holds for linear indices and iteration of the dense layout, and otherwise an operation does the same or panics. The exception is indexing with overflow checks: an index within bounds whose offset is beyond isize::MAX panics, unless a dimension itself is beyond isize::MAX.", "quantifier": "every shape of at most usize::MAX elements, every stride, every program of view operations, both build modes", "why_tests_cant": "the arrays have more elements than can be visited; the tests use small arrays of integers", "anchors": ["src/mapping.rs: offset, linear_offset, inner_stride, reshape, permute", "src/index/slice.rs: index", "src/view.rs: get_unchecked, step_dim, reset_dim", "src/expr/iter.rs: next, fold"]}
{"id": "C76", "title": "Writes through views with machine integers", "statement": "With 64-bit integers, in both build modes, writing through a mutable view made by any chain of operations touches only cells of the view, in row-major order, each at most once; element code and operands may panic at any point. Without overflow checks exactly the elements the view denotes are written, also when intermediate strides wrap, and a program does what it does with unbounded integers. With overflow checks the same holds, or an operation panics: then the elements written so far are a prefix of the view. The exception is a loop over a view that was made without a panic: with overflow checks it can panic half way, which takes a stride of isize::MIN. Programs that mix such writes with operations on owned arrays have no undefined behaviour, keep every array consistent and of machine size, and keep every element in exactly one place.", "quantifier": "every program over any number of owned arrays, every chain of view operations, every element code and operand tree, every panic point, both build modes", "why_tests_cant": "tests run in one build mode with small strides and closures that return", "anchors": ["src/slice.rs: assign, fill, fill_with, expr_mut, iter_mut, split_axis_at_mut", "src/ops.rs: AddAssign and the other compound operators", "src/index/slice.rs: index_mut", "src/expr/iter.rs: fold, step_outer", "src/view.rs: reset_dim, step_dim, get_unchecked"]}
{"id": "C77", "title": "What chains of view operations select, by indices alone", "statement": "Every chain of view operations on an owned array has a meaning that mentions indices only: the sizes of the result, and for each of its indices the index of the original array. If the chain does not panic its result has these sizes, reading it at an index gives the original element at that index's origin, different indices have different origins, and, for the views that iteration walks through rightly (C71, C76 say which), writing through it changes exactly the selected elements, in row-major order of the view, and no others. For arrays of fewer than 64 dimensions, each below usize::MAX, operations that work on every layout panic exactly when they do not make sense for the sizes they meet, which is known from the sizes of the array alone. Chains with the same meaning read alike and have the same effect when written through, and these have the same meaning: reversing the dimensions twice, permuting twice, axis_at and splits against ranges of one dimension, rows and columns against axis_at and views and of the transpose, diagonals of the transpose, views of the transpose, reversing a dimension twice, reshaping twice. With machine integers the reads and writes are the same in both build modes within the bounds of C61 and C76.", "quantifier": "all arrays of all ranks and sizes, all chains of view operations with any arguments, all element codes and panic points, both build modes", "why_tests_cant": "the origin of an element depends on all operations of the chain; tests try a few chains on small arrays", "anchors": ["src/view.rs: axis_at, into_view, into_permuted, into_shape, into_mapping, into_diag, into_split_axis_at", "src/slice.rs: axis_at, col, row, diag, reorder, reshape, flatten, remap, permute, view", "src/mapping.rs: permute, reorder, reshape, remap", "src/shape.rs: reshape", "src/index/axis.rs"]}
{"id": "C78", "title": "Programs do what a reference interpreter on plain arrays says", "statement": "There is an interpreter for programs on arrays in which an array is a shape type, sizes and a list of elements in row-major order, and a view is the list of indices that it selects: no strides, layouts, storage, capacities or iterators. Every program of calls of the library (making, cloning, clearing, truncating, reserving and shrinking, expanding from a view of another array, extending, resizing, draining, clone_from, append, into_shape, into_mapping, into_flat, zip_with a view of another array, map, iteration by value, into_scalar, drop, loops and fills and assignments through views, writes of one element, and writes of one half of a split from the other) ends, with an allocator that never refuses, in a state whose arrays have the types, sizes and elements that the interpreter has, with the same captured state of the user's code and the same elements handed out in the same order, panics of the library and of the user's code included; reading any view of the arrays gives the interpreter's elements and a view that the interpreter refuses panics. Programs with the same result in the interpreter cannot be told apart. Exceptions: resize is asked for sizes that the shape type can have (otherwise C49); views iterate rightly (C71) and use operations for every layout (C77); sizes are machine sizes; append is for arrays with rows.", "quantifier": "all programs of any length, all consistent states, all element types, all closures and panic points, all shapes and ranks, all view chains", "why_tests_cant": "the result depends on the whole history of calls on several arrays; tests compare a few fixed sequences", "anchors": ["src/tensor.rs", "src/raw_tensor.rs", "src/expr/into_expr.rs", "src/expr/sources.rs", "src/expr/adapters.rs", "src/view.rs", "src/slice.rs", "src/index/slice.rs", "src/mapping.rs", "src/shape.rs"]}
{"id": "C79", "title": "What a panic of the user's code leaves behind in expand, resize and clone_from", "statement": "When the cloning of an element panics in expand, the array is left with the default sizes of its shape type and no elements: its old elements and the clones made so far are dropped. When the closure of resize_with (or the clone in resize) panics: if the inner sizes stay the same, a panic of the first call leaves the array unchanged and a later one empties it; if the inner sizes change, all elements are dropped and the sizes become the default ones, except that an array without elements keeps its sizes. When a clone panics in clone_from: if the source has at least as many elements as the target and no more clones were made than the target had elements, the target keeps its sizes and its first elements are the clones made so far; otherwise it is emptied. In all cases every element, old or new, is dropped exactly once or still in the array, the captured state of the user's code is that of the panic, and the process is not aborted.", "quantifier": "all arrays, shape types, sizes, sources, element types, closures and points at which they panic", "why_tests_cant": "the outcome depends on the point of the panic, on both sizes and on the shape type; tests of panics use one counter and one shape", "anchors": ["src/raw_tensor.rs", "src/tensor.rs", "src/expr/expression.rs"]}
{"id": "C80", "title": "Programs with allocators that may refuse, and on arrays of zero-sized elements, do what a reference interpreter says", "statement": "A program of library calls that never asks for room for more than n elements ends, with any allocator that grants every request for up to n elements, in the state that the interpreter of C78 gives; how the allocator grows vectors and what else it would grant makes no difference. For arrays of zero-sized elements, whose capacity is usize::MAX whatever number is stored, every program does what the interpreter says, where a request for more than usize::MAX elements panics: reserve, with_capacity and expand then change nothing, and append drops the rows of its second argument and changes nothing else. No array gets more than usize::MAX elements, the stored capacities cannot be observed, and a program that does not overflow does the same as with other elements. Given vectors have at most usize::MAX elements, and extend gets no more than fit; otherwise the exceptions are those of C78.", "quantifier": "all programs of any length, all consistent states, all allocators granting the requests, all element types of size zero, all closures and panic points, all shapes, ranks and view chains", "why_tests_cant": "arrays of more than usize::MAX / 2 zero-sized elements are not tested, and the refusals of an allocator depend on the whole history", "anchors": ["src/raw_tensor.rs", "src/tensor.rs", "src/expr/buffer.rs"]}
{"id": "C81", "title": "With machine integers and no overflow checks programs still do what the reference interpreter says", "statement": "Every program of the library calls of C78, run with 64-bit machine integers that wrap around (release builds), with an allocator that grants the room asked for and nothing beyond isize::MAX, ends in the state that the interpreter on plain arrays gives: the same arrays, captured state of the user's code and elements handed out, panics included. It is the state that the program has with unbounded integers, capacities included, even when strides of views on the way wrap around. Views of the arrays it leaves are refused exactly when the interpreter refuses them, reading them at every index in bounds gives the interpreter's elements and at any other index panics, and walking through one that has elements gives its elements in order. Arguments are machine integers, and views that are looped over or filled have elements; otherwise the exceptions are those of C78. With overflow checks (debug builds) this is false, since making a view whose unused stride overflows panics.", "quantifier": "all programs of any length, all consistent states of machine size, all allocators granting the requests, all closures and panic points, all shapes, ranks and view chains with machine arguments", "why_tests_cant": "wrapped strides need extreme steps combined with axes of size one, and they must not be observable through any later call of any program", "anchors": ["src/layout.rs", "src/mapping.rs", "src/index/view.rs", "src/expr/sources.rs", "src/tensor.rs", "src/raw_tensor.rs"]}
{"id": "C82", "title": "With overflow checks programs whose views do not overflow do what the reference interpreter says", "statement": "Every program of the library calls of C78, run with 64-bit machine integers and overflow checks (debug builds), ends in the state that the interpreter on plain arrays gives, panics included, provided that making its views overflows nowhere, that no view it walks through has the stride isize::MIN, that the lengths of appended arrays do not overflow on the way to a product of zero, and that resize to an array with elements does not start from an empty array whose unused strides overflow. Debug and release builds of such a program leave the same state. Views made without steps and diagonals from arrays of at most isize::MAX / 2 elements, and nowhere empty, never overflow, so programs using only those need no condition on overflow but the one on resize. That one is needed: from the sizes 0 x 2^33 x 2^33 resize to 1 x 1 x 1 panics in debug builds and works in release builds.", "quantifier": "all programs of any length, all consistent states of machine size, all allocators granting the requests, all closures and panic points, all shapes, ranks and view chains with machine arguments that do not overflow", "why_tests_cant": "that no intermediate product or stride anywhere in any program overflows can only be sampled, and the sizes at which checks fire cannot be allocated", "anchors": ["src/layout.rs", "src/mapping.rs", "src/index/view.rs", "src/expr/sources.rs", "src/tensor.rs", "src/raw_tensor.rs"]}
{"id": "C83", "title": "Deserialization with machine integers", "statement": "Deserializing a tensor with 64-bit machine integers does exactly what the description with unbounded integers (C43) says in builds with overflow checks, for every input and every size hint, and in builds without them whenever the size hints do not make a product overflow. In every build and for every size hint nothing undefined happens, no element is leaked or dropped twice, and a tensor or an error that is returned is the right one, even if the product of a length and a size hint wrapped around. Two builds that both return agree. They can differ in whether they panic: a hint of 2^63 for rows of two elements panics with overflow checks and is harmless without them.", "quantifier": "all inputs and nestings, all size hints that are machine integers, all allocators, all element deserializers (also panicking ones), all static shapes, both builds", "why_tests_cant": "size hints come from untrusted input and the products that overflow need hints near 2^64, which no serializer of test data produces", "anchors": ["src/serde.rs"]}
{"id": "C84", "title": "Equality, contains, hashing, debug output and serialization with machine integers", "statement": "Equality, contains, debug output and serialization do the same with 64-bit machine integers as with unbounded ones, in builds with and without overflow checks: equality compares dimensions and then elements in row-major order up to the first difference, contains searches in that order, debug output and serialization nest by dimension. Arrays with elements hash to their dimensions and elements, so equal arrays hash alike in any build, and what one build serializes every build deserializes to the same contents. This holds for arrays with elements whose strides can be negated, and for empty ones whose dimensions multiplied, empty ones not counted, and whose steps along each dimension stay within isize. A stride of isize::MIN is different: comparing a view of one element panics with overflow checks and succeeds without them.", "quantifier": "all views that meet the condition (all dense arrays with room, all views with elements and negatable strides), all storages, all element comparisons, formatters, hashers and (de)serializers, both builds", "why_tests_cant": "tests run in one build and with small strides; the intermediate products depend on strides, dimensions and ranks that cannot be enumerated", "anchors": ["src/ops.rs", "src/slice.rs", "src/serde.rs", "src/expr/iter.rs"]}
{"id": "C85", "title": "Fixed-size arrays with machine integers", "statement": "Building a fixed-size array from an expression or a tensor, map, zip_with and the operators on owned arrays do the same with 64-bit machine integers as with unbounded ones, in builds with and without overflow checks, including what is dropped when a closure, an operator or the expression panics. Deserialization that returns gives an array exactly for inputs of its shape, whatever size hints the input gives, and otherwise, or when it panics, has dropped every element it made, once. map calls its closure on the elements in order and drops, after a panic, the results so far and the elements not yet given to it, once each; a type whose length is not representable on the way is refused. zip_with and the operators agree wherever they are defined with unbounded integers. An owned empty array zipped with a strided operand of shape [0, 3] is not such a place: the debug build panics, the release build reads an element that does not exist.", "quantifier": "all constant shapes whose array can exist, all elements, all operands that fit the machine, all closures and operators that may panic at any call, all (de)serializers and inputs, both builds", "why_tests_cant": "tests run in one build; the point of the panic, the shape and the kind of the operand cannot be enumerated, and the drop guard counts in the machine arithmetic under test", "anchors": ["src/array.rs", "src/expr/into_expr.rs", "src/expr/iter.rs", "src/ops.rs", "src/serde.rs"]}
{"id": "C86", "title": "Lazy operators with machine integers", "statement": "Operators on references, views and expressions give, with 64-bit machine integers and in builds with and without overflow checks, what they give with unbounded integers: operands whose trailing dimensions match (broadcasting the shorter one if it can be repeated) are accepted and others refused by a panic; consuming the result calls the operator at each index in row-major order on the two elements there, with the same panics at the same calls. The same holds for operators with one operand.", "quantifier": "all expression trees without lanes over walkable views (arrays with elements, at most isize::MAX cells, negatable strides), owned arrays and generators, all operators with state that may panic, all consumers, both builds", "why_tests_cant": "tests run in one build with small strides; operand trees, broadcasts and the call at which an operator panics cannot be enumerated", "anchors": ["src/ops.rs", "src/expr/adapters.rs", "src/expr/iter.rs", "src/view.rs"]}
