{"id": "C01", "title": "Accepted layouts do not alias", "statement": "If Layout::new(shape, stride, offset) succeeds, then the lowest address it can reach is not negative, and any two in-range index tuples that differ on an axis whose stride is non-zero reach different storage positions.", "quantifier": "every number of axes, every shape, every integer stride vector (any sign) and every offset", "why_tests_cant": "self-overlap depends on arithmetic relations between all axes at once; examples cover a handful of stride patterns", "anchors": ["rstsr-common/src/layout/layoutbase.rs: Layout::new, check_strides, bounds_index"]}
{"id": "C02", "title": "Reported storage bounds are exact", "statement": "bounds_index() returns (lo, hi) such that every in-range index tuple addresses a position in [lo, hi) and, for a non-empty layout, both lo and hi-1 are actually addressed; it fails exactly when some reachable position would be negative.", "quantifier": "every layout with any mix of positive, zero and negative strides", "why_tests_cant": "tightness and safety must hold for all stride sign patterns and ranks", "anchors": ["rstsr-common/src/layout/layoutbase.rs: bounds_index"]}
{"id": "C03", "title": "Element indexing follows Python rules", "statement": "index_f(idx) succeeds exactly when each component k satisfies -n_k <= k < n_k, and then it returns the storage position of the element whose non-negative index is obtained by adding n_k to negative components.", "quantifier": "every layout and every integer index tuple of matching rank", "why_tests_cant": "the accept/reject boundary is quantified over all indices and ranks", "anchors": ["rstsr-common/src/layout/layoutbase.rs: index_f, index_uncheck"]}
{"id": "C04", "title": "Contiguous layouts are bijections onto a block", "statement": "A freshly created row-major (column-major) layout of any shape at offset o maps index tuples one-to-one onto [o, o+size), and enumerating tuples in row-major (column-major) order gives consecutive positions.", "quantifier": "every shape of any rank, including zero-length axes, and every offset", "why_tests_cant": "bijection over unbounded shapes", "anchors": ["rstsr-common/src/layout/layoutbase.rs: new_c_contig, new_f_contig", "rstsr-common/src/layout/shape.rs: stride_c_contig, stride_f_contig"]}
{"id": "C05", "title": "Contiguity predicates are correct", "statement": "c_contig() (f_contig()) answers true exactly when the row-major (column-major) enumeration of a non-empty layout's elements is the consecutive run offset, offset+1, .  c_prefer and f_prefer say that strides are positive and monotone over the axes of extent other than 1, with a unit stride at the fast end.", "quantifier": "every non-empty layout with arbitrary integer strides", "why_tests_cant": "both directions of an iff over all strides; code branches to memcpy-like loops on this predicate", "anchors": ["rstsr-common/src/layout/layoutbase.rs: c_contig, f_contig, ndim_of_c_contig, ndim_of_f_contig"]}
{"id": "C06", "title": "Flat index and index tuple are mutually inverse", "statement": "unravel_index_c / unravel_index_f of k < size gives the k-th tuple of the row-/column-major enumeration, and re-flattening it gives k back.", "quantifier": "every non-empty shape and every k below its size", "why_tests_cant": "round trip over all shapes and all positions", "anchors": ["rstsr-common/src/layout/shape.rs: unravel_index_c, unravel_index_f"]}
{"id": "C07", "title": "Axis permutation relabels and never moves elements", "statement": "transpose(axes) succeeds exactly when axes (after negative-axis normalisation) is a permutation of the axes; element (i_0,..) of the result is the element of the source whose index along axes[k] is i_k; the offset and the set of reachable positions are unchanged.", "quantifier": "every layout and every list of axes", "why_tests_cant": "universally quantified over permutations and layouts", "anchors": ["rstsr-common/src/layout/layoutbase.rs: transpose, permute_dims, reverse_axes, swapaxes"]}
{"id": "C08", "title": "Axis permutation can be undone", "statement": "Transposing by a permutation and then by its reversed permutation gives the original layout; reversing axes twice and swapping the same two axes twice give the original layout.", "quantifier": "every layout, every permutation, every pair of axes", "why_tests_cant": "round trip over all permutations of unbounded length", "anchors": ["rstsr-common/src/layout/rearrangement.rs: reversed_permute", "rstsr-common/src/layout/layoutbase.rs: transpose, reverse_axes, swapaxes"]}
{"id": "C09", "title": "Slicing follows Python slice semantics", "statement": "Slicing one axis with start:stop:step gives the elements that Python's slice(start, stop, step).indices(len) enumerates, in that order, for every combination of present/absent/negative/out-of-range start and stop and any non-zero step; a zero step is an error.", "quantifier": "every axis length, every optional start, stop and non-zero step", "why_tests_cant": "many clamping branches interact; the failing combinations are exactly those tests skipped", "anchors": ["rstsr-common/src/layout/indexer.rs: dim_narrow", "rstsr-common/src/layout/slice.rs"]}
{"id": "C10", "title": "A slice is a sub-view", "statement": "Every storage position reachable through a sliced axis is reachable through the original layout, and distinct result indices correspond to distinct source indices, so slicing can never reach outside the parent's memory.", "quantifier": "every layout, axis and slice triple", "why_tests_cant": "memory safety of unchecked tensor construction depends on it for all inputs", "anchors": ["rstsr-common/src/layout/indexer.rs: dim_narrow, dim_select", "rstsr-core/src/tensor/indexing.rs: into_slice_f"]}
{"id": "C11", "title": "Mixed indexing selects the right sub-array", "statement": "Indexing with any list of integers, slices, new-axis markers and at most one ellipsis yields the view whose element at (j...) is the source element obtained by the per-axis rules; more than one ellipsis, too many indices or an out-of-range integer is rejected.", "quantifier": "every layout and every indexer list of any length", "why_tests_cant": "combinatorial mixture of indexers of unbounded length", "anchors": ["rstsr-common/src/layout/indexer.rs: dim_slice, dim_select, dim_narrow, dim_insert"]}
{"id": "C12", "title": "diagonal() yields exactly the diagonal", "statement": "diagonal(offset, axis1, axis2) has length max(0, min(n1, n2-offset)) for offset >= 0 and max(0, min(n1+offset, n2)) for offset < 0 and its k-th element is source element (k, k+offset) resp. (k-offset, k).", "quantifier": "every layout of rank >= 2, every integer offset, every pair of distinct axes", "why_tests_cant": "wide and tall matrices and out-of-range offsets interact", "anchors": ["rstsr-common/src/layout/layoutbase.rs: diagonal"]}
{"id": "C13", "title": "Broadcast shape follows the array API rule and is order independent", "statement": "broadcast of two shapes is defined exactly when every aligned pair of extents is equal or contains 1 and then is the aligned non-one extent; the result does not depend on the order of the operands nor, for several shapes, on how they are grouped.", "quantifier": "every pair/triple of shapes of any ranks, both alignment conventions", "why_tests_cant": "algebraic laws over all shapes", "anchors": ["rstsr-common/src/layout/broadcast.rs: broadcast_shape", "rstsr-core/src/tensor/manipulation/broadcast.rs: broadcast_shapes"]}
{"id": "C14", "title": "A broadcast view repeats elements", "statement": "Broadcasting a layout to a compatible shape succeeds exactly when the shape is compatible, and the element at an index of the result is the source element whose index is truncated to the source rank and set to 0 on stretched axes; the broadcast layouts of both operands of a binary operation have one common shape.", "quantifier": "every layout and every compatible target shape", "why_tests_cant": "element mapping over arbitrary ranks and both alignments", "anchors": ["rstsr-common/src/layout/broadcast.rs: update_layout_by_shape, broadcast_layout, broadcast_layout_to_first, broadcastable_from, broadcastable_to"]}
{"id": "C15", "title": "Zero-copy reshape preserves element order", "statement": "When a reshape is served without copying, the result has the requested shape and its row-major (column-major) element sequence is exactly that of the source.", "quantifier": "every source layout with any strides and every requested shape of equal size, both orders", "why_tests_cant": "the stride-splitting loop has unbounded many axis groupings", "anchors": ["rstsr-common/src/layout/reshape.rs: attempt_nocopy_reshape, quick_check, layout_reshapeable"]}
{"id": "C16", "title": "Inferred reshape extent is right", "statement": "With exactly one negative extent in the requested shape, reshape fills in the unique extent making the sizes equal, or reports an error if there is none or if there is more than one negative extent; without negatives it accepts exactly shapes of the same size; it never panics.", "quantifier": "every requested shape and every source size", "why_tests_cant": "divisibility corner cases incl. zeros", "anchors": ["rstsr-common/src/layout/reshape.rs: reshape_substitute_negatives"]}
{"id": "C17", "title": "Forward iteration visits elements in the promised order", "statement": "Iterating a tensor in C (F) order yields the positions of all elements exactly once in row-major (column-major) order, then ends, for ever.", "quantifier": "every layout of every rank incl. zero-size and rank 0, arbitrary strides", "why_tests_cant": "unbounded number of steps of an incremental carry algorithm", "anchors": ["rstsr-common/src/layout/iterator.rs: IterLayoutRowMajor, IterLayoutColMajor, IterLayout::new"]}
{"id": "C18", "title": "Double-ended iteration is consistent", "statement": "For any interleaving of next and next_back calls, the fronts followed by the remaining elements followed by the reversed backs form exactly the forward sequence: no element is yielded twice or lost.", "quantifier": "every layout and every finite sequence of next/next_back calls", "why_tests_cant": "quantified over all call histories", "anchors": ["rstsr-common/src/layout/iterator.rs: next_iter_index, back_iter_index, next, next_back"]}
{"id": "C19", "title": "Splitting an iterator partitions it", "statement": "split_at(k) gives two iterators whose sequences are the first k and the remaining elements; hence any recursive splitting by a parallel scheduler visits exactly the sequential elements, each in exactly one leaf.", "quantifier": "every layout, every k up to the length, every split tree", "why_tests_cant": "quantified over all schedules of a work-stealing splitter", "anchors": ["rstsr-common/src/layout/iterator.rs: split_at", "rstsr-common/src/par_iter.rs"]}
{"id": "C20", "title": "len() is exact at every moment", "statement": "The ExactSizeIterator length equals the number of items still to come after any history of next, next_back and split_at.", "quantifier": "every layout and every history of operations", "why_tests_cant": "quantified over all histories", "anchors": ["rstsr-common/src/layout/iterator.rs: len"]}
{"id": "C21", "title": "Memory-friendly iteration order still visits every element once", "statement": "Iterating in K order visits exactly the same multiset of storage positions as row-major iteration; in G order it visits each distinct position reachable through the non-broadcast axes.", "quantifier": "every layout incl. negative and zero strides", "why_tests_cant": "the axis sort and stride flip act on all axes", "anchors": ["rstsr-common/src/layout/rearrangement.rs: greedy_layout, translate_to_col_major_unary"]}
{"id": "C22", "title": "Joint iteration keeps operands aligned", "statement": "When several same-shaped layouts are translated for joint iteration (any accepted order except sequential-memory order B), the simultaneously visited positions are precisely the positions of one common logical index in every operand, and each logical index is visited exactly once.", "quantifier": "every number of operands, every common shape, all strides, orders C, F, K", "why_tests_cant": "pairing must hold for all permutations chosen by the heuristics", "anchors": ["rstsr-common/src/layout/rearrangement.rs: translate_to_col_major"]}
{"id": "C23", "title": "Chunked inner loops cover the same elements", "statement": "Splitting jointly iterated layouts into an outer layout and a contiguous inner run of length n visits exactly the same tuples of positions, in the same order, as elementwise iteration.", "quantifier": "every list of same-shaped layouts", "why_tests_cant": "the fast path is taken only for some stride patterns and sizes", "anchors": ["rstsr-common/src/layout/rearrangement.rs: translate_to_col_major_with_contig"]}
{"id": "C24", "title": "Result layout of a binary operation is dense and non-aliasing", "statement": "The layout chosen for the result of a binary operation has the operands' common shape, non-negative strides, never maps two indices to the same position unless they differ only along axes broadcast in both operands, and its positions are exactly 0..n-1.", "quantifier": "every pair of same-shaped layouts and both default orders", "why_tests_cant": "output layout depends on operands' stride composition", "anchors": ["rstsr-common/src/layout/rearrangement.rs: get_axes_composition, get_layout_for_binary_op"]}
{"id": "C25", "title": "Copy layouts are dense", "statement": "The layout used for copying an array in order C/F/A/K has the source's shape and is a bijection from indices to 0..size-1.", "quantifier": "every layout incl. broadcast and negative strides, orders C/F/A/K", "why_tests_cant": "bijection for all stride patterns", "anchors": ["rstsr-common/src/layout/rearrangement.rs: layout_for_array_copy"]}
{"id": "C26", "title": "Elementwise binary operations compute f(a,b) at every index", "statement": "For operands of broadcastable shapes, the result tensor's element at every index of the broadcast shape is f(a at the truncated index, b at the truncated index).", "quantifier": "every element type and f, every pair of operand layouts and storages", "why_tests_cant": "quantified over all layout combinations and both kernel paths (chunked / elementwise)", "anchors": ["rstsr-core/src/tensor/operators/op_with_func.rs: op_refa_refb_func", "rstsr-native-impl/src/cpu_serial/op_with_func.rs: op_mutc_refa_refb_func_cpu_serial"]}
{"id": "C27", "title": "Assignment writes the target view and nothing else", "statement": "a.assign(b) makes every element of view a equal to the broadcast element of b and leaves every storage position not addressed by a unchanged; assigning to a broadcast target or from a non-broadcastable source is rejected.", "quantifier": "every target/source layout and storage", "why_tests_cant": "frame condition over all positions", "anchors": ["rstsr-core/src/tensor/assignment.rs: assign_f", "rstsr-native-impl/src/cpu_serial/assignment.rs: assign_cpu_serial"]}
{"id": "C28", "title": "fill writes the target view and nothing else", "statement": "a.fill(v) sets every element of the view to v, leaves all other storage positions unchanged.", "quantifier": "every layout and storage", "why_tests_cant": "frame condition over all positions", "anchors": ["rstsr-core/src/tensor/assignment.rs: fill_f", "rstsr-native-impl/src/cpu_serial/assignment.rs: fill_promote_cpu_serial"]}
{"id": "C29", "title": "Whole-tensor reduction equals the mathematical fold", "statement": "For an associative and commutative combination with identity, reducing a whole tensor gives the fold over its elements regardless of layout, chunking and 8-way unrolling.", "quantifier": "every commutative monoid, every layout and every number of elements", "why_tests_cant": "unrolled loop has remainder cases for all lengths; order of visits depends on strides", "anchors": ["rstsr-native-impl/src/cpu_serial/reduction.rs: unrolled_reduce, reduce_all_cpu_serial"]}
{"id": "C30", "title": "Parallel reduction is schedule independent", "statement": "Chunked/forked parallel reduction over any split tree returns the same value as the sequential one for an associative, commutative combination with identity.", "quantifier": "every commutative monoid, every split tree and chunk size", "why_tests_cant": "quantified over all schedules", "anchors": ["rstsr-native-impl/src/cpu_rayon/reduction.rs: reduce_all_cpu_rayon", "rstsr-common/src/par_iter.rs"]}
{"id": "C31", "title": "argmin/argmax return the first extremum", "statement": "For a total order without incomparable elements, unraveled_argmin/argmax returns the row-major-first index whose element is minimal/maximal; an empty tensor is an error.", "quantifier": "every total order, every layout and contents", "why_tests_cant": "tie-breaking and every position of the extremum", "anchors": ["rstsr-native-impl/src/cpu_serial/reduction.rs: reduce_all_unraveled_arg_cpu_serial, reduce_all_arg_cpu_serial", "rstsr-core/src/device_cpu_serial/reduction.rs"]}
{"id": "C32", "title": "Axis reduction sums the right elements", "statement": "Reducing over a set of axes gives, at each remaining index, the fold over all elements that share that remaining index.", "quantifier": "every commutative monoid, layout and set of axes", "why_tests_cant": "branches on contiguity composition of both axis groups; broadcast, offset and zero-length inputs", "anchors": ["rstsr-native-impl/src/cpu_serial/reduction.rs: reduce_axes_cpu_serial", "rstsr-common/src/layout/indexer.rs: dim_split_axes"]}
{"id": "C33", "title": "matmul shape rules", "statement": "matmul accepts exactly operands satisfying the array-API/NumPy matmul rules (rank 0 rejected, contracted extents equal, batch shapes broadcastable) and the output shape is the one those rules prescribe.", "quantifier": "all ranks and shapes of both operands", "why_tests_cant": "seven rank cases with unbounded batch dimensions", "anchors": ["rstsr-common/src/layout/matmul.rs: layout_matmul_dyn_row_major"]}
{"id": "C34", "title": "Naive matrix multiplication computes alpha*A*B + beta*C", "statement": "The generic gemm/gemv/gevm/dot kernels write c[i,j] = beta*c[i,j] + alpha*sum_k a[i,k]*b[k,j] for every output element and touch nothing else.", "quantifier": "every commutative semiring, all extents and layouts of a, b and non-aliasing c", "why_tests_cant": "universally quantified over layouts and sizes", "anchors": ["rstsr-native-impl/src/cpu_serial/matmul_naive.rs: gemm_naive_cpu_serial, gemv_naive, gevm_naive, inner_dot_naive"]}
{"id": "C35", "title": "Triangular pack and unpack are inverse", "statement": "Unpacking a packed lower/upper triangle with symmetric fill and packing again gives the same packed vector; packing a symmetric matrix and unpacking it symmetrically gives the same matrix.  Results are stored in the order of the source if that prefers one, and otherwise in the default order of the device.", "quantifier": "every matrix size, contents, batch shape and layout", "why_tests_cant": "index arithmetic n(n+1)/2 for all n", "anchors": ["rstsr-native-impl/src/cpu_serial/op_tri.rs: pack_tri_cpu_serial, unpack_tri_cpu_serial"]}
{"id": "C36", "title": "tril/triu zero exactly the other triangle", "statement": "tril(k) keeps element (i,j) iff j <= i+k and zeroes the others; triu(k) keeps it iff j >= i+k; nothing outside the matrix view is written.", "quantifier": "every matrix view, every integer k", "why_tests_cant": "k beyond either edge; rectangular and batched matrices", "anchors": ["rstsr-native-impl/src/cpu_serial/op_tri.rs: tril_ix2_cpu_serial, triu_ix2_cpu_serial"]}
{"id": "C37", "title": "concat and stack place operands side by side", "statement": "concat along an axis gives the tensor whose element at position p on that axis comes from the operand and local position determined by the running sums of extents; stack adds a new axis indexing the operands; shape mismatches are rejected.", "quantifier": "any number of operands of any layouts", "why_tests_cant": "unbounded number of operands", "anchors": ["rstsr-core/src/tensor/creation_from_tensor.rs: concat_f, stack_f"]}
{"id": "C38", "title": "flip, moveaxis, expand_dims and squeeze relabel indices", "statement": "flip reverses the index on the chosen axes and is an involution; moveaxis sends each source axis to its destination and keeps the order of the others; expand_dims inserts unit axes at the requested final positions; squeeze removes exactly the requested unit axes and rejects others.", "quantifier": "every layout and every list of axes", "why_tests_cant": "quantified over axis lists, negative axes included", "anchors": ["rstsr-core/src/tensor/manipulation/flip.rs", "rstsr-core/src/tensor/manipulation/moveaxis.rs", "rstsr-core/src/tensor/manipulation/expand_dims.rs", "rstsr-core/src/tensor/manipulation/squeeze.rs"]}
{"id": "C39", "title": "Blocked transposition copies the matrix", "statement": "The cache-blocked order-changing copy writes every element of the matrix exactly to its place for every number of rows and columns, block remainders included.", "quantifier": "all matrix sizes and strides", "why_tests_cant": "all remainders modulo the block size", "anchors": ["rstsr-native-impl/src/cpu_serial/transpose.rs: orderchange_out_r2c_ix2_cpu_serial"]}
{"id": "C40", "title": "No reachable view can read outside its storage", "statement": "Starting from any tensor accepted by TensorBase::new, after any sequence of slicing, selecting, transposing, broadcasting, reshaping without copy, inserting and removing axes, every element of the resulting view lies inside the storage.", "quantifier": "every initial tensor and every finite history of view operations", "why_tests_cant": "invariant over all histories of operations", "anchors": ["rstsr-core/src/tensorbase.rs: TensorBase::new_f, new_unchecked", "rstsr-core/src/tensor/indexing.rs", "rstsr-core/src/tensor/manipulation/*"]}
{"id": "C41", "title": "index_select gathers the selected hyperplanes", "statement": "index_select(axis, indices) returns the tensor whose element at position p of that axis is the source element at indices[p] (negative indices counted from the end); any out-of-range index is rejected; bool_select selects the true positions in order.", "quantifier": "every layout, axis and index list", "why_tests_cant": "unbounded list of indices with repetition", "anchors": ["rstsr-core/src/tensor/adv_indexing.rs: index_select_f, bool_select_f", "rstsr-native-impl/src/cpu_serial/adv_indexing.rs: index_select_cpu_serial"]}
{"id": "C42", "title": "Axis-list normalisation", "statement": "normalize_axes_index returns the list of non-negative axes denoted by the input, rejecting out-of-range axes and (when not allowed) duplicates.", "quantifier": "every axis list and rank", "why_tests_cant": "all list lengths, duplicates through negative aliases", "anchors": ["rstsr-common/src/axis_index.rs: normalize_axes_index"]}
{"id": "C43", "title": "tensordot contraction labels", "statement": "The subscript labels generated for tensordot give equal labels exactly to the paired axes, and the output carries the free axes of a then of b in order.", "quantifier": "all ranks and axis pairings", "why_tests_cant": "unbounded ranks and axis lists", "anchors": ["rstsr-common/src/tensordot_to_einsum.rs"]}
{"id": "C44", "title": "Copies preserve content", "statement": "to_owned/to_contig/reshape-with-copy produce tensors with the same logical elements as the source.", "quantifier": "every layout and storage", "why_tests_cant": "all layouts through both kernel paths", "anchors": ["rstsr-core/src/tensor/ownership_conversion.rs: into_owned", "rstsr-core/src/tensor/manipulation/reshape.rs: change_shape_with_args_f", "rstsr-core/src/tensor/manipulation/to_layout.rs", "rstsr-native-impl/src/cpu_serial/assignment.rs: assign_arbitary_cpu_serial"]}
{"id": "C45", "title": "Packing into fixed arrays is lossless", "statement": "Viewing a vector as a vector of N-element arrays succeeds exactly when N divides its length, and unpacking returns the original vector.", "quantifier": "every vector and every N > 0", "why_tests_cant": "all lengths and N", "anchors": ["rstsr-common/src/pack_array.rs"]}
{"id": "C46", "title": "Layout equality is meaningful", "statement": "Layout equality is reflexive, symmetric and transitive, and equal non-empty layouts have the same shape and address the same position at every index.", "quantifier": "every pair/triple of layouts", "why_tests_cant": "equivalence-relation laws over all layouts, where unit axes are ignored", "anchors": ["rstsr-common/src/layout/layoutbase.rs: PartialEq for Layout"]}
{"id": "C47", "title": "eye and diag build the right matrices", "statement": "eye(n, m, k) has ones exactly at (i, i+k) and zeros elsewhere with shape (n, m) in both orders; diag of a vector places it on the k-th diagonal of a zero square matrix.", "quantifier": "all n, m, k", "why_tests_cant": "rectangular shapes with all diagonals", "anchors": ["rstsr-core/src/tensor/creation.rs: eye_f", "rstsr-core/src/tensor/creation_from_tensor.rs: diag_f"]}
{"id": "C48", "title": "Integer arange", "statement": "arange(start, stop, step) yields start + i*step for all i >= 0 while before stop, in order.", "quantifier": "all integers start, stop and non-zero step", "why_tests_cant": "all counts and signs", "anchors": ["rstsr-native-impl/src/cpu_serial/creation.rs: arange_cpu_serial"]}
{"id": "C49", "title": "Elements of parallel mutable iteration are disjoint", "statement": "For a layout accepted by Layout::new without zero strides, the positions handed out to different leaves of any split of a mutable iterator are disjoint, so parallel writers never race.", "quantifier": "every accepted layout and split tree", "why_tests_cant": "quantified over all schedules", "anchors": ["rstsr-core/src/tensor/iterator_elem.rs: IterVecMut::split_at", "rstsr-common/src/layout/iterator.rs"]}
{"id": "C50", "title": "Indexed iteration reports the index of the yielded element", "statement": "Each (index, element) pair produced by an indexed iterator, from either end, pairs an element with its own index.", "quantifier": "every layout and every interleaving of next and next_back", "why_tests_cant": "quantified over histories", "anchors": ["rstsr-common/src/layout/iterator.rs: IndexedIterLayout", "rstsr-core/src/tensor/iterator_elem.rs: IndexedIterVecView"]}
{"id": "C51", "title": "axes_iter partitions the tensor", "statement": "Iterating over a set of axes yields one sub-view per index of these axes in the requested order; the sub-views together contain every element exactly once.", "quantifier": "every layout and set of axes", "why_tests_cant": "all ranks and axis subsets", "anchors": ["rstsr-core/src/tensor/iterator_axes.rs: axes_iter_f"]}
{"id": "C52", "title": "Splitting axes is lossless", "statement": "dim_split_axes separates a layout in two layouts such that addressing an element by its two partial indices (subtracting the doubly counted offset) gives the original position; shapes are the sub-lists.", "quantifier": "every layout and axis set", "why_tests_cant": "all subsets", "anchors": ["rstsr-common/src/layout/indexer.rs: dim_split_axes, dim_split_at"]}
{"id": "C53", "title": "Parallel elementwise kernels are schedule independent", "statement": "For non-aliasing output, executing the per-element writes of an elementwise kernel in any order (any interleaving of worker threads) gives the same storage.", "quantifier": "every permutation of the write set", "why_tests_cant": "quantified over all interleavings", "anchors": ["rstsr-native-impl/src/cpu_rayon/op_with_func.rs", "rstsr-native-impl/src/cpu_rayon/assignment.rs"]}
{"id": "C54", "title": "vecdot contracts the right axes", "statement": "vecdot over paired axes gives at every index of the broadcast remaining shape the sum over the contracted axes of conj(a)*b.", "quantifier": "every commutative ring with conjugation, all layouts", "why_tests_cant": "three kernel branches keyed by contiguity", "anchors": ["rstsr-native-impl/src/cpu_serial/vecdot.rs: vecdot_naive_cpu_serial", "rstsr-core/src/tensor/linalg/vecdot.rs"]}
{"id": "C55", "title": "map builds the pointwise image", "statement": "map(f) yields a tensor of the same shape whose elements are f of the source elements; mapi applies f to each element of the view exactly once in place.", "quantifier": "every layout and f", "why_tests_cant": "all layouts incl. broadcast", "anchors": ["rstsr-core/src/tensor/map_elementwise.rs"]}
{"id": "C56", "title": "unstack and stack undo each other", "statement": "unstack along an axis gives, in order, one view per position of the axis holding exactly the elements at that position, sharing the storage; stacking these views along the same axis gives a tensor equal to the original, and unstacking a stack gives tensors equal to the operands.", "quantifier": "all tensors of any layout, every axis spelled from either end, any number of operands", "why_tests_cant": "round trip for every shape, layout and number of operands", "anchors": ["rstsr-core/src/tensor/creation_from_tensor.rs: unstack_f, stack_f"]}
{"id": "C57", "title": "atleast, hstack and vstack add the documented axes", "statement": "atleast_1d/2d/3d only add axes of extent 1 at the documented positions and keep all elements; hstack is concat along axis 1 (axis 0 for vectors and scalars) and vstack concat along axis 0 of the rows, rejecting exactly the operands that concat rejects.", "quantifier": "operands of any rank, number and layout", "why_tests_cant": "all ranks, numbers of operands and layouts", "anchors": ["rstsr-core/src/tensor/creation_from_tensor.rs: into_atleast_1d_f, into_atleast_2d_f, into_atleast_3d_f, hstack_f, vstack_f"]}
{"id": "C58", "title": "full, zeros, ones and their _like forms", "statement": "full/zeros/ones of a shape (either order) or of a layout give a tensor of that shape and layout all of whose elements are the value and lie inside its storage; the _like forms give a fresh non-overlapping tensor of the operand's shape; linspace(start, stop, n) has n elements, evenly spaced, from start to stop.", "quantifier": "all shapes, orders, accepted layouts (strided, negative strides, offsets), operands", "why_tests_cant": "storage length must suffice for every accepted layout", "anchors": ["rstsr-core/src/tensor/creation.rs: full_f, zeros_f, ones_f, full_like_f, zeros_like_f, ones_like_f, linspace_f", "rstsr-core/src/device_cpu_serial/creation.rs"]}
{"id": "C59", "title": "Packing an axis of a tensor into fixed arrays", "statement": "into_pack_array::<N>(axis) turns a tensor whose axis has extent N into the tensor, without that axis, of the arrays [t[.., 0, ..], .., t[.., N-1, ..]]; into_unpack_array is its inverse; a tensor that cannot be packed without copying is rejected.", "quantifier": "every layout, axis and N > 0", "why_tests_cant": "all layouts and strides, divisible by N or not", "anchors": ["rstsr-core/src/tensor/pack_array.rs: into_pack_array_f, into_unpack_array_f"]}
{"id": "C60", "title": "meshgrid yields the coordinate grids of its vectors", "statement": "meshgrid of n vectors gives n tensors of one shape of rank n whose extent along the axis of each vector is that vector's length; the i-th one holds at (j_0, .., j_(n-1)) the element number j_a of the i-th vector, where a = i, except that with \"xy\" indexing the first two vectors trade axes; with copy each is stored contiguously in the device's order. It is an error exactly when the indexing is neither \"ij\" nor \"xy\" or an operand is not one-dimensional, and never panics.", "quantifier": "any number of vectors of any length (also 0) and layout (strided, reversed, offset), both indexings, both orders, copy or not", "why_tests_cant": "all numbers of operands, lengths and layouts", "anchors": ["rstsr-core/src/tensor/creation_from_tensor.rs: meshgrid_f", "rstsr-core/src/tensor/manipulation/broadcast.rs: broadcast_arrays_f"]}
{"id": "C61", "title": "allclose compares all pairs of elements of the broadcast operands", "statement": "allclose(a, b) broadcasts a and b to their common shape and is true exactly when every pair of elements at one index of that shape is close; the parallel device gives the same answer as the serial one. It is an error only when there is no common shape or it has no elements; it never panics.", "quantifier": "all layouts, shapes and orders, every closeness test, every parallel schedule", "why_tests_cant": "the sums are unrolled, chunked and scheduled differently for different layouts and sizes", "anchors": ["rstsr-core/src/tensor/reduction.rs: allclose_all_f", "rstsr-core/src/device_cpu_serial/reduction.rs: allclose_all", "rstsr-native-impl/src/cpu_serial/reduction.rs: reduce_all_binary_cpu_serial, unrolled_binary_reduce", "rstsr-native-impl/src/cpu_rayon/reduction.rs: reduce_all_binary_cpu_rayon"]}
{"id": "C62", "title": "isclose is |a - b| <= atol + rtol * |b| on the true values", "statement": "isclose(a, b) is true exactly when the distance of the two numbers is at most atol + rtol * |b|; numbers of any distance can be compared, and a finite number is not close to an infinite one.", "quantifier": "all numbers of the signed integer types and f64, all tolerances", "why_tests_cant": "wrap-around and infinities occur only for extreme values", "anchors": ["rstsr-dtype-traits/src/isclose.rs: isclose", "rstsr-dtype-traits/src/ext_num.rs: ext_abs_diff, ext_abs"]}
{"id": "C63", "title": "Owned and shared tensors have value semantics in every history", "statement": "A program holds tensor variables, owned or shared (reference-counted), several of which may be handles on one buffer. Whatever it has done before, a statement changes no variable but the one it names: a write through a mutable view of one handle is never seen through another, and leaves in the written one exactly what was written. Cloning, into_shared and into_owned (when they return) keep shape and elements. The strong count of a shared tensor is the number of variables over its buffer, and a buffer without handles is freed.", "quantifier": "all programs (any finite sequence of creating, aliasing, cloning, mutating, converting and dropping), all element types, layouts and writes", "why_tests_cant": "all histories of handles; a missed count shows only in particular sequences", "anchors": ["rstsr-core/src/storage/data.rs: DataOwned, DataArc, DataCloneAPI, DataMutAPI::raw_mut, strong_count", "rstsr-core/src/tensor/ownership_conversion.rs: into_owned, into_shared, to_owned, view_mut, into_cow"]}
{"id": "C64", "title": "Converting a tensor to another ownership always succeeds", "statement": "into_owned and into_cow of any valid tensor, also one whose buffer other shared tensors use, return a tensor of the same shape and elements: the data is moved or, where it cannot be, cloned.", "quantifier": "all programs and all tensor variables they reach", "why_tests_cant": "all histories of handles", "anchors": ["rstsr-core/src/storage/data.rs: DataArc::into_owned, DataArc::into_cow", "rstsr-core/src/tensor/ownership_conversion.rs: into_owned, into_cow"]}
{"id": "C65", "title": "matmul on the faer device is the matrix product", "statement": "On the device that uses the faer library, matmul and matmul into an output give beta * c + alpha * a b for every shape, stride and batch that has a product, in row- and column-major order, whatever the parallel schedule; multiplying a matrix with its own transpose takes a shortcut that must give the same result; with beta = 0 the old contents of the output, which may be uninitialised, do not matter.", "quantifier": "all accepted tensors, all alpha and beta of a commutative semiring, all orders of batches and of copied elements, all splittings of an inner product", "why_tests_cant": "all strides and shapes, and all schedules of the parallel loops; aliasing of the factors selects another algorithm", "anchors": ["rstsr-core/src/device_faer/matmul.rs: gemm_faer_ix2_dispatch, matmul_row_major_faer", "rstsr-core/src/device_faer/matmul_impl.rs: gemm_faer, syrk_faer, gemm_with_syrk_faer"]}
{"id": "C66", "title": "matmul on the BLAS devices is the matrix product", "statement": "On the devices that use a CBLAS library, matmul and matmul into an output give beta * c + alpha * a b for every shape, stride and batch that has a product: operands the library cannot read are copied, outputs it cannot write go through a buffer, every call meets the library's conditions on leading extents, and nothing but the output's elements changes.", "quantifier": "all accepted tensors, all alpha and beta of a commutative semiring, all orders of batches and of copied elements", "why_tests_cant": "all strides of three operands decide between copies, transposition and buffering; all schedules", "anchors": ["crates-device/rstsr-openblas/src/matmul.rs: gemm_blas_ix2_no_conj_dispatch, matmul_row_major_blas", "crates-device/rstsr-openblas/src/matmul_impl.rs: gemm_blas_no_conj_*, syrk_blas_no_conj_*"]}
{"id": "C67", "title": "The BLAS builder for matrix products computes alpha op(A) op(B) + beta C", "statement": "The GEMM builder returns alpha op(A) op(B) + beta C, where op is nothing, transposition or conjugate transposition, whatever the strides of the operands and whichever of the two orders the device prefers. Without an output a new tensor is returned; with one, its elements are replaced and nothing else in its storage changes. Shapes that do not fit are an error.", "quantifier": "all accepted matrices and outputs (any strides and offsets), flags, orders, alpha and beta of a commutative semiring", "why_tests_cant": "the strides of three operands, two flags and two orders select among swapped operands, copies and leading extents; only some combinations go wrong", "anchors": ["rstsr-blas-traits/src/blas3/gemm.rs: GEMM_::run, internal_run", "rstsr-blas-traits/src/util/util_tensor.rs: flip_trans, overwritable_convert"]}
{"id": "C68", "title": "The BLAS builders for symmetric and Hermitian products use the chosen triangle", "statement": "The SYMM and HEMM builders multiply B from the left or right with the symmetric (Hermitian) matrix stored in the chosen triangle of A, ignoring the other triangle, for all strides, orders and shapes of B.", "quantifier": "all accepted square A and matrices B, sides, triangles, orders, alpha and beta of a commutative semiring", "why_tests_cant": "a swapped side, triangle or extent shows only for particular layouts, orders and rectangular B", "anchors": ["rstsr-blas-traits/src/blas3/syhemm.rs: SYHEMM_::run, internal_run"]}
{"id": "C69", "title": "Triangular solves use the chosen triangle and solve the system", "statement": "The TRSM builder and solve_triangular return X with op(T) X = alpha B (or X op(T) = alpha B), where T is the chosen triangle of A, for all strides and orders, provided the library solves the system it is given; a mutable B is overwritten with X and nothing else in its storage changes.", "quantifier": "all accepted A and B, sides, triangles, unit-diagonal flags, transpositions, orders, and all libraries that solve triangular systems", "why_tests_cant": "transposing a row-major operand swaps side, triangle and transposition at once; all layouts and flags have to agree", "anchors": ["rstsr-blas-traits/src/blas3/trsm.rs: TRSM_::run, internal_run", "rstsr-linalg-traits/src/ref_impl_blas.rs: ref_impl_solve_triangular_f"]}
{"id": "C70", "title": "solve_general, solve_symmetric, inv and cholesky hand the right matrices to LAPACK", "statement": "solve_general, solve_symmetric, inv and cholesky give LAPACK exactly the caller's matrices (or the chosen triangle) whatever their strides and order, and return what LAPACK computes: if LAPACK solves, inverts or factorises, so does the result. Overwritten operands receive the result and nothing else in their storage changes; a failure of LAPACK and unfit shapes are errors.", "quantifier": "all accepted non-empty matrices (views and mutable views), triangles, orders, and all behaviours of LAPACK", "why_tests_cant": "copies into column-major order and back depend on strides, offsets and order of two operands; LAPACK's behaviour is arbitrary", "anchors": ["rstsr-linalg-traits/src/ref_impl_blas.rs: ref_impl_solve_general_f, ref_impl_solve_symmetric_f, ref_impl_inv_f, ref_impl_cholesky_f", "rstsr-blas-traits/src/lapack_solve: gesv.rs, sysv.rs, getrf.rs, getri.rs, potrf.rs", "rstsr-blas-traits/driver_impl/lapack/solve/*.rs: driver_*"]}
{"id": "C71", "title": "cdist tables the distances of all pairs of rows", "statement": "cdist(a, b, metric) returns a new tensor whose entry (i, j) is the metric applied to row i of a and row j of b (with the weights, if given), for every metric, whatever the strides and offsets of the operands, the entry size, the batches and the schedule of the threads; swapping the operands transposes the table for symmetric metrics; non-matrices and different numbers of columns are errors.", "quantifier": "all accepted matrices with at least one column, all metrics, weights, entry sizes, orders and schedules", "why_tests_cant": "cells are computed in batches whose size depends on the type and the number of columns, in an order chosen by threads, with a fast path that depends on strides", "anchors": ["rstsr-sci-traits/src/distance/native_impl.rs: cdist_serial, cdist_weighted_serial, cdist_rayon, cdist_weighted_rayon", "rstsr-sci-traits/src/distance/impl_cpu_serial.rs: cdist_f", "rstsr-sci-traits/src/distance/metric.rs: MetricDistAPI, MetricDistWeightedAPI"]}
{"id": "C72", "title": "Every distance metric computes its formula", "statement": "Euclidean, squared Euclidean, city block, Minkowski, Canberra, Chebyshev, Bray-Curtis, Hamming, Jaccard, Yule, Dice, Rogers-Tanimoto, Russell-Rao, Sokal-Sneath, cosine, correlation and Jensen-Shannon distances equal their formulas over the corresponding entries and weights, in the weighted and unweighted version and for contiguous and strided rows alike.", "quantifier": "all matrices, weights, numbers of columns and arithmetics", "why_tests_cant": "the formulas must hold for all vectors and lengths; a miscounted case shows on few inputs only", "anchors": ["rstsr-sci-traits/src/distance/metric.rs: inner_*, MetricCosine, MetricCorrelation, MetricJensenShannon"]}
{"id": "C73", "title": "Element iterators hand out every element once", "statement": "iter(), iter_with_order(o) and indexed_iter() of a tensor or view hand out its elements in the promised order (row by row, column by column, or any order covering all); taking from either end and splitting anywhere behaves as on a list of the elements; len() is the number of elements left; indexed iteration pairs every element with its own index.", "quantifier": "all tensors and views (any strides, offsets, extents), all orders, all histories of next, next_back and split_at", "why_tests_cant": "histories interleave both ends and splits; offsets are stepped incrementally with carries in every axis", "anchors": ["rstsr-core/src/tensor/iterator_elem.rs: iter, iter_with_order, indexed_iter, IterVecView, IndexedIterVecView", "rstsr-common/src/layout/iterator.rs: IterLayout"]}
{"id": "C74", "title": "Mutable and parallel element iterators touch each element once", "statement": "Updating through iter_mut() (or its parallel iterator) changes exactly the elements handed out, each exactly once, and nothing else in the storage, for every history of calls from both ends, every split and every interleaving of workers; no two references handed out alias.", "quantifier": "all mutable tensors and views, all updates, histories, splits and interleavings", "why_tests_cant": "the iterator hands out references by unsafe code, the schedule is chosen by rayon", "anchors": ["rstsr-core/src/tensor/iterator_elem.rs: iter_mut, IterVecMut", "rstsr-common/src/par_iter.rs: ParIterRSTSR"]}
{"id": "C75", "title": "Variance, deviation and norm", "statement": "var, std and l2_norm of a tensor (real or complex) are the mean of the squared absolute values minus the squared absolute value of the mean, its square root, and the root of the sum of the squared absolute values; the _axes forms table them at every index of the remaining axes; devices and schedules agree; in exact arithmetic the variance is the mean squared deviation from the mean.", "quantifier": "all tensors and views, axes selections, element types with commutative addition, chunk sizes and schedules", "why_tests_cant": "accumulators travel as pairs through several kernels chosen by layout, contiguity and schedule", "anchors": ["rstsr-core/src/device_cpu_serial/reduction.rs: OpVarAPI, OpStdAPI, OpL2NormAPI", "rstsr-core/src/feature_rayon/auto_impl/reduction.rs", "rstsr-core/src/tensor/reduction.rs"]}
{"id": "C76", "title": "Extrema, logic and counting over axes", "statement": "min_axes and max_axes give at every remaining index an element there that no other element there beats, and an error for an empty tensor; all_axes, any_axes, count_nonzero_axes and the sum of a bool tensor are the quantifiers and counts over the elements there.", "quantifier": "all tensors and views, axes selections, chunk sizes and schedules", "why_tests_cant": "the kernel differs with the layout (contiguous outer or inner), device and size", "anchors": ["rstsr-core/src/device_cpu_serial/reduction.rs: OpMinAPI, OpMaxAPI, OpAllAPI, OpAnyAPI, OpCountNonZeroAPI, OpSumBoolAPI", "rstsr-core/src/feature_rayon/auto_impl/reduction.rs"]}
{"id": "C77", "title": "Printed tensors", "statement": "Printing a tensor terminates without a panic and shows nested brackets with one line per row, indentation by depth and dots in place of the middle of long axes; the text depends only on the shape and elements; brackets are balanced; dots hide at least one index.", "quantifier": "all tensors and views of any number of axes, strides and offsets, all element formatters, all MAX_PRINT and MIN_PRINT settings", "why_tests_cant": "the recursion skips index ranges in a flat traversal, so every shape and setting takes another path", "anchors": ["rstsr-core/src/format/format_tensor.rs: print_vec_with_layout_dfs_inner, print_vec_with_layout_generic"]}
{"id": "C78", "title": "Reshape without a copy, or an error", "statement": "to_compatible_shape and into_shape_assume_contig never copy: on success the storage is the input's and every element keeps its rank; on failure no strided view of the storage has the requested shape and order (respectively the elements are not consecutive). Reshape copies only when no strided view exists.", "quantifier": "all tensors and views, all requested shapes (with -1), both orders", "why_tests_cant": "absence of a view is a statement about all strides", "anchors": ["rstsr-core/src/tensor/manipulation/into_compatible_shape.rs", "rstsr-core/src/tensor/manipulation/reshape.rs", "rstsr-common/src/layout/reshape.rs"]}
{"id": "C79", "title": "Type promotion and casts keep numbers", "statement": "Any two element types have one promoted type, the same in both orders, and promotion or a cast leaves the number unchanged whenever the target type has it; the promoted type has every value of both operand types up to integers beyond 2^53 that become floats.", "quantifier": "all pairs of element types (bool, 8- to 64-bit integers, usize, isize, f32, f64, Complex<f32>, Complex<f64>) and all values", "why_tests_cant": "the pairs are many and the values more; a test samples a few values of a few pairs", "anchors": ["rstsr-dtype-traits/src/promotion.rs"]}
{"id": "C80", "title": "Comparison, extrema and floor division of mixed types", "statement": "equal, not_equal, less, less_equal, greater, greater_equal of tensors of different types broadcast and answer by the numbers the elements denote; maximum and minimum return one of the two numbers and none exceeds it; floor division rounds to minus infinity and panics only for a zero divisor and MIN / -1.", "quantifier": "all tensors, shapes, layouts, element types with a promotion and values the promoted type has", "why_tests_cant": "rounding in the promotion of values tests do not contain can change an answer", "anchors": ["rstsr-dtype-traits/src/ext_real.rs", "rstsr-dtype-traits/src/promotion.rs", "rstsr-core/src/device_cpu_serial/operators/op_ternary_common.rs"]}
{"id": "C81", "title": "Sign, sign bit and absolute value", "statement": "sign gives -1, 0 or 1 by the sign of each element, signbit is true for negative elements, abs gives the absolute value in the same type.", "quantifier": "all tensors and element types, all values including the extreme ones", "why_tests_cant": "extreme values and not-a-number are the cases tests omit", "anchors": ["rstsr-dtype-traits/src/ext_num.rs", "rstsr-core/src/device_cpu_serial/operators/op_binary_common.rs"]}
{"id": "C82", "title": "Singular value decomposition", "statement": "svd and svdvals of any matrix view return what LAPACK computes for that matrix, with the documented shapes; if LAPACK's factors decompose the matrix, so do the returned tensors (u diag(s) vt = A, orthonormal columns and rows). Tensors that are not matrices, contradictory arguments and unknown drivers are errors, and both drivers give the same kind of result.", "quantifier": "all nonempty matrices, layouts (row- or column-major, strided, offset), both device orders, full and reduced matrices, all LAPACK results", "why_tests_cant": "the path depends on strides and device order; tests use contiguous matrices on one device and the default driver", "anchors": ["rstsr-linalg-traits/src/ref_impl_blas.rs", "rstsr-linalg-traits/src/blas_impl/svd.rs", "rstsr-blas-traits/src/lapack_svd/gesdd.rs", "rstsr-blas-traits/src/lapack_svd/gesvd.rs"]}
{"id": "C83", "title": "Eigenvalues of symmetric and Hermitian matrices", "statement": "eigh and eigvalsh use exactly the chosen triangle of the matrix and return LAPACK's eigenvalues and eigenvectors; a mutable matrix receives the eigenvectors and nothing else of its storage changes; the generalised problem of type 1, 2 or 3 is solved as asked. Non-square matrices, wrong ranks, unknown types and drivers are errors; subset arguments select the eigenvalues returned.", "quantifier": "all nonempty square matrices, layouts, triangles, device orders, problem types and LAPACK results", "why_tests_cant": "which triangle is read and where results are written depends on the layout", "anchors": ["rstsr-linalg-traits/src/ref_impl_blas.rs", "rstsr-linalg-traits/src/blas_impl/eigh.rs", "rstsr-linalg-traits/src/blas_impl/eigvalsh.rs", "rstsr-blas-traits/src/lapack_eigh"]}
{"id": "C84", "title": "Determinants", "statement": "slogdet returns the sign and the logarithm of the modulus of the determinant of the matrix and det the determinant, whatever the layout and the row exchanges of the factorisation; singular matrices have determinant 0, matrices that are not square are refused.", "quantifier": "all nonempty matrices over any commutative ring with a sign and modulus, all layouts and pivots", "why_tests_cant": "the sign depends on the parity of the pivots of every matrix; the determinant is a polynomial of every order", "anchors": ["rstsr-linalg-traits/src/ref_impl_blas.rs", "rstsr-linalg-traits/src/blas_impl/det.rs", "rstsr-linalg-traits/src/blas_impl/slogdet.rs"]}
{"id": "C85", "title": "Pseudo-inverse", "statement": "pinv returns the Moore-Penrose inverse of the matrix (all four Penrose conditions) after singular values at or below atol + rtol * largest are dropped, and the number of values kept as the rank, for every rank including 0.", "quantifier": "all nonempty matrices over a commutative ring with involution, all layouts, device orders, tolerances and singular value decompositions", "why_tests_cant": "correctness depends on every decomposition and layout; tests compare a few fingerprints", "anchors": ["rstsr-linalg-traits/src/ref_impl_blas.rs", "rstsr-linalg-traits/src/blas_impl/pinv.rs"]}
{"id": "C86", "title": "Exchange of matrices with faer", "statement": "Converting a tensor to a faer matrix gives exactly its rows, columns and entries for every layout; what faer writes through a mutable conversion arrives in exactly the elements of the tensor; converting faer's matrices back (with any padding) gives their entries, and a round trip gives back the tensor.", "quantifier": "all matrices, layouts with negative, zero and arbitrary strides and offsets, paddings and written values", "why_tests_cant": "the conversion is raw pointer and stride arithmetic; tests use small contiguous matrices", "anchors": ["rstsr-core/src/device_faer/conversion.rs", "IntoFaer", "IntoRSTSR"]}
{"id": "C87", "title": "Singular values and pseudo-inverse on the faer device", "statement": "svd returns U, s, Vh of the documented shapes with A = U diag(s) Vh, real or complex; svdvals returns the same values; pinv returns the Moore-Penrose inverse and the rank after dropping the values at or below atol + rtol * largest; errors of faer are errors.", "quantifier": "all matrices, layouts, scalars with a conjugation, decompositions of faer, tolerances, thread pools and schedules", "why_tests_cant": "correctness depends on every decomposition; conjugation only shows for complex input", "anchors": ["rstsr-linalg-traits/src/faer_impl/svd.rs", "rstsr-linalg-traits/src/faer_impl/svdvals.rs", "rstsr-linalg-traits/src/faer_impl/pinv.rs", "svd_f", "svdvals_f", "pinv_f"]}
{"id": "C88", "title": "Eigenvalues on the faer device", "statement": "eigh and eigvalsh use exactly the chosen triangle and return eigenvalues and orthonormal eigenvectors of the symmetric matrix stored there; the generalised problems of type 1, 2 and 3 are solved as asked; operands of different devices, unknown types and non-square matrices are errors.", "quantifier": "all square matrices, layouts, triangles, problem types and results of faer, over every field with a conjugation", "why_tests_cant": "the reduction with Cholesky factors is right or wrong for all matrices of every order; in-place symmetrisation depends on the layout", "anchors": ["rstsr-linalg-traits/src/faer_impl/eigh.rs", "rstsr-linalg-traits/src/faer_impl/eigvalsh.rs", "eigh_f", "eigvalsh_f"]}
{"id": "C89", "title": "Factorisations and solutions on the faer device", "statement": "cholesky returns the lower factor L with L L^H = A or the upper one W with W^H W = A of the chosen triangle; inv returns the inverse; det the determinant; solve_general and solve_triangular return solutions in the kind of tensor given.", "quantifier": "all square matrices, layouts, triangles, kinds of right-hand side and results of faer", "why_tests_cant": "which triangle is read and where the solution is written depends on the layout and ownership", "anchors": ["rstsr-linalg-traits/src/faer_impl/cholesky.rs", "rstsr-linalg-traits/src/faer_impl/inv.rs", "rstsr-linalg-traits/src/faer_impl/det.rs", "rstsr-linalg-traits/src/faer_impl/solve_general.rs", "rstsr-linalg-traits/src/faer_impl/solve_triangular.rs"]}
{"id": "C90", "title": "Linear algebra calls leave faer's global parallelism alone", "statement": "Every linear algebra call on the faer device leaves the process-wide degree of parallelism of faer as it found it, whether it succeeds or fails.", "quantifier": "all calls, operands, pools, degrees before the call and outcomes of faer", "why_tests_cant": "the effect is on global state after the call and only on rare failures", "anchors": ["rstsr-linalg-traits/src/faer_impl/svd.rs", "set_global_parallelism"]}
{"id": "C91", "title": "Results stay on the device of the operand", "statement": "The tensors returned by a linear algebra function of the faer device belong to the device (threads and default order) of its operand, so that they can be used together.", "quantifier": "all operands, devices and outcomes", "why_tests_cant": "tests use the default device only", "anchors": ["rstsr-linalg-traits/src/faer_impl/svd.rs", "rstsr-core/src/device_faer/device.rs", "same_device"]}
{"id": "C92", "title": "Owned tensors have elements of their own", "statement": "into_owned and to_owned return a tensor with the same elements, each stored at an address of its own: writing one element changes no other.", "quantifier": "all tensors, views and layouts, also broadcast ones", "why_tests_cant": "depends on coincidences between storage length and shape", "anchors": ["rstsr-core/src/tensor/ownership_conversion.rs", "into_owned", "to_owned"]}
{"id": "C93", "title": "Lebedev rules exist for the documented orders", "statement": "lebedev_rule succeeds for exactly the documented orders and returns an (m, 3) tensor of points and an (m,) tensor of weights with the documented number m, every element written; any other order is an InvalidValue error. lebedev_rule_from_degree(m) is the rule with m points.", "quantifier": "all orders and numbers of points", "why_tests_cant": "tests read a few rules; unwritten memory is not observable by tests", "anchors": ["rstsr-sci-traits/src/integrate/lebedev.rs", "lebedev_rule_f", "lebedev_rule_from_degree_f", "lebedev_make_angular_grid"]}
{"id": "C94", "title": "Lebedev grids lie on the sphere and have octahedral symmetry", "statement": "Every point of every rule lies on the unit sphere; changing signs of and permuting the coordinates of a point gives a point of the rule with the same weight; weights are positive.", "quantifier": "all rules and all of their points", "why_tests_cant": "tests compare fingerprints of a few rules", "anchors": ["rstsr-sci-traits/src/integrate/lebedev.rs", "lebedev_generate_sph_oh"]}
{"id": "C95", "title": "Lebedev rules integrate polynomials up to their order", "statement": "The rule of order n integrates every polynomial in x, y, z of degree at most n over the unit sphere (mean value) up to the rounding of its tables.", "quantifier": "all rules and all polynomials of degree at most the order", "why_tests_cant": "a typing error in one digit of one table is invisible to tests of other integrands", "anchors": ["rstsr-sci-traits/src/integrate/lebedev.rs", "lebedev_make_angular_grid", "lebedev_rule"]}
{"id": "C96", "title": "A device reports the threads and the order it was last given", "statement": "After any history of creating, re-threading and re-ordering a device, get_num_threads is the size of its pool and equals the last request (0 meaning the number of threads at the place of the request), default_order is the last order set, and same_device holds exactly for devices with equal thread numbers and orders.", "quantifier": "all histories of new, set_num_threads and set_default_order, from any place", "why_tests_cant": "histories are unbounded and the meaning of 0 depends on where a call is made", "anchors": ["rstsr-core/src/feature_rayon/device.rs", "DeviceCpuRayon", "set_num_threads", "get_num_threads", "rstsr-core/src/device_faer/device.rs", "same_device"]}
{"id": "C97", "title": "Moving a tensor between devices keeps its content", "statement": "change_device, to_device and into_device of any tensor or view return a tensor on the requested device with the same shape and elements; into_device returns an owned one; moving there and back gives the original content.", "quantifier": "all tensors and views, including empty ones, all pairs of devices", "why_tests_cant": "views have unbounded kinds of layouts", "anchors": ["rstsr-core/src/tensor/device_conversion.rs", "change_device", "into_device", "to_device", "rstsr-core/src/device_faer/conversion.rs", "rstsr-core/src/device_cpu_serial/conversion.rs", "crates-device/rstsr-openblas/src/conversion.rs"]}
{"id": "C98", "title": "Operations refuse operands of different devices", "statement": "A binary operation, one with an output and an assigning one on operands of incompatible devices fail with DeviceMismatch and change nothing; on compatible devices the result has the broadcast elementwise values and belongs to the device of the first operand (the output); moving an operand first makes it possible.", "quantifier": "all tensors, devices and elementwise functions", "why_tests_cant": "combinations of devices and layouts are unbounded", "anchors": ["rstsr-core/src/tensor/operators/op_with_func.rs", "op_refa_refb_func", "op_mutc_refa_refb_func", "op_muta_refb_func", "rstsr-core/src/tensor/operators/op_binary_arithmetic.rs"]}
{"id": "C99", "title": "with_num_threads is scoped", "statement": "Library calls inside with_num_threads(n, f) use n threads and the number of threads is afterwards what it was before, for any nesting, any number of threads that use it at the same time, every schedule, and when f panics.", "quantifier": "all nestings of with_num_threads, all libraries, all numbers of threads and all schedules", "why_tests_cant": "races and panics show under some schedules only", "anchors": ["crates-device/rstsr-openblas/src/threading.rs", "with_num_threads", "crates-device/rstsr-mkl/src/threading.rs", "crates-device/rstsr-kml/src/threading.rs", "rstsr-blas-traits/src/threading.rs"]}
{"id": "C100", "title": "einsum", "statement": "einsum of tensors on one device whose extents fit the subscripts returns a tensor on that device, contiguous in its default order, whose entry at an index is the sum over all values of the names absent from the result of the products of the operands' elements, whatever the strides of the operands; with an output, exactly the output's elements are overwritten by these entries; no operands or different devices give an error.", "quantifier": "all subscripts, operand lists, ranks, extents, strides, orders of contraction and libraries that meet the stated contract", "why_tests_cant": "the subscripts and layouts are unbounded, and the library may contract in any order", "anchors": ["crates-plugin/rstsr-tblis/src/einsum_impl.rs", "einsum", "einsum_f", "einsum_with_output_f", "einsum_from_f"]}
{"id": "C101", "title": "tensordot", "statement": "tensordot(a, b, axes) has the axes of a that are not contracted followed by those of b, and its entry is the sum over all values of the contracted axes of the products of the elements of a and b; axes out of range, repeated axes, more than 52 labels and different devices give an error.", "quantifier": "all ranks, extents, strides, axes given as nothing, a number or two lists, negative axes included", "why_tests_cant": "all pairings of axes of all ranks", "anchors": ["crates-plugin/rstsr-tblis/src/tensordot_impl.rs", "tensordot_f", "tensordot_with_output_f", "rstsr-common/src/tensordot_to_einsum.rs", "tensordot_to_einsum_str"]}
{"id": "C102", "title": "number of threads of TBLIS", "statement": "einsum and tensordot run the library with the device's number of threads, or 1 inside a worker of rayon, and leave the library's number of threads as it was, also when they fail.", "quantifier": "all devices, previous numbers of threads, calling contexts and outcomes", "why_tests_cant": "depends on the history of a process-wide setting and on failures of the library", "anchors": ["crates-plugin/rstsr-tblis/src/einsum_impl.rs", "einsum_with_option_output_f", "tblis_set_num_threads"]}
{"id": "C103", "title": "arange of floating-point numbers", "statement": "arange(start, stop, step) of f32 or f64 ends and gives values of the half-open interval from start to stop, strictly monotone, beginning with start, each within a few units in the last place of start + i * step, with none missing; empty or descending intervals and a zero step behave as documented by NumPy.", "quantifier": "all finite f32 and f64 arguments", "why_tests_cant": "depends on the rounding of every quotient, product and sum; the bad cases are rare", "anchors": ["rstsr-native-impl/src/cpu_serial/creation.rs", "arange_by_primitive_f64_cpu_serial", "arange_by_partial_ord_cpu_serial", "arange_cpu_serial", "rstsr-native-impl/src/cpu_rayon/creation.rs"]}
{"id": "C104", "title": "linspace of floating-point numbers", "statement": "linspace(start, stop, n) of f32, f64, Complex<f32> or Complex<f64> gives n values evenly spaced from start on (complex ones in each part) up to rounding errors with a stated bound, ends with stop if the endpoint is included, and does so on the serial and on the parallel device alike.", "quantifier": "all finite real and complex ends and all numbers of values up to the precision", "why_tests_cant": "rounding errors accumulate over n additions; a test sees a few n", "anchors": ["rstsr-core/src/device_cpu_serial/creation.rs", "linspace_impl", "rstsr-native-impl/src/cpu_rayon/creation.rs", "linspace_cpu_rayon"]}
{"id": "C105", "title": "Sums and means of floating-point tensors", "statement": "The sum (mean) of a tensor of f32 or f64, of all elements or over axes, is within a stated bound of the exact sum (mean), whatever the device, the layout and the schedule; sums of integers that fit the precision are exact and do not depend on the schedule.", "quantifier": "all tensors, layouts, shapes, devices and schedules", "why_tests_cant": "the order of additions depends on layout, chunks and scheduler; a test sees a few of them", "anchors": ["rstsr-core/src/device_cpu_serial/reduction.rs", "sum_all", "sum_axes", "mean_all", "mean_axes", "rstsr-core/src/feature_rayon/auto_impl/reduction.rs"]}
{"id": "C106", "title": "Extrema of floating-point tensors", "statement": "min and max of a tensor of f32 or f64 ignore NaNs and give an element that is not above (below) any other, on every device and for every schedule; argmin and argmax give the first position of such an element when there is no NaN; an empty tensor is an error.", "quantifier": "all tensors, layouts, shapes, devices, schedules, and elements including infinities and NaNs", "why_tests_cant": "NaNs and infinities may lie anywhere, and partial results are combined in an order that the scheduler chooses", "anchors": ["rstsr-dtype-traits/src/ext_real.rs", "rstsr-core/src/device_cpu_serial/reduction.rs", "min_all", "max_all", "argmin_all", "argmax_all", "rstsr-core/src/feature_rayon/auto_impl/reduction.rs"]}
{"id": "C107", "title": "Products of floating-point matrices", "statement": "Each entry of a matrix product (inner product, matrix-vector, batched) of f32 or f64 tensors is within a stated rounding bound of the exact sum of products, whatever layouts, batch axes, alpha, beta, and on the parallel kernels whatever the schedule; products of integers that fit the precision are exact.", "quantifier": "all tensors, layouts, shapes with batch axes, alpha, beta, old contents of the output, and schedules", "why_tests_cant": "the bound concerns every size and every finite element; the order of the additions depends on the kernel and the scheduler", "anchors": ["rstsr-native-impl/src/cpu_serial/matmul_naive.rs", "rstsr-native-impl/src/cpu_rayon/matmul_naive.rs", "rstsr-core/src/tensor/linalg/matmul.rs", "op_refa_refb_matmul", "op_mutc_refa_refb_matmul"]}
{"id": "C108", "title": "Closeness of floating-point numbers", "statement": "isclose of two finite f32 or f64 numbers, or of two unsigned integers, is |a - b| <= atol + rtol * |b| on the true values up to a stated rounding margin; equal numbers are always close, and with zero tolerances only they are; growing tolerances never make close numbers apart; NaNs are close only to NaNs and only if asked for; allclose is the conjunction over all broadcast pairs on every device and schedule, so that a finite tensor is allclose to itself.", "quantifier": "all finite numbers (also subnormal), tolerances, tensors, shapes, layouts, schedules", "why_tests_cant": "the verdict depends on three roundings, underflow and overflow of particular numbers; there are 2^256 combinations of operands and tolerances", "anchors": ["rstsr-dtype-traits/src/isclose.rs", "isclose", "rstsr-dtype-traits/src/ext_num.rs", "ext_abs_diff", "rstsr-core/src/tensor/reduction.rs", "allclose"]}
{"id": "C109", "title": "Neighbouring half-precision numbers", "statement": "nextafter of two f16 or bf16 numbers that are not NaN is the representable number next to the first in the direction of the second, with nothing in between, through zero, subnormal numbers and infinity, and the second number if both are equal; it never overflows, a step back returns to the start, repetition reaches the second number, and a NaN gives a NaN.", "quantifier": "all pairs of bit patterns of f16 and bf16", "why_tests_cant": "the 2^32 pairs per type include sign changes, signed zeros, subnormal and binade boundaries; repetition is about unbounded sequences of calls", "anchors": ["rstsr-dtype-traits/src/ext_float.rs", "nextafter_f16", "nextafter_bf16", "ext_nextafter"]}
{"id": "C110", "title": "Dot products of floating-point tensors", "statement": "vecdot of two tensors of f32 or f64 succeeds exactly for axes and shapes that fit, and every entry whose factors are finite and far from overflow is finite and within a rounding bound of the exact sum of its products, in whatever order the sum is formed and on the serial and rayon devices for every schedule; integers of moderate size give the exact result. The variant that writes into an existing tensor ignores what it contained and changes nothing else.", "quantifier": "all shapes, layouts, axes, elements (including zeros, subnormal numbers, and NaN in the old output), devices and schedules; the bound for entries away from overflow", "why_tests_cant": "rounding depends on values and on the order of summation, which depends on layouts and the schedule; tests compare a few products with a tolerance", "anchors": ["rstsr-core/src/tensor/linalg/vecdot.rs", "vecdot_f", "vecdot_from_f", "rstsr-native-impl/src/cpu_serial/vecdot.rs", "vecdot_naive_cpu_serial", "rstsr-native-impl/src/cpu_rayon/vecdot.rs", "vecdot_naive_cpu_rayon"]}
{"id": "C111", "title": "Products and norms of floating-point tensors", "statement": "The product of a tensor of f32 or f64 (of all elements or over axes) is finite and within a rounding bound of the exact product, zero if an element is zero and exact for integers of moderate product, as long as no partial product comes near overflow; the norm is finite and within a rounding bound of the exact norm as long as the sum of squares is away from overflow. Both hold for every device, schedule, layout and number of elements.", "quantifier": "all tensors, axes, element values (subnormal numbers and zeros included), devices and schedules; the bounds away from overflow", "why_tests_cant": "rounding and underflow depend on the values and on the order of the operations, which depends on layout, device and schedule", "anchors": ["rstsr-core/src/device_cpu_serial/reduction.rs", "prod_all", "prod_axes", "l2_norm_all", "l2_norm_axes", "rstsr-core/src/feature_rayon/auto_impl/reduction.rs"]}
{"id": "C112", "title": "Variances and standard deviations of floating-point tensors", "statement": "The variance of a tensor of f32 or f64 (of all elements or over axes) is finite and within a rounding bound, relative to the mean of the squares, of the mean squared distance from the mean, as long as the sums are away from overflow; the standard deviation is finite and within the propagated bound if the exact variance exceeds the error bound of the variance. This holds for every device, schedule, layout and number of elements up to 2^24 or 2^53.", "quantifier": "all tensors, axes, element values (subnormal numbers and zeros included), devices and schedules; the bounds away from overflow", "why_tests_cant": "rounding, cancellation and underflow depend on the values and on the order of the operations, which depends on layout, device and schedule", "anchors": ["rstsr-core/src/device_cpu_serial/reduction.rs", "var_all", "var_axes", "std_all", "std_axes", "rstsr-core/src/feature_rayon/auto_impl/reduction.rs"]}
{"id": "C113", "title": "Distances of floating-point vectors", "statement": "Without weights, the table of city block, Euclidean, squared Euclidean or Chebyshev distances of rows of f32 or f64 numbers has finite entries within a rounding bound of the exact distances, as long as the exact distances are away from overflow; equal rows have distance exactly zero; city block and Chebyshev distances are zero only for equal rows; exchanging the operands transposes the table bit for bit, even with infinities and NaN; Hamming distances are within one rounding of the part of entries that differ, lie in [0, 1] and are zero only if no entry differs.", "quantifier": "all matrices, numbers of rows and columns (Hamming: up to 2^53 columns), layouts, entry values (subnormal numbers and zeros included) and orders of computation", "why_tests_cant": "rounding, cancellation and underflow depend on the values; zero and symmetry are claims about all pairs of rows", "anchors": ["rstsr-sci-traits/src/distance/metric.rs", "rstsr-sci-traits/src/distance/native_impl.rs", "cdist", "MetricEuclidean", "MetricSqEuclidean", "MetricCityBlock", "MetricChebyshev", "MetricHamming"]}
{"id": "C114", "title": "Sums, means, norms and dot products of complex floating-point tensors", "statement": "For tensors of Complex<f32> or Complex<f64>, each part of a sum, mean or dot product, and each norm, is finite and within a rounding bound of the exact value of that part, over all elements or over axes, on the serial and the parallel device, as long as the operands are finite and the exact magnitudes are away from overflow; vecdot conjugates its left operand; a norm of finite numbers is never NaN.", "quantifier": "all tensors, shapes, layouts, axes and values (subnormal numbers and signed zeros included), all schedules, groups of up to 2^24 or 2^53 elements for the mean", "why_tests_cant": "cancellation between the products of the parts, and where a product or a division overflows, depend on the values; unit tests compare a few small numbers", "anchors": ["rstsr-core/src/device_cpu_serial/reduction.rs", "rstsr-core/src/feature_rayon/auto_impl/reduction.rs", "rstsr-core/src/tensor/linalg/vecdot.rs", "rstsr-dtype-traits/src/ext_num.rs", "sum_axes", "mean_axes", "l2_norm_axes", "vecdot", "ext_conj"]}
{"id": "C115", "title": "The iteration order K is the order of memory", "statement": "Iterating over a tensor in the order K (or G) visits the positions of its elements in ascending order of memory, each position as often as elements lie there, and strictly ascending if no axis is broadcast; negative strides, permuted axes and broadcast axes included.", "quantifier": "all accepted layouts of any rank, shape, strides and offset", "why_tests_cant": "the order is found by sorting the axes by stride after flipping the negative ones; that sorted strides nest for every accepted layout is a statement about all shapes and strides, while tests compare a few iterators with literal lists", "anchors": ["rstsr-common/src/layout/rearrangement.rs", "rstsr-common/src/layout/iterator.rs", "greedy_layout", "TensorIterOrder"]}
{"id": "C116", "title": "Closures that keep a state", "statement": "map_fnmut, mapv_fnmut, mapi_fnmut, mapvi_fnmut, mapb_fnmut and mapvb_fnmut call the closure exactly once for each element (mapi: for each cell of memory), hand its state from each call to the next, and write what a call returns to the place it was called on; map_fnmut calls it in the order of the memory of the result.", "quantifier": "all tensors, shapes, layouts, element types, closures and states", "why_tests_cant": "whether the blocks that the kernels cut out repeat or drop an element depends on shapes and strides; a closure that counts or accumulates sees it, a pure one does not", "anchors": ["rstsr-core/src/tensor/map_elementwise.rs", "rstsr-native-impl/src/cpu_serial/op_with_func.rs", "map_fnmut_f", "mapi_fnmut_f", "mapb_fnmut_f"]}
{"id": "C117", "title": "Parallel iteration with indices and over sub-views", "statement": "Iterating in parallel with indices, or over the sub-views along chosen axes, hands every index to exactly one worker together with the element (or the sub-view) at that index, however the scheduler splits the work; a client that writes through the parallel mutable iterators changes every element exactly once, to a value computed from its own index, in every interleaving.", "quantifier": "all tensors, layouts, axes, element types, all trees of splits within the length (splitting an empty iterator is C19's refuted case) and all interleavings of the workers", "why_tests_cant": "which splits occur depends on the number of threads, on stealing and on timing; an index that is off after a rare split shows only under such a schedule", "anchors": ["rstsr-core/src/feature_rayon/par_iter.rs", "rstsr-common/src/par_iter.rs", "rstsr-core/src/tensor/iterator_elem.rs", "rstsr-core/src/tensor/iterator_axes.rs", "ParIterRSTSR", "IndexedIterVecMut", "IndexedIterAxesView"]}
{"id": "C118", "title": "Products of complex floating-point matrices", "statement": "Each part of each entry of a matrix product (inner product, matrix-vector, batched) of Complex<f32> or Complex<f64> tensors is within a stated rounding bound of that part of the exact sum of products, without conjugation, whatever layouts and batch axes, and on the parallel kernels whatever the schedule.", "quantifier": "all tensors of complex numbers, layouts, shapes with batch axes, finite old contents of the memory of the result, and schedules", "why_tests_cant": "the bound concerns every size and every pair of finite elements away from overflow; the order of the additions depends on the kernel and the scheduler", "anchors": ["rstsr-native-impl/src/cpu_serial/matmul_naive.rs", "rstsr-native-impl/src/cpu_rayon/matmul_naive.rs", "rstsr-core/src/tensor/linalg/matmul.rs", "op_refa_refb_matmul"]}
{"id": "C119", "title": "Debug texts of layouts and tensors", "statement": "The Debug text of a layout states the number of axes, the kind of dimension, shape, strides and offset, and a word on contiguity that is true of the positions of the elements; two layouts with the same text are equal.  The Debug text of a tensor is printed without a panic, shows the elements as Display does, and determines the layout and the type.", "quantifier": "all layouts and tensors, element and device texts, MAX_PRINT and MIN_PRINT settings", "why_tests_cant": "the word depends on every combination of extents and strides; that no two layouts share a text is a statement about all pairs", "anchors": ["rstsr-common/src/format_layout.rs: Debug for Layout", "rstsr-core/src/format/format_tensor.rs: Debug for TensorAny", "rstsr-common/src/layout/layoutbase.rs: c_prefer, f_prefer, c_contig, f_contig"]}
{"id": "C120", "title": "Indices and ranges of all integer types", "statement": "An index or a range a..b, a.., ..b or .. of any of the accepted integer types (usize, isize, u32, i32, u64, i64) selects the positions it names: non-negative bounds as in Rust, clipped to the extent, negative ones as in Python; an index outside the axis is an error.", "quantifier": "all integer types and values, ranges, axes and layouts", "why_tests_cant": "the values of six types are converted to isize without a check; whether every one keeps its meaning is a statement about all values", "anchors": ["rstsr-common/src/layout/slice.rs: impl_from_slice, From<Range>", "rstsr-common/src/layout/indexer.rs: impl_from_int_into_indexer, dim_narrow, dim_select"]}
{"id": "C121", "title": "Memory of new tensors", "statement": "The storage of a new tensor of n elements has room for n elements or its creation is an error; the creation succeeds when the allocator does; the memory is given back as it was asked for.", "quantifier": "all element sizes and alignments, all numbers of elements, all behaviours of the allocator, with and without overflow checks", "why_tests_cant": "the size is a product that may overflow for some pair of factors no test can allocate, and allocator failures cannot be provoked in a test", "anchors": ["rstsr-common/src/alloc_vec.rs: uninitialized_vec, aligned_uninitialized_vec, aligned_alloc", "rstsr-core/src/device_cpu_serial/creation.rs"]}
{"id": "C122", "title": "Dimension types", "statement": "A tensor converts to a dimension type (a fixed number of axes or a dynamic one) exactly when it has that many axes; the result has the same shape, elements and storage and converts back; conversion to the dynamic type never fails.", "quantifier": "all tensors, dimension types and ranks", "why_tests_cant": "the number of axes of a dynamic tensor is known at run time only; the three conversions take different paths", "anchors": ["rstsr-common/src/layout/layoutbase.rs: DimIntoAPI, into_dim, to_dim", "rstsr-core/src/tensor/manipulation/into_dim.rs: into_dim, to_dim, into_dyn, to_dyn"]}
{"id": "C123", "title": "Unary operators", "statement": "-a and !a have the shape of a and hold the negative or the complement of every element, in a new tensor when a is borrowed and in its own storage, with nothing else changed, when it is owned; doing it twice gives the elements back; negation panics exactly when overflow checks are on and an element is the lowest number of its type.", "quantifier": "all layouts (also broadcast ones), integer widths, overflow check modes and elements", "why_tests_cant": "an owned tensor with broadcast axes shows one storage place several times and must be updated once; overflow depends on one value of the type", "anchors": ["rstsr-core/src/tensor/operators/op_unary_arithmetic.rs: neg_f, not_f", "rstsr-core/src/device_cpu_serial/operators/op_binary_arithmetic.rs: OpNegAPI, OpNotAPI"]}
