{
 "claims": [
  {
   "property": "C01",
   "status": "proved",
   "theorems": [
    "C01_new_layout_does_not_alias",
    "C01_every_injective_layout_accepted_refuted"
   ],
   "note": "Soundness of the stride check, proved for every rank, sign of stride and size. The converse (every alias-free layout accepted) is not part of the property and is shown false."
  },
  {
   "property": "C02",
   "status": "proved",
   "theorems": [
    "C02_bounds_are_exact"
   ],
   "note": "Full."
  },
  {
   "property": "C03",
   "status": "proved",
   "theorems": [
    "C03_index_follows_python_rules"
   ],
   "note": "Full, for layouts whose elements have non-negative positions (what Layout::new guarantees)."
  },
  {
   "property": "C04",
   "status": "proved",
   "theorems": [
    "C04_contiguous_layouts_enumerate_storage"
   ],
   "note": "Full."
  },
  {
   "property": "C05",
   "status": "proved",
   "theorems": [
    "C05_prefer",
    "C05_contig_prefers",
    "C05_contiguity_predicates"
   ],
   "note": "Full for non-empty layouts (for empty layouts both predicates are constantly true)."
  },
  {
   "property": "C06",
   "status": "proved",
   "theorems": [
    "C06_unravel_enumerates",
    "C06_unravel_inverts_c_position",
    "C06_unravel_inverts_f_position"
   ],
   "note": "Full, for both dimension types including the unrolled 0-4 axis branches."
  },
  {
   "property": "C07",
   "status": "proved",
   "theorems": [
    "C07_matrix_transpose_defined",
    "C07_matrix_transpose",
    "C07_transpose_relabels",
    "C07_transpose_accepts_exactly_permutations",
    "C07_swapaxes_relabels",
    "C07_reverse_axes_relabels"
   ],
   "note": "Full."
  },
  {
   "property": "C08",
   "status": "proved",
   "theorems": [
    "C08_permutation_can_be_undone"
   ],
   "note": "Full."
  },
  {
   "property": "C09",
   "status": "partial",
   "theorems": [
    "C09_slice_follows_python_partial",
    "C09_negative_step_low_start_refuted",
    "C09_negative_step_stop_minus_one_refuted"
   ],
   "note": "Proved for every start/stop/step except two families with a negative step, where the code deviates from Python and the claim is refuted: start below -len (Python: empty; code: element 0) and an explicit stop of -1 (Python: empty-or-shorter; code: read as \"before the beginning\")."
  },
  {
   "property": "C10",
   "status": "proved",
   "theorems": [
    "C10_slice_is_a_subview"
   ],
   "note": "Full: any slice, plain or not."
  },
  {
   "property": "C11",
   "status": "proved",
   "theorems": [
    "C11_mixed_indexing_reads",
    "C11_mixed_indexing_rejects",
    "C11_single_axis_operations"
   ],
   "note": "Full for slices that are plain in the sense of C09; acceptance/rejection and absence of panics proved for every indexer list."
  },
  {
   "property": "C12",
   "status": "partial",
   "theorems": [
    "C12_diagonal_partial",
    "C12_diagonal_wide_refuted",
    "C12_diagonal_tall_refuted"
   ],
   "note": "Proved whenever the offset does not fall between the two extents (in particular always for square diagonals); refuted in that range: offset in [d1,d2) loses the diagonal, offset in (d2,d1) yields a wrapped length."
  },
  {
   "property": "C13",
   "status": "proved",
   "theorems": [
    "C13_broadcast_shape_is_numpy_rule",
    "C13_broadcast_shape_defined",
    "C13_broadcast_shape_commutative",
    "C13_broadcast_shape_associative",
    "C13_broadcast_shapes_rule",
    "C13_broadcast_shapes_order_independent",
    "C13_broadcastable_to",
    "C13_broadcastable_from"
   ],
   "note": "Full, both alignments, two operands and lists of operands, including which inputs fail."
  },
  {
   "property": "C14",
   "status": "proved",
   "theorems": [
    "C14_broadcast_operands",
    "C14_broadcast_to_shape",
    "C14_broadcast_stays_inside",
    "C14_broadcast_arrays"
   ],
   "note": "Full for pairs of layouts and for broadcast-to-shape."
  },
  {
   "property": "C15",
   "status": "proved",
   "theorems": [
    "C15_reshape_preserves_order",
    "C15_reshape_stays_inside",
    "C15_reshape_complete",
    "C15_no_needless_copy",
    "C15_reshape_accepted"
   ],
   "note": "Soundness of the zero-copy path for every layout (negative, zero and gapped strides), both orders. A copy is made only when no strides and offset give the requested order (C15_reshape_complete, C15_no_needless_copy)."
  },
  {
   "property": "C16",
   "status": "partial",
   "theorems": [
    "C16_reshape_accepts_same_size",
    "C16_inferred_extent_partial",
    "C16_bad_negatives_rejected",
    "C16_inferred_extent_panics_refuted",
    "C16_reshape_request_partial"
   ],
   "note": "Everything except requested shapes that contain both -1 and 0: there the code takes a remainder by zero and panics (refuted)."
  },
  {
   "property": "C17",
   "status": "proved",
   "theorems": [
    "C17_forward_iteration",
    "C17_default_order"
   ],
   "note": "Full, both dimension types (the unrolled 1-4 axis steps and the generic loop)."
  },
  {
   "property": "C18",
   "status": "proved",
   "theorems": [
    "C18_double_ended_iteration",
    "C18_iterator_is_a_deque"
   ],
   "note": "Full."
  },
  {
   "property": "C19",
   "status": "proved",
   "theorems": [
    "C19_split_tree_partitions",
    "C19_split_of_empty_iterator_refuted"
   ],
   "note": "Full for non-empty layouts. Splitting the iterator of an empty layout divides by zero (refuted); rayon never splits a producer of length 0."
  },
  {
   "property": "C20",
   "status": "proved",
   "theorems": [
    "C20_len_is_exact"
   ],
   "note": "Full; histories with splits on empty layouts are excluded (see C19)."
  },
  {
   "property": "C21",
   "status": "proved",
   "theorems": [
    "C21_memory_order_visits_all",
    "C21_greedy_order_visits_distinct"
   ],
   "note": "Full: K for iterators, G for translated layouts (IterLayout maps G to K)."
  },
  {
   "property": "C22",
   "status": "proved",
   "theorems": [
    "C22_joint_iteration_aligned",
    "C22_shape_mismatch_rejected",
    "C22_order_a_scalar_refuted",
    "C22_order_b_refuted"
   ],
   "note": "Full for orders C, F and K and any number of operands; also order A with at least one axis. Order A panics on 0-dimensional operands (refuted) and order B misaligns reversed operands (refuted); the claim excludes both."
  },
  {
   "property": "C23",
   "status": "proved",
   "theorems": [
    "C23_chunked_iteration"
   ],
   "note": "Full."
  },
  {
   "property": "C24",
   "status": "proved",
   "theorems": [
    "C24_binary_result_layout",
    "C24_shape_mismatch_rejected"
   ],
   "note": "Full."
  },
  {
   "property": "C25",
   "status": "proved",
   "theorems": [
    "C25_copy_layout_bijective"
   ],
   "note": "Full."
  },
  {
   "property": "C26",
   "status": "proved",
   "theorems": [
    "C26_binary",
    "C26_binary_common",
    "C26_binary_owned_left",
    "C26_binary_owned_right",
    "C26_binary_owned_both",
    "C26_scalar_right",
    "C26_scalar_left",
    "C26_scalar_in_place",
    "C26_unary_in_place",
    "C26_binary_in_place",
    "C26_op_assign",
    "C26_op_assign_alias_refuted",
    "C26_with_output"
   ],
   "note": "Operators on references and owned operands (storage reuse included), comparisons, scalar operands, in-place operators and with_output. In-place operators and with_output assume a target view without aliasing elements; without it the code accepts the target and applies the operation repeatedly (refuted)."
  },
  {
   "property": "C27",
   "status": "partial",
   "theorems": [
    "C27_assign_partial",
    "C27_enlarging_source_refuted"
   ],
   "note": "Everything except the rejection of sources that would enlarge the target: those are accepted by the code (refuted)."
  },
  {
   "property": "C28",
   "status": "proved",
   "theorems": [
    "C28_fill",
    "C28_fill_empty_refuted"
   ],
   "note": "Full; a refuted theorem records that an empty IxD tensor is refused because its contiguous strides contain 0."
  },
  {
   "property": "C29",
   "status": "proved",
   "theorems": [
    "C29_reduce_all",
    "C29_elements",
    "C29_sum_prod",
    "C29_min_max",
    "C29_mean",
    "C29_var",
    "C29_count_nonzero",
    "C29_all_any"
   ],
   "note": "Full over commutative monoids (so exact arithmetic; floating-point rounding is not modelled), and the device reductions built on it: sum, prod, min, max, mean, var, count_nonzero, all, any."
  },
  {
   "property": "C30",
   "status": "proved",
   "theorems": [
    "C30_reduce_all_parallel"
   ],
   "note": "Full: every splitting tree of outer and inner loop, every chunk size."
  },
  {
   "property": "C31",
   "status": "partial",
   "theorems": [
    "C31_argmin_axes_flat",
    "C31_argmin_axes_flat_parallel_partial",
    "C31_argmin_flat_parallel",
    "C31_argmin",
    "C31_argmin_parallel",
    "C31_argmin_ravel",
    "C31_argmin_axes",
    "C31_argmin_axes_empty",
    "C31_argmin_axes_parallel_partial",
    "C31_argmin_axes_parallel_refuted",
    "C31_argmin_axes_parallel_flipped_refuted"
   ],
   "note": "Full for whole-tensor argmin/argmax (serial, parallel, ravelled) and for the serial axis versions (multi-index and ravelled). The parallel axis versions are proved for one summed axis with non-negative stride; otherwise the multi-index version returns a permuted index or panics (both refuted)."
  },
  {
   "property": "C32",
   "status": "partial",
   "theorems": [
    "C32_reduce_axes_partial",
    "C32_group_elements",
    "C32_reduce_axes_parallel_partial",
    "C32_sum_axes_partial",
    "C32_mean_axes_partial",
    "C32_broadcast_refuted",
    "C32_broadcast_panic_refuted",
    "C32_broadcast_remaining_refuted",
    "C32_empty_refuted"
   ],
   "note": "Serial and parallel kernels in full for non-empty inputs without broadcast axes, at the default iteration order K. Broadcast summed axes give wrong sums or panic, broadcast remaining axes panic or fail, empty inputs panic (all refuted)."
  },
  {
   "property": "C33",
   "status": "partial",
   "theorems": [
    "C33_layout_rules",
    "C33_product_shape_unique",
    "C33_matmul_partial",
    "C33_batch_rank_refuted",
    "C33_output_shape_refuted"
   ],
   "note": "Layout rules proved for all ranks, both dimension types and orders; matmul itself proved for operands of equal batch rank, with the rejection of unequal batch ranks and the unchecked output batch shape proved as refutations."
  },
  {
   "property": "C34",
   "status": "partial",
   "theorems": [
    "C34_matmul_from_partial",
    "C34_gemm",
    "C34_gemv",
    "C34_gevm",
    "C34_inner_dot_partial",
    "C34_inner_dot_refuted",
    "C34_inner_dot_rayon",
    "C34_gemm_rayon",
    "C34_uninitialised_refuted",
    "C34_gemm_mismatch",
    "C34_gemv_mismatch",
    "C34_gevm_mismatch",
    "C34_dot_mismatch"
   ],
   "note": "Serial kernels and matmul/matmul_from proved over every commutative semiring, all layouts, orders and batches; the parallel gemm and dot under every schedule. Refuted: a scalar output with an offset (first storage cell is written), and independence of the uninitialised result for numbers zero does not annihilate. Not modelled: the faer/BLAS kernels used for f32/f64/complex on other devices."
  },
  {
   "property": "C35",
   "status": "partial",
   "theorems": [
    "C35_cells",
    "C35_pack_partial",
    "C35_pack_error",
    "C35_unpack_partial",
    "C35_unpack_error",
    "C35_unpack_then_pack",
    "C35_pack_then_unpack",
    "C35_pack_rayon",
    "C35_unpack_rayon",
    "C35_empty_batch_refuted",
    "C35_unpack_none_refuted",
    "C35_pack_order",
    "C35_unpack_order"
   ],
   "note": "Both round trips, pack and unpack elementwise for every size, batch, stride, order and symmetry, serial and rayon; compact results in the order of the source or the device. Refuted: stacks of empty matrices with fixed-rank strides panic; unpacking with symmetry N uses uninitialised cells."
  },
  {
   "property": "C36",
   "status": "partial",
   "theorems": [
    "C36_tril",
    "C36_tril_view",
    "C36_triu_partial",
    "C36_triu_view_partial",
    "C36_rank",
    "C36_triu_refuted"
   ],
   "note": "tril proved for every k and shape. triu proved while m-1+k does not pass the last column; beyond that the code panics or zeroes elements of other rows or matrices (refuted)."
  },
  {
   "property": "C37",
   "status": "proved",
   "theorems": [
    "C37_concat",
    "C37_concat_element",
    "C37_concat_rayon",
    "C37_stack",
    "C37_empty"
   ],
   "note": "concat and stack for any number of operands of any layout, both orders, with exact error conditions; concat on the rayon device under every schedule."
  },
  {
   "property": "C38",
   "status": "partial",
   "theorems": [
    "C38_flip",
    "C38_flip_all",
    "C38_moveaxis",
    "C38_expand_dims",
    "C38_expand_dims_none_refuted",
    "C38_squeeze",
    "C38_squeeze_all",
    "C38_squeeze_rejects_partial",
    "C38_squeeze_below_refuted"
   ],
   "note": "flip, moveaxis, expand_dims and squeeze proved for every layout and axis list, including exactly which axis lists are refused; squeeze accepts some axes below -ndim and expand_dims panics without axes (both refuted)."
  },
  {
   "property": "C39",
   "status": "proved",
   "theorems": [
    "C39_row_to_column",
    "C39_column_to_row",
    "C39_rayon"
   ],
   "note": "Serial both directions and rayon, all sizes (block remainders included), all leading dimensions, error cases."
  },
  {
   "property": "C40",
   "status": "proved",
   "theorems": [
    "C40_views_inside_storage",
    "C40_diagonal_outside_refuted"
   ],
   "note": "Any history of view operations: storage unchanged, every element inside it and an element of the original. diagonal is not among the operations of the claim and is refuted separately."
  },
  {
   "property": "C41",
   "status": "partial",
   "theorems": [
    "C41_index_select_partial",
    "C41_gathers_unique",
    "C41_empty_axis_refuted",
    "C41_take",
    "C41_bool_select_partial",
    "C41_select_all",
    "C41_select_twice",
    "C41_rayon"
   ],
   "note": "All layouts, axes and index lists, with errors characterised exactly and the rayon device refined; the empty list on an axis of extent 0 is rejected (refuted). bool_select accepts masks of any length."
  },
  {
   "property": "C42",
   "status": "proved",
   "theorems": [
    "C42_normalize_axes_rules"
   ],
   "note": "Full."
  },
  {
   "property": "C43",
   "status": "proved",
   "theorems": [
    "C43_tensordot_labels",
    "C43_subscripts_determine",
    "C43_unequal_refuted"
   ],
   "note": "All ranks and axes arguments with as many axes of a as of b; lists of different lengths are accepted and the excess axes summed alone (refuted). The einsum evaluator itself is an external crate."
  },
  {
   "property": "C44",
   "status": "partial",
   "theorems": [
    "C44_asarray",
    "C44_asarray_owned",
    "C44_into_owned",
    "C44_to_vec",
    "C44_into_vec",
    "C44_to_scalar",
    "C44_to_layout_partial",
    "C44_to_layout_gap_refuted",
    "C44_to_contig_partial",
    "C44_to_contig_empty_refuted",
    "C44_to_prefer_partial",
    "C44_reshape_partial",
    "C44_reshape_truncates_refuted"
   ],
   "note": "asarray, to_owned, to_vec, into_vec, to_scalar in full. to_contig/to_prefer/to_layout/reshape with the hypothesis that an empty source has an in-range offset, and to_layout without gaps; each missing case is refuted."
  },
  {
   "property": "C45",
   "status": "proved",
   "theorems": [
    "C45_pack",
    "C45_unpack_pack",
    "C45_pack_zero_refuted"
   ],
   "note": "All vectors and N > 0; N = 0 panics (C45_pack_zero_refuted, outside the property's range)."
  },
  {
   "property": "C46",
   "status": "proved",
   "theorems": [
    "C46_layout_equality"
   ],
   "note": "Full; on empty layouts equality may be stricter than same-elements."
  },
  {
   "property": "C47",
   "status": "partial",
   "theorems": [
    "C47_eye_partial",
    "C47_eye_column_refuted",
    "C47_eye_offset_refuted",
    "C47_diag_vector",
    "C47_diag_matrix_partial",
    "C47_diag_rank",
    "C47_diag_of_diag"
   ],
   "note": "eye for every size and offset in row-major order and for square matrices, except the diagonals Layout::diagonal gets wrong (refuted: eye(2,5,3) is zero, eye(5,2,3) fails); column-major rectangular eye has the transposed shape (refuted for all n <> m). diag of a vector is proved for all offsets and layouts, with the round trip; diag of a matrix except the diagonals above."
  },
  {
   "property": "C48",
   "status": "partial",
   "theorems": [
    "C48_arange_32",
    "C48_arange_fast_partial",
    "C48_spaced_unique",
    "C48_arange_zero",
    "C48_arange_fallback_partial",
    "C48_arange_values",
    "C48_down_refuted",
    "C48_float_refuted",
    "C48_overflow_refuted",
    "C48_isize_overflow_refuted"
   ],
   "note": "i32/u32: all inputs.  Other accelerated integer types: |stop - start| <= 2^53.  Generic loop: positive steps without overflow.  Refuted outside: negative steps on i8/i16/i128 (every start <> stop), precision loss beyond 2^53, overflow.  Floating-point element types are in C103."
  },
  {
   "property": "C49",
   "status": "proved",
   "theorems": [
    "C49_parallel_mutable_iteration_disjoint"
   ],
   "note": "Full for orders C and F."
  },
  {
   "property": "C50",
   "status": "partial",
   "theorems": [
    "C50_indexed_iteration_partial",
    "C50_indexed_iteration_from_the_back_refuted"
   ],
   "note": "Front proved; next_back reports index_start instead of the index of the yielded element (refuted)."
  },
  {
   "property": "C51",
   "status": "partial",
   "theorems": [
    "C51_axes_iter_empty",
    "C51_axes_iter_empty_refuted",
    "C51_indexed_axes_orders",
    "C51_axes_iter_partial",
    "C51_axes_iter_invalid_refuted",
    "C51_indexed_back_refuted"
   ],
   "note": "One view per index, order, coverage, and next/next_back/split_at histories proved for non-empty views, and for empty ones when no iterated stride is negative (otherwise the iterator panics, refuted); orders other than C and F are errors for the indexed iterator; panics on invalid axes and the index returned by next_back of the indexed iterator are refuted."
  },
  {
   "property": "C52",
   "status": "proved",
   "theorems": [
    "C52_split_axes_lossless",
    "C52_split_axes_succeeds",
    "C52_split_at_lossless"
   ],
   "note": "dim_split_axes and dim_split_at. On an empty layout dim_split_axes may reject (a half can be non-empty and overlapping), which the success theorem excludes."
  },
  {
   "property": "C53",
   "status": "proved",
   "theorems": [
    "C53_binary",
    "C53_in_place",
    "C53_assign",
    "C53_map",
    "C53_fill"
   ],
   "note": "Element steps are atomic in the model; any permutation of them gives the serial result."
  },
  {
   "property": "C54",
   "status": "partial",
   "theorems": [
    "C54_axes",
    "C54_vecdot_partial",
    "C54_from_partial",
    "C54_rayon_partial",
    "C54_empty_refuted"
   ],
   "note": "Proved for vecdot, vecdot_from and the rayon kernel (all schedules), every commutative addition, all layouts, both orders, all axes arguments, non-empty operands. Refuted for a contracted axis of length 0 (panic). Missing: other empty operands."
  },
  {
   "property": "C55",
   "status": "proved",
   "theorems": [
    "C55_map",
    "C55_map_in_place"
   ],
   "note": "Full."
  },
  {
   "property": "C56",
   "status": "proved",
   "theorems": [
    "C56_unstack",
    "C56_stack_of_unstack",
    "C56_unstack_of_stack"
   ],
   "note": "unstack elementwise with exact error condition, and both round trips. Stacking the empty list of an empty axis is an error, hence the hypothesis of C56_stack_of_unstack."
  },
  {
   "property": "C57",
   "status": "proved",
   "theorems": [
    "C57_atleast",
    "C57_hstack",
    "C57_vstack"
   ],
   "note": "atleast_1d/2d/3d, hstack and vstack for any ranks, numbers and layouts, with exact error conditions."
  },
  {
   "property": "C58",
   "status": "partial",
   "theorems": [
    "C58_full_shape",
    "C58_zeros_ones_shape",
    "C58_zeros_ones_layout",
    "C58_full_layout_partial",
    "C58_full_layout_refuted",
    "C58_like",
    "C58_linspace_partial",
    "C58_linspace_rayon_partial"
   ],
   "note": "full/zeros/ones of shapes, zeros/ones of layouts and the _like forms proved for everything accepted. full of a layout allocates too few cells for strided layouts (refuted). linspace is proved in exact arithmetic here, and with rounding in C104."
  },
  {
   "property": "C59",
   "status": "partial",
   "theorems": [
    "C59_into_pack_partial",
    "C59_into_pack_refuted",
    "C59_into_unpack",
    "C59_unpack_pack",
    "C59_pack_unpack"
   ],
   "note": "Tensors whose other strides are multiples of N; for all others the code silently returns wrong elements (refuted in general). Empty tensors with a wrapped offset are left out."
  },
  {
   "property": "C60",
   "status": "proved",
   "theorems": [
    "C60_meshgrid"
   ],
   "note": "Any number of operands, any layouts, empty ones included, both indexings and both orders, with and without copies; errors characterised exactly."
  },
  {
   "property": "C61",
   "status": "proved",
   "theorems": [
    "C61_allclose",
    "C61_allclose_empty_refuted",
    "C61_allclose_rayon"
   ],
   "note": "Both devices, all layouts and orders, every closeness test, every schedule and chunk size. The closeness test is a parameter (see C62). allclose of empty arrays is an error where NumPy gives true (C61_allclose_empty_refuted); the property's text allows it."
  },
  {
   "property": "C62",
   "status": "partial",
   "theorems": [
    "C62_isclose_signed_partial",
    "C62_isclose_signed_refuted",
    "C62_isclose_infinite_refuted"
   ],
   "note": "Signed integers whose distance fits into the type. Refuted for larger distances (panic, or wrap-around to close) and for infinite f64 operands. The rounding of the f64 tolerance, unsigned integers and mixed floats are in C108.  Missing: complex and other mixed types."
  },
  {
   "property": "C63",
   "status": "proved",
   "theorems": [
    "C63_private",
    "C63_mutate",
    "C63_alias",
    "C63_clone",
    "C63_into_shared",
    "C63_into_owned",
    "C63_strong_count",
    "C63_released"
   ],
   "note": "For every program from the empty state; buffers are reference-counted cells with std's Arc semantics (new, clone, drop, try_unwrap, make_mut); a mutation is an arbitrary function of the tensor seen. Weak handles and concurrent use of one buffer from several threads are not modelled; unsafe force_mut is excluded."
  },
  {
   "property": "C64",
   "status": "partial",
   "theorems": [
    "C64_into_owned_partial",
    "C64_into_owned_shared_refuted",
    "C64_into_cow_partial"
   ],
   "note": "Proved when no other variable shares the buffer. Refuted otherwise: into_owned of a shared tensor that fills its buffer, and into_cow of any shared one, panic."
  },
  {
   "property": "C65",
   "status": "proved",
   "theorems": [
    "C65_faer_matmul",
    "C65_faer_matmul_from",
    "C65_faer_overwrites"
   ],
   "note": "All shapes, strides, both orders, every schedule, alpha and beta; the library is modelled by its specification (product, product into a triangle). Only the four element types the library supports, with both factors of one type; others use the kernels of C34. The elements are an exact commutative semiring with decidable equality, so float rounding is left out. The sum of a vector-vector product still reads the old output."
  },
  {
   "property": "C66",
   "status": "partial",
   "theorems": [
    "C66_blas_matmul",
    "C66_blas_matmul_from",
    "C66_blas_accumulate_partial",
    "C66_blas_accumulate_stacks_partial",
    "C66_blas_accumulate_vectors_partial",
    "C66_blas_accumulate_dot",
    "C66_blas_strided_refuted",
    "C66_blas_empty_refuted",
    "C66_blas_rank_refuted"
   ],
   "note": "beta = 0: all shapes, strides, both orders, every schedule. Any beta: stacks of matrices with a unit stride, stacks of vectors with a positive one, both with at least one term, and inner products. Refuted: other output strides lose beta * c; an empty contraction clears c; empty results ignore the rank rule. The library is modelled by its specification with the argument check of the reference implementation."
  },
  {
   "property": "C67",
   "status": "partial",
   "theorems": [
    "C67_gemm_partial",
    "C67_gemm_shape",
    "C67_gemm_offset_refuted",
    "C67_gemm_strided_refuted",
    "C67_gemm_order_refuted",
    "C67_gemm_empty_refuted"
   ],
   "note": "Proved for all layouts in neither order, and for those along an order that start their storage; outputs compact or along neither order; at least one element; transposition flags other than conjugation alone (an error). Refuted: offsets of operands along an order, outputs with gaps, the meaning of the order argument, empty results. The library is modelled by its specification with the argument check of the reference implementation; elements form a commutative semiring-like structure (only commutativity of * is used)."
  },
  {
   "property": "C68",
   "status": "partial",
   "theorems": [
    "C68_symm_square_partial",
    "C68_symm_rect_partial",
    "C68_symm_rect_refuted",
    "C68_symm_triangle_refuted"
   ],
   "note": "Proved for square b (any side, order, output) and for rectangular b into a new result where the extent confusion is harmless. Refuted: rectangular b in the other cases; SYMM of a matrix in the non-preferred order uses the other triangle."
  },
  {
   "property": "C69",
   "status": "partial",
   "theorems": [
    "C69_trsm_partial",
    "C69_solve_triangular_partial",
    "C69_trsm_offset_refuted",
    "C69_trsm_gaps_refuted",
    "C69_solve_triangular_vector_partial",
    "C69_solve_triangular_strided_refuted",
    "C69_solve_triangular_ranks"
   ],
   "note": "Proved for a in neither order or starting its storage, and b likewise (a mutable b compact or along neither order). The library is any function that solves triangular systems. Refuted for offsets and for a mutable b with gaps along an order, in particular a mutable vector with a stride."
  },
  {
   "property": "C70",
   "status": "partial",
   "theorems": [
    "C70_solve_general",
    "C70_gesv",
    "C70_solve_general_solves",
    "C70_solve_symmetric",
    "C70_solve_symmetric_solves",
    "C70_solve_shape",
    "C70_inv",
    "C70_inv_inverts",
    "C70_inv_shape",
    "C70_cholesky",
    "C70_cholesky_factors",
    "C70_potrf_refuted",
    "C70_sysv_pivots_refuted",
    "C70_solve_general_vector",
    "C70_solve_symmetric_vector",
    "C70_solve_ranks",
    "C70_solve_general_matrix",
    "C70_solve_symmetric_matrix"
   ],
   "note": "Proved for all strides, offsets and both orders, any behaviour of LAPACK, for non-empty matrices, and for solve_general and solve_symmetric as called with vectors and matrices. Refuted: POTRF called directly does not write back into a mutable view in neither order; GESV and SYSV count pivots differently. The row-major drivers' slices are modelled as the elements they read and write; their extent beyond the storage is not. eigh, svd, pinv, det and slogdet are in C82-C85."
  },
  {
   "property": "C71",
   "status": "partial",
   "theorems": [
    "C71_cdist",
    "C71_schedule",
    "C71_rejects",
    "C71_no_columns_refuted",
    "C71_weights_view_refuted",
    "C71_weights_length_refuted",
    "C71_symmetric"
   ],
   "note": "Proved for all metrics (any fields), strides, offsets, batches and schedules, for at least one column. Refuted: no columns (panic), weights that are a prefix of a longer storage, a number of weights that differs from the columns."
  },
  {
   "property": "C72",
   "status": "proved",
   "theorems": [
    "C72_sums",
    "C72_ratios",
    "C72_booleans",
    "C72_angles",
    "C72_jensen_shannon",
    "C72_differences_symmetric",
    "C72_booleans_symmetric"
   ],
   "note": "All seventeen metrics, weighted and unweighted (Jensen-Shannon unweighted, rows without negative entries). Arithmetic is arbitrary, so the formulas hold with the code's rounding and order of addition."
  },
  {
   "property": "C73",
   "status": "partial",
   "theorems": [
    "C73_iter",
    "C73_iter_order",
    "C73_indexed_iter_partial",
    "C73_indexed_iter_orders",
    "C73_indexed_iter_reversed_refuted"
   ],
   "note": "Proved for all histories of next, next_back and split_at and all orders. The index that indexed_iter().next_back() gives is wrong (refuted); splits of the indexed iterator are C117."
  },
  {
   "property": "C74",
   "status": "partial",
   "theorems": [
    "C74_iter_mut",
    "C74_par_iter_mut",
    "C74_iter_mut_broadcast_refuted"
   ],
   "note": "Proved for layouts that address every element once; for broadcast mutable views it is false (refuted). Indexed mutable iterators: C117."
  },
  {
   "property": "C75",
   "status": "partial",
   "theorems": [
    "C75_spread",
    "C75_spread_axes_partial",
    "C75_variance_exact"
   ],
   "note": "Whole tensors (any layout) and the exactness of the formula are proved; over axes, empty inputs and inputs that repeat an axis by broadcasting are missing (the shared kernel is refuted there, C32). Rounding is not modelled."
  },
  {
   "property": "C76",
   "status": "partial",
   "theorems": [
    "C76_extrema_axes_partial",
    "C76_logic_axes_partial",
    "C76_count_axes_partial",
    "C76_bool_sum_partial"
   ],
   "note": "Proved for all axes selections, both devices and all schedules; empty (except for min and max, an error) and broadcast inputs are missing, as for C32."
  },
  {
   "property": "C77",
   "status": "partial",
   "theorems": [
    "C77_print",
    "C77_print_same",
    "C77_print_balanced",
    "C77_dots_hide",
    "C77_dots_hide_refuted",
    "C77_print_refuted"
   ],
   "note": "The text, its independence of the layout and its balance are proved for MIN_PRINT at least 1; refuted for MIN_PRINT = 0 (brackets stay open) and, for dots that hide nothing, when MAX_PRINT is at most twice MIN_PRINT. The element formatter is a parameter; Debug texts are the subject of C119."
  },
  {
   "property": "C78",
   "status": "proved",
   "theorems": [
    "C78_compatible",
    "C78_assume_contig"
   ],
   "note": "Completeness of the zero-copy reshape is proved for every layout and both orders."
  },
  {
   "property": "C79",
   "status": "partial",
   "theorems": [
    "C79_promote_defined",
    "C79_promote_comm_partial",
    "C79_promote_comm_refuted",
    "C79_promote_same",
    "C79_promote_assoc_refuted",
    "C79_cast_defined",
    "C79_cast_exact",
    "C79_promote_exact",
    "C79_promote_representable",
    "C79_promote_loss_refuted",
    "C79_cast_wrap",
    "C79_cast_saturate",
    "C79_cast_bool",
    "C79_float_defined",
    "C79_float_exact",
    "C79_float_loss_refuted"
   ],
   "note": "Exactness of promotion and casts, and where they exist, is proved for all types and values; refuted: i8 with i16 has no promotion although i16 with i8 has, grouping matters for three operands, and 64-bit integers beyond 2^53 lose digits. Half-precision types and 128-bit integers are not modelled."
  },
  {
   "property": "C80",
   "status": "partial",
   "theorems": [
    "C80_compare",
    "C80_compare_number",
    "C80_compare_refuted",
    "C80_extremum",
    "C80_floor_divide"
   ],
   "note": "Proved for all tensors whose elements the promoted type has; refuted for 64-bit integers of different signedness beyond 2^53, which compare as equal when they are not."
  },
  {
   "property": "C81",
   "status": "partial",
   "theorems": [
    "C81_sign",
    "C81_signbit_refuted",
    "C81_abs",
    "C81_abs_refuted"
   ],
   "note": "sign and abs are proved; signbit is refuted: it is the opposite. abs of the smallest signed integer is refuted without overflow checks."
  },
  {
   "property": "C82",
   "status": "partial",
   "theorems": [
    "C82_svd",
    "C82_svd_reconstructs",
    "C82_svdvals",
    "C82_svd_args",
    "C82_svd_invalid",
    "C82_svd_gesvd_partial",
    "C82_svd_gesvd_refuted",
    "C82_gesvd_empty_refuted"
   ],
   "note": "The default driver gesdd is proved for every nonempty matrix and layout; the driver gesvd is proved where it works and refuted elsewhere: it panics, also for matrices without rows (overflow checks on). LAPACK is an arbitrary function. Other empty matrices are not covered."
  },
  {
   "property": "C83",
   "status": "partial",
   "theorems": [
    "C83_eigh",
    "C83_eigh_solves",
    "C83_eigvalsh",
    "C83_eigh_general",
    "C83_eigh_general_solves",
    "C83_eigh_invalid",
    "C83_eigh_args",
    "C83_eigh_subset_refuted"
   ],
   "note": "Simple and generalised problems are proved for every layout and triangle; refuted: the subset arguments have no effect. LAPACK is an arbitrary function."
  },
  {
   "property": "C84",
   "status": "partial",
   "theorems": [
    "C84_determinant",
    "C84_slogdet",
    "C84_det",
    "C84_det_singular_refuted",
    "C84_det_nonsquare_refuted"
   ],
   "note": "det and slogdet are proved for every commutative ring and every factorisation; refuted: singular matrices are an error and matrices that are not square are accepted."
  },
  {
   "property": "C85",
   "status": "partial",
   "theorems": [
    "C85_pinv_partial",
    "C85_pinv_fails",
    "C85_pinv_zero_refuted"
   ],
   "note": "All Penrose conditions and the rank are proved for every matrix of rank at least 1; refuted for rank 0, which ends the program on a column-major device."
  },
  {
   "property": "C86",
   "status": "partial",
   "theorems": [
    "C86_reads",
    "C86_writes",
    "C86_owned",
    "C86_round_partial",
    "C86_round_refuted"
   ],
   "note": "Reading, writing and owned matrices are proved for every layout; the round trip for strides that are not negative and refuted for negative ones."
  },
  {
   "property": "C87",
   "status": "partial",
   "theorems": [
    "C87_svd",
    "C87_svd_partial",
    "C87_svd_complex_refuted",
    "C87_svdvals",
    "C87_pinv_partial",
    "C87_pinv_fails",
    "C87_pinv_empty_refuted"
   ],
   "note": "svdvals, real svd and pinv (complex and rank 0 included) are proved for every library result; refuted: svd of complex matrices lacks the conjugation and pinv of an empty matrix panics. faer is an arbitrary function."
  },
  {
   "property": "C88",
   "status": "partial",
   "theorems": [
    "C88_eigvalsh",
    "C88_eigh",
    "C88_eigh_solves",
    "C88_eigh_general_partial",
    "C88_eigh_general_checks",
    "C88_eigh_broadcast_refuted"
   ],
   "note": "eigh, eigvalsh and all three generalised problems are proved for every triangle; refuted for the generalised problem with a broadcast matrix. faer is an arbitrary function with its documented contract."
  },
  {
   "property": "C89",
   "status": "proved",
   "theorems": [
    "C89_cholesky",
    "C89_inv",
    "C89_det",
    "C89_solve_general",
    "C89_solve_triangular",
    "C89_ranks",
    "C89_solve_triangular_vector",
    "C89_solve_general_vector",
    "C89_solve_triangular_matrix",
    "C89_solve_general_matrix",
    "C89_solve_ranks"
   ],
   "note": "For every layout, triangle and kind of right-hand side, vectors and matrices. faer is an arbitrary function with its documented contract."
  },
  {
   "property": "C90",
   "status": "partial",
   "theorems": [
    "C90_restores",
    "C90_degree_lost_refuted",
    "C90_solve_restores"
   ],
   "note": "Proved for every successful call; refuted for calls in which faer fails."
  },
  {
   "property": "C91",
   "status": "partial",
   "theorems": [
    "C91_values_device_partial",
    "C91_device_refuted"
   ],
   "note": "Proved for svdvals and eigvalsh; refuted for svd, eigh, inv and cholesky."
  },
  {
   "property": "C92",
   "status": "partial",
   "theorems": [
    "C92_owned_partial",
    "C92_owned_alias_refuted"
   ],
   "note": "Proved for operands with distinct addresses; refuted for broadcast views of storages with as many elements as the view."
  },
  {
   "property": "C93",
   "status": "partial",
   "theorems": [
    "C93_orders",
    "C93_succeeds",
    "C93_points_partial",
    "C93_points_refuted",
    "C93_from_degree"
   ],
   "note": "Proved for every order and number of points in real arithmetic; refuted: the documented number of points of order 131."
  },
  {
   "property": "C94",
   "status": "partial",
   "theorems": [
    "C94_sphere",
    "C94_symmetric",
    "C94_positive_partial",
    "C94_positive_refuted"
   ],
   "note": "Sphere and symmetry are proved for all 32 rules in real arithmetic; positive weights for all but the three rules that have negative ones, refuted there."
  },
  {
   "property": "C95",
   "status": "partial",
   "theorems": [
    "C95_odd",
    "C95_low",
    "C95_accuracy_partial",
    "C95_polynomial_partial"
   ],
   "note": "Odd monomials and degree at most 3 for all 32 rules; all degrees for the 18 rules of order at most 47, with relative error 10^-14, in real arithmetic (the decimal tables are exact, f64 rounding is not modelled). Missing: full degree for orders 53 to 131."
  },
  {
   "property": "C96",
   "status": "partial",
   "theorems": [
    "C96_pool",
    "C96_library",
    "C96_order",
    "C96_threads_partial",
    "C96_threads_refuted",
    "C96_same_pooled",
    "C96_same_equivalence"
   ],
   "note": "Pool size, order and same_device hold for every history; the number asked for is reported unless two requests of 0 in a row come from places with different numbers of threads, refuted there. rayon's own limit on pool sizes is not modelled."
  },
  {
   "property": "C97",
   "status": "partial",
   "theorems": [
    "C97_move_partial",
    "C97_move_views_partial",
    "C97_move_empty_refuted",
    "C97_into_device",
    "C97_round_trip"
   ],
   "note": "into_device holds for every tensor; change_device and to_device for every tensor whose offset is inside its storage, refuted for empty views with an offset beyond it."
  },
  {
   "property": "C98",
   "status": "proved",
   "theorems": [
    "C98_binary",
    "C98_binary_into",
    "C98_assign",
    "C98_move_then_operate"
   ],
   "note": "For the operations of op_with_func.rs and the arithmetic operators; matmul, linear algebra and BLAS builders have such checks too (C65-C67, C88)."
  },
  {
   "property": "C99",
   "status": "partial",
   "theorems": [
    "C99_scoped",
    "C99_libraries",
    "C99_sequential",
    "C99_panic_refuted",
    "C99_mkl_pinned_refuted",
    "C99_kml_service_refuted",
    "C99_concurrent_local",
    "C99_concurrent_restore_refuted",
    "C99_concurrent_scope_refuted"
   ],
   "note": "Proved on one thread for every nesting, and for every schedule of every number of threads if the library keeps its number per thread; refuted for panics, for process-wide numbers, and for what MKL and KML keep besides the number read."
  },
  {
   "property": "C100",
   "status": "proved",
   "theorems": [
    "C100_library",
    "C100_einsum",
    "C100_einsum_output",
    "C100_einsum_unique",
    "C100_einsum_checks"
   ],
   "note": "For every library with the contract einsum_library (Spec_Tblis.v), which some library is proved to meet.  Rounding: any order and grouping of the sums and products is allowed, so nothing is assumed about associativity."
  },
  {
   "property": "C101",
   "status": "proved",
   "theorems": [
    "C101_tensordot",
    "C101_tensordot_output",
    "C101_tensordot_exact",
    "C101_tensordot_checks"
   ],
   "note": "As C100.  Lists of axes of different lengths are accepted by the code (C43); then nothing is claimed."
  },
  {
   "property": "C102",
   "status": "partial",
   "theorems": [
    "C102_threads",
    "C102_restored",
    "C102_restored_refuted"
   ],
   "note": "Proved unless the library itself reports an error; refuted in that case.  The number is process-wide: concurrent calls race as in C99_concurrent_restore_refuted."
  },
  {
   "property": "C103",
   "status": "partial",
   "theorems": [
    "C103_arange_up",
    "C103_arange_down",
    "C103_arange_empty",
    "C103_arange_zero",
    "C103_arange_infinite",
    "C103_arange_forever",
    "C103_arange_ends_refuted",
    "C103_arange_below_refuted",
    "C103_arange_start_refuted"
   ],
   "note": "Proved for both directions when the ends are far from overflow and the step is neither lost in the rounding errors nor 2^1000 times the interval, refuted without the last two conditions; refuted: arange ends (a negative step with stop above start loops for ever).  Arguments near overflow are left out."
  },
  {
   "property": "C104",
   "status": "partial",
   "theorems": [
    "C104_linspace_serial",
    "C104_linspace_parallel",
    "C104_linspace_short",
    "C104_linspace_end_refuted",
    "C104_linspace_end_parallel_refuted",
    "C104_linspace_devices_refuted",
    "C104_complex_serial",
    "C104_complex_parallel",
    "C104_complex_short",
    "C104_complex_real_refuted"
   ],
   "note": "Error bounds for both devices when the number of values fits the precision; refuted: the last value is stop, the devices agree, and that the complex linspace between real ends has the values of the real one.  For complex numbers, n times the larger end of a part must be far from overflow (the division by n + 0i multiplies by n first)."
  },
  {
   "property": "C105",
   "status": "partial",
   "theorems": [
    "C105_sum",
    "C105_sum_axes_partial",
    "C105_sum_exact_partial",
    "C105_mean_partial",
    "C105_schedule_refuted",
    "C105_variance_refuted",
    "C105_norm_refuted"
   ],
   "note": "Error bounds for sums of all elements without further conditions than finiteness and no overflow; over axes without broadcast inputs, and means up to 2^24 or 2^53 elements.  Refuted: sums do not depend on the schedule; variances are not negative; the norm of a finite vector is finite."
  },
  {
   "property": "C106",
   "status": "partial",
   "theorems": [
    "C106_argmin_flat",
    "C106_argmin_axes_flat",
    "C106_min",
    "C106_max",
    "C106_min_axes_partial",
    "C106_max_axes_partial",
    "C106_min_element_refuted",
    "C106_argmin",
    "C106_argmin_parallel",
    "C106_argmin_axes",
    "C106_argmin_nan_refuted"
   ],
   "note": "All elements: complete.  Over axes: without broadcast inputs.  Refuted: the minimum is an element (all +inf); the position does not depend on the schedule when there is a NaN.  Positions are given as a multi-index and as one number."
  },
  {
   "property": "C107",
   "status": "partial",
   "theorems": [
    "C107_matmul",
    "C107_matmul_exact",
    "C107_matmul_from_partial",
    "C107_gemm_rayon",
    "C107_inner_dot_rayon",
    "C107_junk_refuted",
    "C107_schedule_refuted"
   ],
   "note": "matmul: complete for the serial device if the memory of the result holds finite numbers (refuted otherwise); matmul_from: as C34, without broadcast outputs; the parallel kernels themselves, not their dispatch.  Refuted: the parallel inner product does not depend on the schedule."
  },
  {
   "property": "C108",
   "status": "partial",
   "theorems": [
    "C108_isclose",
    "C108_isclose_unsigned",
    "C108_isclose_equal",
    "C108_isclose_exact",
    "C108_isclose_monotone",
    "C108_isclose_symmetric",
    "C108_isclose_nan",
    "C108_allclose",
    "C108_allclose_self",
    "C108_allclose_rayon",
    "C108_overflow_refuted"
   ],
   "note": "All finite operands whose difference can be represented; equality, monotonicity, symmetry and NaN without that condition.  Refuted: differences that overflow, in f32 and f64 (and infinite operands, see C62).  Complex and signed-integer operands of mixed types are not modelled."
  },
  {
   "property": "C109",
   "status": "proved",
   "theorems": [
    "C109_nextafter",
    "C109_nextafter_nan",
    "C109_nextafter_back",
    "C109_nextafter_reaches"
   ],
   "note": "f16 and bf16; f32 and f64 use the external crate libm."
  },
  {
   "property": "C110",
   "status": "partial",
   "theorems": [
    "C110_vecdot_partial",
    "C110_vecdot_exact_partial",
    "C110_rayon_partial",
    "C110_from_partial"
   ],
   "note": "Serial, rayon (every schedule) and the in-place variant, rounding bound and exactness.  Missing, as in C54: empty operands (refuted there), operands with aliased elements on the rayon device; complex elements are the subject of C114."
  },
  {
   "property": "C111",
   "status": "partial",
   "theorems": [
    "C111_prod",
    "C111_prod_axes_partial",
    "C111_prod_exact_partial",
    "C111_prod_schedule_refuted",
    "C111_norm",
    "C111_norm_axes_partial"
   ],
   "note": "All elements: complete.  Over axes: without empty and broadcast inputs, as C32.  Refuted: products do not depend on the schedule."
  },
  {
   "property": "C112",
   "status": "partial",
   "theorems": [
    "C112_var",
    "C112_var_axes_partial",
    "C112_std",
    "C112_std_axes_partial",
    "C112_var_accuracy_refuted"
   ],
   "note": "All elements: complete.  Over axes: without empty and broadcast inputs, as C32.  Refuted: a bound relative to the variance itself."
  },
  {
   "property": "C113",
   "status": "proved",
   "theorems": [
    "C113_city_block",
    "C113_euclidean",
    "C113_chebyshev",
    "C113_same",
    "C113_symmetric",
    "C113_hamming",
    "C113_euclidean_zero_refuted",
    "C113_triangle_refuted"
   ],
   "note": "Refuted: that Euclidean distances of different rows are nonzero, and the triangle inequality for computed distances.  Weights and complex entries are outside the statement (C71 and C72 cover weights over abstract arithmetic)."
  },
  {
   "property": "C114",
   "status": "partial",
   "theorems": [
    "C114_sum_partial",
    "C114_mean_partial",
    "C114_mean_refuted",
    "C114_norm_partial",
    "C114_vecdot_partial",
    "C114_rayon_partial",
    "C114_from_partial"
   ],
   "note": "Refuted for the mean if away from overflow refers to the sum as for real tensors: the division by n + 0i multiplies the sum by n first.  Missing: empty tensors and broadcast inputs over axes (C32), empty operands of vecdot (C54); products and variances of complex tensors (matrix products are in C118)."
  },
  {
   "property": "C115",
   "status": "proved",
   "theorems": [
    "C115_ascending",
    "C115_strictly"
   ],
   "note": ""
  },
  {
   "property": "C116",
   "status": "partial",
   "theorems": [
    "C116_map",
    "C116_map_in_place",
    "C116_map_two",
    "C116_map_two_refuted"
   ],
   "note": "Refuted for mapb_fnmut of operands that are both broadcast along an axis: one cell of the result takes all the calls, the last one wins.  Missing: the order of the calls of mapi_fnmut and mapb_fnmut."
  },
  {
   "property": "C117",
   "status": "proved",
   "theorems": [
    "C117_indexed",
    "C117_indexed_mut",
    "C117_axes",
    "C117_axes_mut",
    "C117_indexed_axes"
   ],
   "note": "Parts are consumed from the front; consuming them from the back gives the wrong indices of C73_indexed_iter_reversed_refuted and C51_indexed_back_refuted."
  },
  {
   "property": "C118",
   "status": "proved",
   "theorems": [
    "C118_matmul",
    "C118_matmul_exact",
    "C118_gemm_rayon",
    "C118_inner_dot_rayon",
    "C118_parts_refuted"
   ],
   "note": "C118_matmul_exact gives the exact product for parts that are multiples of a common power of two (Gaussian integers), with sums that fit in the precision.  matmul with alpha = 1 and beta = 0; both parts must stay away from overflow, since the multiplication by 1 + 0i turns an infinite part into a NaN in the other (C118_parts_refuted).  matmul_from with other alpha and beta is covered for exact arithmetic (C34) and for real floats (C107) only."
  },
  {
   "property": "C119",
   "status": "proved",
   "theorems": [
    "C119_layout_text",
    "C119_layout_text_unique",
    "C119_debug",
    "C119_debug_unique"
   ],
   "note": "The plain format {:?}; MIN_PRINT at least 1 for the tensor text (C77).  Offsets must be non-negative for C119_layout_text (a negative one can only occur in a layout without elements, where the code prints its usize image)."
  },
  {
   "property": "C120",
   "status": "partial",
   "theorems": [
    "C120_range",
    "C120_range_python",
    "C120_index",
    "C120_range_refuted",
    "C120_index_refuted"
   ],
   "note": "Proved for all values up to isize::MAX, thus for all values of isize, u32, i32 and i64.  Refuted beyond, for usize and u64: the conversion wraps to a negative number, ..usize::MAX leaves out the last element and usize::MAX is the last index."
  },
  {
   "property": "C121",
   "status": "partial",
   "theorems": [
    "C121_room",
    "C121_made",
    "C121_small",
    "C121_large",
    "C121_room_refuted",
    "C121_freed_refuted",
    "C121_zero_sized_refuted"
   ],
   "note": "Proved with overflow checks, or for fewer than 2^64 bytes.  Refuted in a release build beyond (a block of 128 bytes for 2^61 + 16 elements), and for giving back: from 128 elements on, the block is asked for with alignment 64 and freed with that of the element type.  The allocator is a parameter; Linux and macOS with the default feature aligned_alloc."
  },
  {
   "property": "C122",
   "status": "proved",
   "theorems": [
    "C122_dim_defined",
    "C122_dim_elements",
    "C122_into_dyn"
   ],
   "note": "All dimension types Ix<N> and IxD; layouts carry their static type beside them in the model."
  },
  {
   "property": "C123",
   "status": "proved",
   "theorems": [
    "C123_unary_borrowed",
    "C123_unary_owned",
    "C123_neg_borrowed",
    "C123_neg_owned",
    "C123_not",
    "C123_neg_neg",
    "C123_not_not"
   ],
   "note": "Integers of any width; any operator of the elements, also one that panics, in C123_unary_borrowed and C123_unary_owned.  The rayon kernels agree with these by C53."
  }
 ]
}