# Formal model of RESTGroup/rstsr in Rocq (Coq 8.16.1)

## Layout of this directory

* `properties.jsonl`  – the English properties C01, C02, ...
* `rocq/theories/Base.v`, `Spec.v` – result type, list helpers, and the small independent specification
  (index spaces, row-/column-major enumerations, addresses, Python slices, broadcasting, matrices, ...).
* `rocq/theories/M_*.v` – the model: one definition per modelled Rust function, each with a comment citing file and lines.
  No proofs live there.
* `rocq/theories/P_*.v` – lemmas and proofs.
* `rocq/theories/Properties_*.v` – only theorem statements closed by `exact`, each followed by `Print Assumptions`,
  with an `Example` showing the hypotheses are met by a concrete non-trivial case.
* `MANIFEST.json` – property -> theorem names and status.   `seeded/LOG.jsonl` – mutation log.

## Conventions of the model

* Extents are `nat`, strides and offsets are `Z` (unbounded).  Machine overflow of `usize`/`isize` arithmetic is not modelled
  (exception: `M_Arange.v`, where it decides the result), except that a cast of a negative number to `usize` is written explicitly (`as_usize z = z mod 2^64`) where the code can reach it.
* `Result` is data: `Ok v`, `Err e`.  A Rust panic (index out of range, unwrap on Err, division by zero, debug overflow)
  is the third outcome `Panic`.  Theorems that claim success therefore also claim absence of panics.
* `&mut` storage becomes a list passed in and returned; an out-of-range read or write is `Panic`.
* Const-generic dimensions `Ix<N>` and `IxD` share one list representation; where the two have different code
  (contiguous strides, unravelling) both versions are modelled.
* Element types are abstract types with operations given as explicit arguments of the theorem (a monoid, an order, a semiring);
  floating-point rounding is not modelled.
* Parallel (rayon) code is modelled as a fold over an arbitrary split tree / arbitrary permutation of the write set.

## Plan per property

| id | modelled | proof |
|----|----------|-------|
| C01 | `Layout::new`, `check_strides`, `bounds_index` incl. the stable sort by abs stride | invariant of the cumulative check: mixed-radix uniqueness by induction over the sorted axes |
| C02 | `bounds_index` | induction on axes; witnesses built from the stride signs |
| C03 | `index_f`, `index_uncheck` | induction on axes, both directions |
| C04 | `new_c_contig`, `new_f_contig`, both stride functions (fixed and dynamic rank) | enumeration of addresses = `seq` by induction |
| C05 | `ndim_of_{c,f}_contig`, `c_contig`, `f_contig` | iff by induction, first differing axis gives a counterexample address |
| C06 | `unravel_index_{c,f}` for `Ix<0..4>`, generic `Ix<N>`, `IxD` | div/mod induction |
| C07/C08 | `normalize_axes_index`, `transpose`, `reverse_axes`, `swapaxes`, `reversed_permute` | sum over a permutation; inverse permutation lemma |
| C09/C10 | `dim_narrow` with every clamp | case analysis against a Python `slice.indices` specification; deviations recorded as refuted theorems |
| C11 | `dim_slice` with `Indexer` list | induction over the indexer list from the right against a recursive per-axis specification |
| C12 | `diagonal` | arithmetic; deviations refuted |
| C13/C14 | `broadcast_shape`, `update_layout_by_shape`, `broadcast_layout(_to_first)`, `broadcastable_*` | alignment by reversing lists; induction |
| C15/C16 | `attempt_nocopy_reshape`, `quick_check`, `layout_reshapeable`, `reshape_substitute_negatives` | loop invariant: processed prefix of old and new axes enumerate the same partial addresses |
| C17–C20, C50 | both layout iterators, `IterLayout`, `IndexedIterLayout` | state invariant (counter, index, offset agree) preserved by every operation; list-of-remaining abstraction |
| C21–C25 | `greedy_layout`, `translate_*`, `get_axes_composition`, `get_layout_for_binary_op`, `layout_for_array_copy` | permutation of enumerations |
| C26–C28, C55 | serial elementwise kernels, tensor-level wrappers | fold of writes over a duplicate-free address list |
| C29–C32 | `unrolled_reduce`, `reduce_all`, arg-reductions, `reduce_axes` | monoid laws over permutations; defects refuted by computation |
| C33/C34 | matmul layout rules, naive kernels | case analysis; nested folds |
| C35/C36/C39 | triangular pack/unpack, tril/triu, blocked transpose | index arithmetic + write folds |
| C37/C38/C41/C44/C47–C49/C51–C54 | tensor-level functions | composition of the previous results |
| C40 | transition system whose steps are view operations | invariant over all histories |
| C42/C43/C45/C46 | axis lists, einsum labels, array packing, layout equality | direct induction |
| C55–C62 | maps, unstack, atleast/hstack/vstack, full/zeros/ones/linspace, arrays as elements, meshgrid, allclose and isclose | composition of the previous results |
| C63–C64 | programs over owned and reference-counted tensors | invariant by induction over statements: strong count = number of handles; frame lemma per statement |
| C65–C66 | matmul on the faer and CBLAS devices: choice of library call, copies, triangle and mirror, batches | the outcome of every library call as a list of written cells; each matrix kernel equals the serial one; the batch lemma of C34 for any order of batches |
| C67–C70 | BLAS 3 and LAPACK wrappers: choice of order, transposition flags, copies, write-back; LAPACK as an arbitrary function of the matrices | each conversion step keeps the matrix a tensor holds; transposed calls are rewritten by matrix identities |
| C71–C72 | cdist: batches, cells, row statistics, weights; the metrics as step and final formula over arbitrary arithmetic | the cells of the batches are exactly the pairs; writes in any order; folds of pairs of accumulators split |
| C73–C74 | element iterators: layout iterator plus storage, histories of calls as an inductive list; reading refines the deque of elements, updates change exactly the cells handed out (distinctness of addresses); rayon as split tree plus any permutation |
| C75–C76 | var, std, l2_norm, min, max, all, any, count_nonzero and bool sums as instances of the modelled reduction kernels (whole tensor: unrolled; axes: inner/outer, serial or rayon); pairs as one commutative monoid; two-pass exactness by ring reasoning |
| C77 | the flat depth-first printer; loop invariant: what has been printed is a prefix of a recursive display of nested blocks |
| C78 | into_compatible_shape and into_shape_assume_contig over the modelled layouts; completeness of the merge–split loop: a failed stride check contradicts any view |
| C79 | promotion tables and conversion functions over machine values (Z with ranges, Coq's SpecFloat); exact rounding lemmas; finite case analysis over the types, arithmetic over the values |
| C80 | the op_common kernels with promoted comparison and extrema; SFcompare agrees with the order of the rationals denoted |
| C81 | map_f with ext_sign and is_positive; abs with and without overflow checks |
| C82 | GESDD and GESVD wrappers with LAPACK as an arbitrary function, in both orders; the read and write windows of the drivers; `holds` for matrices |
| C83 | SYEV(D), SYGV(D) wrappers, in place and not, the triangle read; the same window lemmas |
| C84 | slogdet on GETRF's output; determinant by expansion, its algebra over a commutative ring, L U and row exchanges |
| C85 | pinv on GESDD and GEMM with cut views and broadcast division; matrix algebra over a ring with involution |
| C86 | faer's matrices as pointer, strides and storage; reads and writes in terms of is_matrix |
| C87 | svd, svdvals, pinv with faer as a parameter and the global degree of parallelism as state; Penrose conditions over a ring with involution |
| C88 | eigh, eigvalsh, the reductions of the generalised problems with triangular solves; matrix algebra over a ring |
| C89 | cholesky, inv, det and solves with faer as a parameter |
| C90 | the same functions as state transformers; restoring on every path |
| C91 | devices as data attached to tensors |
| C92 | into_owned on layouts with distinct and with shared addresses |
| C93 | the order tables and the loop that fills the two vectors, on uninitialised buffers |
| C94 | the point lists transcribed, in real arithmetic; closure under generators of the octahedral group |
| C95 | moments: parity and symmetry by algebra, the rest by a verified integer computation on the tables, one level of degrees, lower ones by x^2+y^2+z^2 = 1 |
| C96 | the device with its pool as a record; induction over histories of settings |
| C97 | change_device/into_device/to_device on placed tensors, reusing into_owned (C64) and the view operations (C40) |
| C98 | the device checks in front of the elementwise operations of C26 |
| C99 | with_num_threads as a recursive evaluator over an abstract library state, and as a machine with one step per get/set run under a schedule; invariant per thread |
| C100 | the subscripts are parsed by the library, which is a parameter with a contract; the conversion of tensors to and from the library is modelled, and a naive library is proved to meet the contract |
| C101 | C100 applied to the labels of C43, with the index of each operand reassembled from free and contracted parts |
| C102 | the process-wide number is passed along as a state |
| C103 | IEEE 754 binary32 and binary64 with Flocq's operations; the error analysis is done on real numbers and carried over by Flocq's correctness theorems; the loop has fuel, and never ending is a statement about all fuels |
| C104 | the same; induction over the loop with a growing error bound; complex numbers part by part |
| C105 | the reductions of M_Reduce at f32 and f64; every accumulator is related to the set of elements it stands for (parametricity of the kernels), with an error bound that addition preserves |
| C106 | the same, accumulators related to the least number so far; argmin by the invariants of C31 for values without NaN |
| C107 | the serial kernel performs on each cell exactly the sequence of multiplications and additions of a loop over the summation index (proved without any algebraic law); the rounding errors of that sequence by induction, for the parallel kernels by induction over the tree of partial sums |
| C108 | the three roundings of the comparison bounded one by one, overflow of the tolerance as a separate case; equality by the exactness of differences near zero (gradual underflow); tensors by C61 |
| C109 | bit patterns as integers; the magnitude of a number strictly grows with its pattern, hence neighbours of patterns are neighbours of numbers; repetition by well-founded induction on the distance |
| C110 | the model of C54 run twice, on floating-point numbers and on exact shadows of them (sum, magnitude, count, marker of the old cell); a relation between the runs carries the rounding bound, C54 gives the shadow |
| C111 | exact shadows (product, greatest partial product, number of factors) beside the run as in C105; one multiplication adds one relative and one absolute error; roots by the square of the claimed bounds |
| C112 | a pair of exact shadows (sum, sum of squares) beside the run as in C105 and C108; Cauchy-Schwarz bounds the mean by the root of the mean square |
| C113 | the formulas of C72 with the arithmetic of Flocq; errors of the terms and of their sum as in C106; a sum of nonnegative rounded terms is at least each of them |
| C114 | complex arithmetic as pairs of Flocq numbers with the formulas of num-complex; the kernels of C31, C32 and C54 run a second time over pairs of shadows; each part of a product conj(x) y is two products and an addition or subtraction, bounded together as in C106; the division by n + 0i as a quotient of a rounded s n and a rounded n n |
| C115 | the walk in column-major order over an accepted layout with non-negative strides sorted ascending and broadcast axes first is ascending, by induction over the axes; check_strides gives the nesting of the sorted strides |
| C116 | the kernels of C24 are polymorphic in the state of the loop; the state of the closure is carried beside the storage; C115 gives the order |
| C117 | induction over the tree of splits with the invariant of the layout iterator; the interleavings are the permutations of all items |
| C118 | the folds of the kernels (Q_Matmul, over an arbitrary relation for an entry) carry a pair of error bounds, one per part; the factors 1 + 0i and 0 + 0i are exact on finite numbers |
| C119 | the text is taken apart again by its delimiters; decimal notation is injective by the standard library; the word follows from the meaning of c_contig, f_contig (C05) and c_prefer, f_prefer (C05_prefer, induction over the axes) |
| C120 | the conversion is the identity up to isize::MAX; the rest follows from C09 and C11 and a count of the positions of a Python slice with step 1 |
| C121 | case analysis of the code with linear arithmetic over unbounded integers, over an arbitrary allocator |
| C122 | case analysis over the pair of types |
| C123 | kernel theorems of C26 and C55 over elements that may be missing (a panic) |
The status of each property is in the table below (the same notes are in `MANIFEST.json`).

## How the statements are organised

* `Spec*.v` is the vocabulary of the theorems and mentions no modelled function: index spaces (`valid`, `row_major`), addresses
  (`addr l ix = offset + sum of index * stride`), elements of a storage, Python slices, broadcasting, permutations of axes, matrix
  products, triangles, and so on.
* A property theorem relates the modelled entry point (`M_*.v`) to that vocabulary.  Most have the form
  `match f args with Ok r => <what r is> | Err _ => <why it had to fail> | Panic => False end`, so they also say that exactly the bad
  inputs are refused and that nothing panics.
* `accepted l`: `Layout::new` accepts the layout.  `tensor_ok t`: the layout is accepted and every element lies inside the storage.
  Theorems about operations that build tensors conclude it again for the result.
* A claim that is false of the code is stated as a `..._refuted` theorem with a concrete (or general) counterexample; the true part is
  proved beside it and named `..._partial` where the property is not covered in full.

## What is modelled

| model | source in /repo | left out of these files |
|-------|-----------------|--------------------------|
| M_Layout | rstsr-common layout/{layoutbase,shape}.rs, axis_index.rs | dimension conversions (`into_dim`, `to_dim`), `From`/`TryFrom` |
| M_Indexer | layout/{indexer,slice}.rs | `From`/`TryFrom`, the slicing macros |
| M_Broadcast | layout/broadcast.rs, core manipulation/broadcast.rs | |
| M_Reshape | layout/reshape.rs | |
| M_Rearr | layout/rearrangement.rs, flags.rs (orders) | the mutable global default order (a parameter here) |
| M_Iter | layout/iterator.rs, par_iter.rs:11-62 | |
| M_Kernel | native-impl assignment.rs, op_with_func.rs (serial, rayon), par_iter.rs:84-305 | closures with state |
| M_Tensor | core tensorbase.rs, assignment, op_with_func, operators, map_elementwise, asarray, ownership_conversion, to_layout/to_contig/reshape | accessors, device checks |
| M_Reduce | native-impl reduction.rs (serial, rayon), core reductions | rounding; `std`, `l2_norm`, complex var and the other axis forms are in M_Stats |
| M_Manip | expand_dims, flip, moveaxis, squeeze, transpose, indexing, iterator_axes | lifetimes |
| M_Matmul | layout/matmul.rs, matmul_naive.rs (serial, rayon), core matmul.rs | |
| M_Fast | device_faer/matmul.rs and matmul_impl.rs; rstsr-openblas/src/matmul.rs and matmul_impl.rs (the other CBLAS devices have the same text) | the libraries (modelled by their specification), conjugation, mixed element types |
| M_Blas | rstsr-blas-traits/src/blas3/{gemm,syhemm,trsm}.rs, lapack_solve/*.rs, util/*.rs; rstsr-blas-traits/driver_impl/lapack/solve/*.rs (drivers); rstsr-linalg-traits/src/ref_impl_blas.rs (cholesky, inv, solve_*) | BLAS (modelled by its specification) and LAPACK (arbitrary functions), how far the drivers' raw slices reach, eigh, svd, pinv, det, slogdet, syrk |
| M_Dist | rstsr-sci-traits/src/distance/{native_impl,metric,impl_cpu_serial,impl_faer,auto_impl_rayon}.rs | float arithmetic (arbitrary functions), zero-sized entry types, tearing of parallel writes |
| M_IterElem | rstsr-core/src/tensor/iterator_elem.rs | the lifetime `'a` of `iter_with_order_f(&self) -> IterVecView<'a, ..>` is not tied to `&self`; lifetimes are not modelled, so dangling iterators of safe code are an observation, not a theorem |
| M_Stats | device_cpu_serial/reduction.rs and feature_rayon/auto_impl/reduction.rs: var, std, l2_norm, min, max, all, any, count_nonzero, bool sum and their `_axes` forms | rounding; NaN ordering of floats (min and max are commutative, associative functions) |
| M_Format | format/format_tensor.rs: the recursive printer of elements | number formatting (a parameter), Debug headers, layout flags |
| M_Compat | manipulation/into_compatible_shape.rs | lifetimes; moved and borrowed storages are one definition |
| M_DType | rstsr-dtype-traits promotion.rs, ext_real.rs, ext_num.rs (abs, sign), the comparison, extrema and sign functions of op_ternary_common.rs and op_binary_common.rs | half-precision types, 128-bit integers, float floor division, the elementary functions of ext_float.rs |
| M_Linalg | rstsr-linalg-traits ref_impl_blas.rs (svd, eigh, det, slogdet, pinv) and blas_impl/, rstsr-blas-traits lapack_svd, lapack_eigh, driver_impl/lapack/{svd,eigh} | workspace queries, thread counts, superb of GESVD; LAPACK itself is a parameter; the lapacke drivers |
| M_Faer | rstsr-core device_faer/conversion.rs and rstsr-linalg-traits faer_impl/ (svd, svdvals, pinv, eigh, eigvalsh, generalised eigh, cholesky, inv, det, solve_general, solve_triangular), same_device, ownership | faer itself is a parameter with its contract in the statements; the degree of parallelism is one global value and calls do not overlap; the rank dispatch of two-tensor calls |
| M_Device | feature_rayon/device.rs, device_faer/{device,conversion}.rs (device moves), device_cpu_serial/{device,conversion}.rs, tensor/device_conversion.rs, op_with_func.rs (checks), crates-device/*/src/{device,conversion,threading}.rs | rayon's limit on pool sizes; what the libraries do with their number of threads |
| M_Float | rstsr-native-impl/src/cpu_serial/creation.rs, cpu_rayon/creation.rs, linspace_impl and arange_impl, for f32 and f64 | complex linspace; NaN payloads; failing allocations |
| M_FloatReduce | sum, mean, var, std, l2_norm, min, max, argmin, argmax of device_cpu_serial/reduction.rs and auto_impl/reduction.rs for f32 and f64, rstsr-dtype-traits/src/ext_real.rs:69-86 | prod; the sign of a zero that min or max returns |
| M_FloatMatmul | matmul, matmul_from and the parallel kernels of M_Matmul at f32 and f64 | alpha other than 1 of matmul; the other devices |
| M_FloatClose | isclose of f32, f64 (mixed) and unsigned integers with f64 tolerances; allclose of floats | complex operands, mixed integers, tolerances of type f32 |
| M_NextAfter | nextafter of f16 and bf16 on bit patterns | the floating-point status flags; is_nan and x + y of the crate half |
| M_SolveFaer | rstsr-linalg-traits/src/faer_impl/{solve_general,solve_triangular}.rs: vectors as right-hand sides, writing back | the static types of the operands; the trait machinery |
| M_Solve | rstsr-linalg-traits/src/blas_impl/{solve_general,solve_symmetric,solve_triangular}.rs: ranks, vectors as right-hand sides, writing back | the static types of the operands; the trait machinery |
| M_Unary | unary operators (op_unary_arithmetic.rs, op_binary_arithmetic.rs:94-116), -x and !x of integers | a panic of the element operator is collected after the loop |
| M_Dim | dimension types and their conversions (layoutbase.rs:618-677, manipulation/into_dim.rs), matrix_transpose.rs | the static type is a parameter of the conversion |
| M_Alloc | rstsr-common/src/alloc_vec.rs (Linux and macOS, feature aligned_alloc) | addresses and contents of blocks |
| M_Range | conversions of integers and ranges to indexers (rstsr-common/src/layout/slice.rs:37-90, indexer.rs:23-53) | 32-bit platforms; the tuple macros |
| M_Debug | Debug for Layout (rstsr-common/src/format_layout.rs) and TensorAny (format_tensor.rs:268-291) | the alternate format {:#?}; the texts of devices, elements and type names are parameters |
| M_FloatComplexMatmul | matmul and % at Complex<f32>/Complex<f64> (tensor/linalg/matmul.rs:72-97), gemm and inner_dot kernels of cpu_rayon/matmul_naive.rs | faer and BLAS kernels; alpha and beta other than 1 and 0 |
| M_FloatComplexLin | linspace at Complex<f32>/Complex<f64> (device_cpu_serial/creation.rs:88-113, cpu_rayon/creation.rs:108-129) | the error value of a count that the type cannot hold, which does not occur |
| M_IterPar | into_par_iter of IndexedIterVecView/Mut, IterAxesView/Mut, IndexedIterAxesView/Mut (feature_rayon/par_iter.rs:8-36, rstsr-common/src/par_iter.rs:7-62) | rayon itself: its splits are the quantified tree |
| M_MapMut | map_fnmut_f, mapv_fnmut_f, mapi_fnmut_f, mapvi_fnmut_f, mapb_fnmut_f, mapvb_fnmut_f (map_elementwise.rs:1-196) with closures that keep a state | the check that both operands are on one device |
| P_KOrder | (no new code; greedy_layout of M_Rearr, IterLayout::new of M_Iter) | |
| M_FloatComplex | sum, mean, l2_norm of complex tensors (device_cpu_serial/reduction.rs:14-36, 150-184, 296-320 and the parallel ones) and vecdot with its conjugation, over pairs of floats; the operators + * / and conj are those of the crate num-complex (not in /repo) | prod, var, std, matmul of complex tensors |
| M_FloatDist | the metrics Euclidean, SqEuclidean, CityBlock, Chebyshev and Hamming of metric.rs over f32 and f64, without weights; powi(2) is one multiplication | weights; complex entries |
| M_FloatVar | var and std of device_cpu_serial/reduction.rs and auto_impl/reduction.rs | complex elements |
| M_FloatProd | prod and l2_norm of device_cpu_serial/reduction.rs and auto_impl/reduction.rs | complex elements |
| M_FloatVecdot | M_Vecdot with floating-point arithmetic | complex elements |
| M_Tblis | crates-plugin/rstsr-tblis/src/{einsum_impl,tensordot_impl}.rs; tensor_view_list.rs is the list of operands | the macros and overloads; the library TBLIS (a parameter); what an output holds after an error of the library |
| M_Lebedev | rstsr-sci-traits integrate/ (lebedev.rs with all 32 tables, device impls) | f64 rounding: numbers are real, the decimals of the tables exact, the constants of codes 1 and 2 are sqrt(1/2) and sqrt(1/3) |
| M_Tri | op_tri.rs, transpose.rs (serial, rayon), tril/triu | |
| M_Concat | creation_from_tensor.rs: concat, stack, unstack, hstack, vstack, atleast_nd, diag | |
| M_Mesh | creation_from_tensor.rs: meshgrid, broadcast.rs: broadcast_arrays | device checks |
| M_Binary | reduction.rs (serial and rayon): unrolled_binary_reduce, reduce_all_binary; allclose of tensor/reduction.rs and the devices; isclose for f64 (SpecFloat) and signed integers | device checks; isclose for other types |
| M_Shared | storage/data.rs: DataOwned and DataArc on a heap of reference-counted buffers; into_owned, into_shared, into_cow, clone and mutation as statements of a program | borrowed storages (they hold no handle), `force_mut`, weak counts, threads |
| M_Creation | creation.rs: full, zeros, ones, eye, linspace | `from_nested_array`, `empty` contents |
| M_Arange | arange kernels for the integer types | f32/f64 |
| M_Select | adv_indexing.rs (core, serial, rayon) | |
| M_Tensordot | tensordot_to_einsum.rs | the evaluation of the einsum string |
| M_Pack | pack_array.rs (common, core) | alignment and capacity of reinterpreted vectors |
| M_Vecdot | vecdot.rs (core, serial, rayon) | |

Each definition cites the lines it models; a function without a citation is not modelled, except panicking, by-value and by-reference
wrappers of a cited `_f` function.

Not modelled at all: crates-device (except matmul, the LAPACK drivers, devices, threading and device conversion), the lapacke variants of rstsr-{blas,linalg}-traits, rstsr-dtype-traits (except isclose, M_Binary, and M_DType), the rest of device_faer, external
conversions, storage/device.rs, TBLIS itself and the parsing of subscripts in it, and unsafe aliasing.

Simplifications, each also noted at the definition: closures are pure functions (except in M_MapMut, where they carry a state); the element steps of a parallel loop are atomic and
happen in an arbitrary order (a fold over any permutation, or any split tree for reductions); positions of inner loops are listed once;
owned/borrowed/mutable variants of a function that share one body are one definition.

## Deviations found in the code

Each is a theorem with suffix `_refuted`, listed with the comment it carries.

* `C01_every_injective_layout_accepted_refuted`: converse direction is false: some alias-free layouts are rejected.
* `C09_negative_step_low_start_refuted`: is false of the code for x[-4::-1] with 3 elements: Python selects nothing, the code selects element 0.
* `C09_negative_step_stop_minus_one_refuted`: is false of the code for x[:-1:-1]: Python selects nothing, the code selects everything.
* `C102_restored_refuted`: when the library reports an error, for instance about the subscripts, the number of threads is not restored: it stays at the device's number.
* `C103_arange_below_refuted`: refuted: without the condition on the step, all values are below stop. arange(2^53, 2^53 + 2, 0.25) contains stop twice after its last value has been removed.
* `C103_arange_ends_refuted`: refuted: arange ends for all finite arguments with a step that is not zero. arange(0, 5, -1) does not.
* `C103_arange_start_refuted`: refuted: without the condition on long steps, an interval that is not empty gives at least its start. arange(0, 2^-1074, 2) is empty.
* `C104_complex_real_refuted`: refuted: for real ends the complex linspace has the values of the real one. linspace(0, 1/5, 4) does not.
* `C104_linspace_devices_refuted`: refuted: the serial and the parallel device give the same values. linspace(0, 1, 11) does not.
* `C104_linspace_end_parallel_refuted`: refuted: the same on the parallel device; linspace(0, 1, 50) does not end with 1.
* `C104_linspace_end_refuted`: refuted: with the endpoint, the last value is stop. On the serial device linspace(0, 1, 7) ends below 1.
* `C105_norm_refuted`: the norm of a vector with one finite non-zero number can be infinite or zero: squares overflow and underflow.
* `C105_schedule_refuted`: sums do depend on the schedule: the serial device gives 2^53 where a schedule of the parallel one gives 2^53 + 2.
* `C105_variance_refuted`: the variance of three equal numbers can be negative, and their standard deviation a NaN, because the code subtracts the square of the mean from the mean of the squares.
* `C106_argmin_nan_refuted`: with a NaN among the elements the position that argmin gives depends on the schedule.
* `C106_min_element_refuted`: without NaNs the minimum is an element - false: the minimum of a tensor all of whose elements are +inf is the greatest finite number, because the code starts from that instead of +inf.
* `C107_junk_refuted`: matmul multiplies the uninitialised memory of its result by zero instead of overwriting it; a NaN (or infinity) that happens to be there stays, although both factors are finite.
* `C107_schedule_refuted`: the parallel inner product of the same two vectors depends on how the scheduler splits them.
* `C108_overflow_refuted`: refuted: differences that overflow. Two f32 whose distance is at most half of the tolerance, which is an f64, are reported not close, because their difference is computed in f32 and is infinite there; two f64 whose distance exceeds the tolerance by a third are reported close, because both the difference and the tolerance overflow.
* `C111_prod_schedule_refuted`: without the condition about overflow the product depends on the schedule: 2^600 * 2^600 * 2^-600 overflows on the serial device, and is 2^600 if the parallel device multiplies the last two first.
* `C112_var_accuracy_refuted`: no bound relative to the variance itself holds: the variance of 100000000 and 100000001 is 1/4, the computed one 0.
* `C113_euclidean_zero_refuted`: Euclidean and squared Euclidean distances of different numbers can be zero: 2^-600 and 0, whose squared difference underflows.
* `C113_triangle_refuted`: computed distances need not satisfy the triangle inequality: -1, 2^-53 and 1 + 3 * 2^-52, in one dimension.
* `C114_mean_refuted`: away from overflow has to mean n times the sum, not the sum as for real tensors: the mean of four times 2^1021 + 0i has an infinite real part although their sum is finite (the mean of four times 2^1021 as f64 is 2^1021), and the mean of one infinity + 0i has a NaN imaginary part.
* `C116_map_two_refuted`: false for operands that are both broadcast along an axis: the result is laid out with one cell for all elements along it, the closure is called for each of them, and the last call overwrites what the others returned.
* `C118_parts_refuted`: the condition that both parts stay away from overflow cannot be split: the kernel multiplies by alpha = 1 + 0i, so an imaginary part that overflows makes the real part NaN, although the real part of the product of the two numbers is 0.
* `C120_index_refuted`: refuted beyond isize::MAX: an index beyond the extent is an error. usize::MAX selects the last element.
* `C120_range_refuted`: refuted beyond isize::MAX: an upper bound beyond the extent selects up to the end. The usize or u64 bound is reinterpreted as a negative number: ..usize::MAX leaves out the last element.
* `C121_freed_refuted`: refuted: blocks are given back with the alignment they were asked for, which the allocator requires. 128 elements of f64 are not.
* `C121_room_refuted`: refuted without overflow checks: a vector has room for its elements. 2^61 + 16 elements of f64 get a block of 128 bytes.
* `C121_zero_sized_refuted`: refuted: elements without size need no memory. 128 of them are an error, whatever the allocator does.
* `C12_diagonal_tall_refuted`: refuted for tall matrices: offset 3 of a 5x2 matrix has no elements, but the result claims 2^64-1.
* `C12_diagonal_wide_refuted`: refuted for wide matrices: offset 3 of a 2x5 matrix gives an empty diagonal although elements exist.
* `C16_inferred_extent_panics_refuted`: is false of the code for a shape like (-1, 0): the remainder by zero panics.
* `C19_split_of_empty_iterator_refuted`: the claim excludes empty layouts: splitting the iterator of an empty two-dimensional layout at 0 divides by zero.
* `C22_order_a_scalar_refuted`: order A is covered above except for 0-dimensional operands, where the code panics (shape[0] of an empty shape).
* `C22_order_b_refuted`: why order B is excluded from the claim: with a reversed operand it visits positions that belong to no logical index.
* `C26_op_assign_alias_refuted`: why the in-place theorems need a view without aliasing elements: [a op= &b] accepts a broadcast target and then applies the operation several times to one cell.
* `C27_enlarging_source_refuted`: a source larger than the target is accepted (the last repeated write wins) instead of being rejected.
* `C28_fill_empty_refuted`: a freshly created empty dynamic-dimension tensor has a zero stride, so fill is refused although no element aliases.
* `C31_argmin_axes_parallel_flipped_refuted`: above the threshold a reversed axis makes the code read outside the storage (a panic).
* `C31_argmin_axes_parallel_refuted`: above the parallel threshold the summed axes are permuted but the index is not permuted back: argmin of a 32x32 array over both axes returns [1, 0], which holds 5, while the minimum 0 is at [0, 1].
* `C32_broadcast_panic_refuted`: or panics when there is no such axis.
* `C32_broadcast_refuted`: summing over a broadcast axis multiplies by the extent of a remaining axis instead: three rows [5, 7] sum to [10, 14] instead of [15, 21].
* `C32_broadcast_remaining_refuted`: a broadcast remaining axis panics when the view has an offset, and is an error when other remaining axes are contiguous.
* `C32_empty_refuted`: empty inputs panic.
* `C33_batch_rank_refuted`: two stacks of matrices of different rank that broadcast together are rejected: the kernel's layout rules compare the ranks of both operands with that of the result.
* `C33_output_shape_refuted`: matmul into an output whose batch shape is not that of the product is accepted when the batch axes come from one operand only; part of the output is written, the rest stays.
* `C34_inner_dot_refuted`: the vector-vector product is written to the first cell of the output's storage whatever the output's offset: the output keeps its old value and another element is overwritten.
* `C34_uninitialised_refuted`: matmul scales the uninitialised contents of its fresh result by zero instead of overwriting them, so for numbers that zero does not annihilate (a NaN) the product depends on those contents.
* `C35_empty_batch_refuted`: packing or unpacking a stack of empty matrices held with the strides a fixed-rank contiguous layout gives it panics (an internal check of the iteration order rejects the zero strides).
* `C35_unpack_none_refuted`: unpack_tri with the symmetry N leaves the other triangle unwritten and then treats it as initialised (undefined behaviour in the program, a panic in the model).
* `C36_triu_refuted`: triu past the last column panics (3 x 3 with k = 2, 4 x 2 with k = 0) or, in a stack of matrices, zeroes elements of the next matrix that must be kept.
* `C38_expand_dims_none_refuted`: expand_dims given AxesIndex::None panics instead of returning an error.
* `C38_squeeze_below_refuted`: an axis below -ndim is accepted when a larger axis is given with it (only the largest one is compared with 0).
* `C40_diagonal_outside_refuted`: diagonal is the exception among the view-producing functions: on a matrix with more rows than columns and an offset beyond the last column its result reaches outside the storage.
* `C41_empty_axis_refuted`: on an axis of extent 0 the empty selection, which is the tensor itself, is rejected with an index error.
* `C43_unequal_refuted`: whenever more axes of a than of b are listed, the call is accepted and some listed axis of a carries a label that occurs neither in b nor in the output: it is summed on its own.
* `C44_reshape_truncates_refuted`: with a forced copy a shape of a different size is accepted and elements are lost.
* `C44_to_contig_empty_refuted`: to_contig of an empty view whose offset lies past the end of the storage panics.
* `C44_to_layout_gap_refuted`: a target layout with gaps leaves storage cells uninitialised, which the code then declares initialised.
* `C45_pack_zero_refuted`: N = 0 panics (remainder by zero) although the function returns a Result.
* `C47_eye_column_refuted`: in column-major order eye(n, m, k) has the shape [m, n] for every n <> m.
* `C47_eye_offset_refuted`: eye(2, 5, 3) is the zero matrix although (0, 3) and (1, 4) should be 1, and eye(5, 2, 3), which should be the zero matrix, fails.
* `C48_down_refuted`: the generic loop is wrong for every negative step and start <> stop.
* `C48_float_refuted`: i64 ranges wider than 2^53 can lose an element, because the length is computed in double precision: arange(0, 2^60 + 1, 2^60) is [0].
* `C48_isize_overflow_refuted`: stop - start can overflow although all the elements fit.
* `C48_overflow_refuted`: arange can overflow although all the elements fit: arange(0, 250, 100) of u8.
* `C50_indexed_iteration_from_the_back_refuted`: the pair produced by next_back holds an index that is not the element's.
* `C51_axes_iter_empty_refuted`: With a negative stride the positions of the empty views are negative and the iterator panics.
* `C51_axes_iter_invalid_refuted`: no axes at all, an axis that is out of range, and a later axis below -ndim make axes_iter panic instead of returning an error.
* `C51_indexed_back_refuted`: next_back of the indexed iterator returns the last view together with the index of the first one.
* `C54_empty_refuted`: contracting an axis of length 0 of row-major tensors panics, although the sums are all zero.
* `C58_full_layout_refuted`: full of a strided layout allocates too few cells: the tensor it returns has elements outside its storage.
* `C59_into_pack_refuted`: as soon as another axis has extent above 1 and a stride that is not a multiple of N, the call succeeds and returns a tensor with wrong elements (for every tensor with distinct stored values).
* `C61_allclose_empty_refuted`: the claim that allclose of arrays without elements is true (there is no pair that is not close) is refuted: it is always an error.
* `C62_isclose_infinite_refuted`: refuted: with a positive relative tolerance every finite f64 is close to an infinite second operand, and no infinity is close to itself.
* `C62_isclose_signed_refuted`: refuted: two integers whose distance does not fit into their signed type make isclose panic in a build with overflow checks; in any other build the distance wraps to a negative number, so that the two are reported close.
* `C64_into_owned_shared_refuted`: the claim that into_owned moves or clones (its documentation) is refuted: on a tensor that fills its buffer and shares it with another variable it always panics.
* `C66_blas_empty_refuted`: a product with contracted length 0 sets the output to zero, also when beta is 1 and it ought to be left alone.
* `C66_blas_rank_refuted`: an empty product of two stacks of different batch rank is accepted by the BLAS devices and refused by the faer device.
* `C66_blas_strided_refuted`: an output whose strides are neither row- nor column-major loses beta * c: the copy of c made for the library is overwritten because the inner call gets beta = 0.
* `C67_gemm_empty_refuted`: a product without elements calls the library with leading extent 0, which it refuses (the reference implementation ends the program).
* `C67_gemm_offset_refuted`: GEMM of a row- or column-major view that does not start at the beginning of its storage multiplies the wrong elements: the pointer of the storage is passed without the offset.
* `C67_gemm_order_refuted`: the order argument of the builder is taken the wrong way round: asked for a row-major result, GEMM returns a column-major one, and conversely.
* `C67_gemm_strided_refuted`: GEMM into a matrix with gaps between its rows (or columns) writes between them: the number of rows is passed as leading extent. Elements outside the view are overwritten.
* `C68_symm_rect_refuted`: SYMM and HEMM take the number of columns of the result from a instead of b: on a column-major device a 2 by 2 matrix times a 2 by 3 matrix is returned as a 2 by 2 matrix, and times a 2 by 1 matrix reads beyond the storage.
* `C68_symm_triangle_refuted`: SYMM of a matrix stored in the other order uses the other triangle than the one asked for.
* `C69_solve_triangular_strided_refuted`: a mutable vector (0, 1) with a gap, such as a column of a matrix by rows: whatever the library does, it is given the 9 in the gap instead of the second element, the gap is overwritten, and the second element stays as it was.
* `C69_trsm_gaps_refuted`: a mutable b with gaps along an order: whatever the library does, it is given the 9 that stands in the gap as an entry and not the entry 3, and the solution is written over the gap (the number of rows is passed as the leading extent).
* `C69_trsm_offset_refuted`: solve_triangular with a matrix [1] that does not start at the beginning of its storage [2; 1] hands the matrix [2] to the library.
* `C70_potrf_refuted`: the POTRF wrapper called directly with a mutable view in neither order does not write the factor into that view.
* `C70_sysv_pivots_refuted`: GESV returns pivots counted from 0, SYSV the same pivots counted from 1.
* `C71_no_columns_refuted`: distances between rows without columns cannot be computed: the batch size divides by the number of columns, so the call panics.
* `C71_weights_length_refuted`: a number of weights other than the number of columns is not rejected: contiguous operands silently lose the columns without a weight, strided ones panic.
* `C71_weights_view_refuted`: weights that are a prefix of a longer storage (w.i(..k)) are not taken as they are: the sum of the weights runs over the whole storage (here the weighted Hamming distance 4/4 is computed as 4/8), and the cosine metric rejects them.
* `C73_indexed_iter_reversed_refuted`: indexed_iter().rev() pairs every element with the index of the front: the elements of a 2 by 2 matrix all come with index [0, 0].
* `C74_iter_mut_broadcast_refuted`: iter_mut() of a mutable view that was broadcast (into_broadcast accepts mutable views) hands out the same element of the storage several times: two live mutable references to it, and an update by x + 1 adds 2.
* `C77_dots_hide_refuted`: refuted without that condition: with MIN_PRINT = 4 and MAX_PRINT = 8, eight rows are printed all, with dots in the middle that hide nothing.
* `C77_print_refuted`: refuted for MIN_PRINT = 0: a long leading axis prints one row, then dots, and never closes its brackets.
* `C79_float_loss_refuted`: refuted beyond 2^53: different i64 numbers have the same floating value.
* `C79_promote_assoc_refuted`: refuted for three operands: the promoted type depends on the grouping, (i8, u16), f32 gives f64 and i8, (u16, f32) gives f32.
* `C79_promote_comm_refuted`: refuted: i16 with i8 has a promoted type, i8 with i16 has none (its line stands inside a comment).
* `C79_promote_loss_refuted`: refuted beyond 2^53: i64 with u64 promotes to f64, and two different i64 numbers become the same.
* `C80_compare_refuted`: refuted for numbers the promoted type lacks: an i64 tensor holding 2^53+1 and a u64 tensor holding 2^53 compare equal.
* `C81_abs_refuted`: refuted without overflow checks: the absolute value of the smallest signed integer is that negative number.
* `C81_signbit_refuted`: refuted: signbit is true exactly for the elements that are not negative, the opposite of its name and of the array API, for every tensor without zeros and not-a-number.
* `C82_gesvd_empty_refuted`: svd by way of GESVD of a matrix without rows panics when overflow checks are on: the length of a work array, min(m, n) - 1, is computed without a sign.
* `C82_svd_gesvd_refuted`: the driver gesvd panics for every matrix of more than one row that lies along columns, or on a row-major device along neither order: the results are copied back with the copy for the other direction, whose refusal is unwrapped.
* `C83_eigh_subset_refuted`: the arguments that choose a range of eigenvalues, by index or by value, have no effect: all of them are returned.
* `C84_det_nonsquare_refuted`: the determinant of a matrix that is not square is not refused: a number is returned.
* `C84_det_singular_refuted`: the determinant of a singular matrix is an error, not 0: LAPACK reports the zero pivot in info, which becomes an error.
* `C85_pinv_zero_refuted`: pinv of the zero matrix (rank 0) ends the program on a column-major device instead of returning zero and rank 0: GEMM of an n by 0 and a 0 by m matrix is called with a leading extent that is too small.
* `C86_round_refuted`: a tensor view with a negative stride cannot come back from faer: the conversion panics, since it starts its storage at the first element.
* `C87_pinv_empty_refuted`: pinv of an empty matrix panics instead of returning the empty inverse: it takes the maximum of no singular values.
* `C87_svd_complex_refuted`: for complex numbers svd is not a decomposition: it returns the transpose of V without conjugation.
* `C88_eigh_broadcast_refuted`: generalised eigh of a broadcast A whose storage happens to have as many elements as the matrix gives wrong eigenvalues, with a perfect library: the copy it symmetrises in place is not a copy of separate elements.
* `C90_degree_lost_refuted`: a call that fails does not: whenever faer reports an error for the operand, the process-wide degree stays that of the device's pool.
* `C91_device_refuted`: svd, eigh, inv and cholesky return tensors of the default device: with an operand of a device with another number of threads or another order their results do not work together with the operand; giving both to generalised eigh is an error.
* `C92_owned_alias_refuted`: the owned copy of a broadcast view whose storage happens to have as many elements as the view still shares addresses: writing one element of the owned tensor changes another.
* `C93_points_refuted`: the documentation gives the rule of order 131 5802 points; it has 5810, and asking for 5802 points is InvalidValue.
* `C94_positive_refuted`: the rules of order 13, 25 and 27 have negative weights.
* `C96_threads_refuted`: without that condition this fails: a request of 0 after a request of 0 is ignored, even if it comes from a place with another number of threads.
* `C97_move_empty_refuted`: an empty view may end the program: a 0 by 4 tensor with its second axis reversed has offset 3 in a storage of 0 elements, and moving it checks the offset against the length.
* `C99_concurrent_restore_refuted`: if the number is process-wide, two threads that use with_num_threads at the same time may leave another number than the one from before.
* `C99_concurrent_scope_refuted`: and a call inside with_num_threads(1, ..) may run with the 4 threads that another thread asked for.
* `C99_kml_service_refuted`: with KML the number of its service library is not restored but set to the number of its BLAS.
* `C99_mkl_pinned_refuted`: with MKL the thread is left with a number of its own after with_num_threads: a later change of the process-wide number has no effect on it, as it had before.
* `C99_panic_refuted`: when the work inside with_num_threads panics the number of threads is not restored.

Observed but outside the claims: the rayon kernels run steps on a shared cell if both operands of a fresh result are broadcast along the
same axis; `bool_select` takes masks of any length; `diagonal` accepts equal
axes; `IterMut` does not refuse broadcast layouts.

## Trusted base

* Coq 8.16.1's kernel.  Examples, counterexamples and the computations on the Lebedev tables also use its `vm_compute`.
* `Print Assumptions` follows every property theorem (626 when last collected, with the theorems of Properties_SolveFaer the newest) and prints
  "Closed under the global context" for 524 of them.  The other 102 are in Properties_Lebedev (C93-C95) and in the Properties_Float* files.  Those of Properties_Lebedev are about real numbers and rest on axioms of the
  standard library's Reals: `ClassicalDedekindReals.sig_forall_dec`, `ClassicalDedekindReals.sig_not_dec` and
  `FunctionalExtensionality.functional_extensionality_dep`; C93_orders is closed.  Those of Properties_Float (C103, C104), Properties_FloatReduce, Properties_FloatMatmul, Properties_FloatClose, Properties_FloatVecdot, Properties_FloatProd, Properties_FloatVar, Properties_FloatDist, Properties_FloatArg, Properties_FloatComplex, Properties_FloatComplexMatmul and Properties_FloatComplexLin (C104-C108, C110-C114, C118) use the
  same three and `Classical_Prop.classic`, all from the standard library, through Flocq 4 (IEEE754.BinarySingleNaN), which adds no
  axiom of its own.
* vcheck runs `coqchk` on every module.  The axioms it lists are the four above, and the module fields of the standard library's
  `Reals.Rdefinitions` and `ssr.ssrunder`, which are instantiated there.
* No axioms, parameters, admitted proofs, functors or module types are defined here.
* The correspondence between the Rust text and `M_*.v` is by reading; every definition cites the lines it models.
* The specification files `Spec*.v`.  Where f64 occurs (isclose), IEEE 754 arithmetic is the standard library's `SpecFloat`, which
  is axiom-free; M_Float uses Flocq's formalisation on top of it.  The primitive floats are not used.

## Status

| id | property | status | note |
|----|----------|--------|------|
| C01 | Accepted layouts do not alias | proved | Soundness of the stride check, proved for every rank, sign of stride and size. The converse (every alias-free layout accepted) is not part of the property and is shown false. |
| C02 | Reported storage bounds are exact | proved | Full. |
| C03 | Element indexing follows Python rules | proved | Full, for layouts whose elements have non-negative positions (what Layout::new guarantees). |
| C04 | Contiguous layouts are bijections onto a block | proved | Full. |
| C05 | Contiguity predicates are correct | proved | Full for non-empty layouts (for empty layouts both predicates are constantly true). |
| C06 | Flat index and index tuple are mutually inverse | proved | Full, for both dimension types including the unrolled 0-4 axis branches. |
| C07 | Axis permutation relabels and never moves elements | proved | Full. |
| C08 | Axis permutation can be undone | proved | Full. |
| C09 | Slicing follows Python slice semantics | partial | Proved for every start/stop/step except two families with a negative step, where the code deviates from Python and the claim is refuted: start below -len (Python: empty; code: element 0) and an explicit stop of -1 (Python: empty-or-shorter; code: read as "before the beginning"). |
| C10 | A slice is a sub-view | proved | Full: any slice, plain or not. |
| C11 | Mixed indexing selects the right sub-array | proved | Full for slices that are plain in the sense of C09; acceptance/rejection and absence of panics proved for every indexer list. |
| C12 | diagonal() yields exactly the diagonal | partial | Proved whenever the offset does not fall between the two extents (in particular always for square diagonals); refuted in that range: offset in [d1,d2) loses the diagonal, offset in (d2,d1) yields a wrapped length. |
| C13 | Broadcast shape follows the array API rule and is order independent | proved | Full, both alignments, two operands and lists of operands, including which inputs fail. |
| C14 | A broadcast view repeats elements | proved | Full for pairs of layouts and for broadcast-to-shape. |
| C15 | Zero-copy reshape preserves element order | proved | Soundness of the zero-copy path for every layout (negative, zero and gapped strides), both orders. A copy is made only when no strides and offset give the requested order (C15_reshape_complete, C15_no_needless_copy). |
| C16 | Inferred reshape extent is right | partial | Everything except requested shapes that contain both -1 and 0: there the code takes a remainder by zero and panics (refuted). |
| C17 | Forward iteration visits elements in the promised order | proved | Full, both dimension types (the unrolled 1-4 axis steps and the generic loop). |
| C18 | Double-ended iteration is consistent | proved | Full. |
| C19 | Splitting an iterator partitions it | proved | Full for non-empty layouts. Splitting the iterator of an empty layout divides by zero (refuted); rayon never splits a producer of length 0. |
| C20 | len() is exact at every moment | proved | Full; histories with splits on empty layouts are excluded (see C19). |
| C21 | Memory-friendly iteration order still visits every element once | proved | Full: K for iterators, G for translated layouts (IterLayout maps G to K). |
| C22 | Joint iteration keeps operands aligned | proved | Full for orders C, F and K and any number of operands; also order A with at least one axis. Order A panics on 0-dimensional operands (refuted) and order B misaligns reversed operands (refuted); the claim excludes both. |
| C23 | Chunked inner loops cover the same elements | proved | Full. |
| C24 | Result layout of a binary operation is dense and non-aliasing | proved | Full. |
| C25 | Copy layouts are dense | proved | Full. |
| C26 | Elementwise binary operations compute f(a,b) at every index | proved | Operators on references and owned operands (storage reuse included), comparisons, scalar operands, in-place operators and with_output. In-place operators and with_output assume a target view without aliasing elements; without it the code accepts the target and applies the operation repeatedly (refuted). |
| C27 | Assignment writes the target view and nothing else | partial | Everything except the rejection of sources that would enlarge the target: those are accepted by the code (refuted). |
| C28 | fill writes the target view and nothing else | proved | Full; a refuted theorem records that an empty IxD tensor is refused because its contiguous strides contain 0. |
| C29 | Whole-tensor reduction equals the mathematical fold | proved | Full over commutative monoids (so exact arithmetic; floating-point rounding is not modelled), and the device reductions built on it: sum, prod, min, max, mean, var, count_nonzero, all, any. |
| C30 | Parallel reduction is schedule independent | proved | Full: every splitting tree of outer and inner loop, every chunk size. |
| C31 | argmin/argmax return the first extremum | partial | Full for whole-tensor argmin/argmax (serial, parallel, ravelled) and for the serial axis versions (multi-index and ravelled). The parallel axis versions are proved for one summed axis with non-negative stride; otherwise the multi-index version returns a permuted index or panics (both refuted). |
| C32 | Axis reduction sums the right elements | partial | Serial and parallel kernels in full for non-empty inputs without broadcast axes, at the default iteration order K. Broadcast summed axes give wrong sums or panic, broadcast remaining axes panic or fail, empty inputs panic (all refuted). |
| C33 | matmul shape rules | partial | Layout rules proved for all ranks, both dimension types and orders; matmul itself proved for operands of equal batch rank, with the rejection of unequal batch ranks and the unchecked output batch shape proved as refutations. |
| C34 | Naive matrix multiplication computes alpha*A*B + beta*C | partial | Serial kernels and matmul/matmul_from proved over every commutative semiring, all layouts, orders and batches; the parallel gemm and dot under every schedule. Refuted: a scalar output with an offset (first storage cell is written), and independence of the uninitialised result for numbers zero does not annihilate. Not modelled: the faer/BLAS kernels used for f32/f64/complex on other devices. |
| C35 | Triangular pack and unpack are inverse | partial | Both round trips, pack and unpack elementwise for every size, batch, stride, order and symmetry, serial and rayon; compact results in the order of the source or the device. Refuted: stacks of empty matrices with fixed-rank strides panic; unpacking with symmetry N uses uninitialised cells. |
| C36 | tril/triu zero exactly the other triangle | partial | tril proved for every k and shape. triu proved while m-1+k does not pass the last column; beyond that the code panics or zeroes elements of other rows or matrices (refuted). |
| C37 | concat and stack place operands side by side | proved | concat and stack for any number of operands of any layout, both orders, with exact error conditions; concat on the rayon device under every schedule. |
| C38 | flip, moveaxis, expand_dims and squeeze relabel indices | partial | flip, moveaxis, expand_dims and squeeze proved for every layout and axis list, including exactly which axis lists are refused; squeeze accepts some axes below -ndim and expand_dims panics without axes (both refuted). |
| C39 | Blocked transposition copies the matrix | proved | Serial both directions and rayon, all sizes (block remainders included), all leading dimensions, error cases. |
| C40 | No reachable view can read outside its storage | proved | Any history of view operations: storage unchanged, every element inside it and an element of the original. diagonal is not among the operations of the claim and is refuted separately. |
| C41 | index_select gathers the selected hyperplanes | partial | All layouts, axes and index lists, with errors characterised exactly and the rayon device refined; the empty list on an axis of extent 0 is rejected (refuted). bool_select accepts masks of any length. |
| C42 | Axis-list normalisation | proved | Full. |
| C43 | tensordot contraction labels | proved | All ranks and axes arguments with as many axes of a as of b; lists of different lengths are accepted and the excess axes summed alone (refuted). The einsum evaluator itself is an external crate. |
| C44 | Copies preserve content | partial | asarray, to_owned, to_vec, into_vec, to_scalar in full. to_contig/to_prefer/to_layout/reshape with the hypothesis that an empty source has an in-range offset, and to_layout without gaps; each missing case is refuted. |
| C45 | Packing into fixed arrays is lossless | proved | All vectors and N > 0; N = 0 panics (C45_pack_zero_refuted, outside the property's range). |
| C46 | Layout equality is meaningful | proved | Full; on empty layouts equality may be stricter than same-elements. |
| C47 | eye and diag build the right matrices | partial | eye for every size and offset in row-major order and for square matrices, except the diagonals Layout::diagonal gets wrong (refuted: eye(2,5,3) is zero, eye(5,2,3) fails); column-major rectangular eye has the transposed shape (refuted for all n <> m). diag of a vector is proved for all offsets and layouts, with the round trip; diag of a matrix except the diagonals above. |
| C48 | Integer arange | partial | i32/u32: all inputs.  Other accelerated integer types: |stop - start| <= 2^53.  Generic loop: positive steps without overflow.  Refuted outside: negative steps on i8/i16/i128 (every start <> stop), precision loss beyond 2^53, overflow.  Floating-point element types are in C103. |
| C49 | Elements of parallel mutable iteration are disjoint | proved | Full for orders C and F. |
| C50 | Indexed iteration reports the index of the yielded element | partial | Front proved; next_back reports index_start instead of the index of the yielded element (refuted). |
| C51 | axes_iter partitions the tensor | partial | One view per index, order, coverage, and next/next_back/split_at histories proved for non-empty views, and for empty ones when no iterated stride is negative (otherwise the iterator panics, refuted); orders other than C and F are errors for the indexed iterator; panics on invalid axes and the index returned by next_back of the indexed iterator are refuted. |
| C52 | Splitting axes is lossless | proved | dim_split_axes and dim_split_at. On an empty layout dim_split_axes may reject (a half can be non-empty and overlapping), which the success theorem excludes. |
| C53 | Parallel elementwise kernels are schedule independent | proved | Element steps are atomic in the model; any permutation of them gives the serial result. |
| C54 | vecdot contracts the right axes | partial | Proved for vecdot, vecdot_from and the rayon kernel (all schedules), every commutative addition, all layouts, both orders, all axes arguments, non-empty operands. Refuted for a contracted axis of length 0 (panic). Missing: other empty operands. |
| C55 | map builds the pointwise image | proved | Full. |
| C56 | unstack and stack undo each other | proved | unstack elementwise with exact error condition, and both round trips. Stacking the empty list of an empty axis is an error, hence the hypothesis of C56_stack_of_unstack. |
| C57 | atleast, hstack and vstack add the documented axes | proved | atleast_1d/2d/3d, hstack and vstack for any ranks, numbers and layouts, with exact error conditions. |
| C58 | full, zeros, ones and their _like forms | partial | full/zeros/ones of shapes, zeros/ones of layouts and the _like forms proved for everything accepted. full of a layout allocates too few cells for strided layouts (refuted). linspace is proved in exact arithmetic here, and with rounding in C104. |
| C59 | Packing an axis of a tensor into fixed arrays | partial | Tensors whose other strides are multiples of N; for all others the code silently returns wrong elements (refuted in general). Empty tensors with a wrapped offset are left out. |
| C60 | meshgrid yields the coordinate grids of its vectors | proved | Any number of operands, any layouts, empty ones included, both indexings and both orders, with and without copies; errors characterised exactly. |
| C61 | allclose compares all pairs of elements of the broadcast operands | proved | Both devices, all layouts and orders, every closeness test, every schedule and chunk size. The closeness test is a parameter (see C62). allclose of empty arrays is an error where NumPy gives true (C61_allclose_empty_refuted); the property's text allows it. |
| C62 | isclose is |a - b| <= atol + rtol * |b| on the true values | partial | Signed integers whose distance fits into the type. Refuted for larger distances (panic, or wrap-around to close) and for infinite f64 operands. The rounding of the f64 tolerance, unsigned integers and mixed floats are in C108.  Missing: complex and other mixed types. |
| C63 | Owned and shared tensors have value semantics in every history | proved | For every program from the empty state; buffers are reference-counted cells with std's Arc semantics (new, clone, drop, try_unwrap, make_mut); a mutation is an arbitrary function of the tensor seen. Weak handles and concurrent use of one buffer from several threads are not modelled; unsafe force_mut is excluded. |
| C64 | Converting a tensor to another ownership always succeeds | partial | Proved when no other variable shares the buffer. Refuted otherwise: into_owned of a shared tensor that fills its buffer, and into_cow of any shared one, panic. |
| C65 | matmul on the faer device is the matrix product | proved | All shapes, strides, both orders, every schedule, alpha and beta; the library is modelled by its specification (product, product into a triangle). Only the four element types the library supports, with both factors of one type; others use the kernels of C34. The elements are an exact commutative semiring with decidable equality, so float rounding is left out. The sum of a vector-vector product still reads the old output. |
| C66 | matmul on the BLAS devices is the matrix product | partial | beta = 0: all shapes, strides, both orders, every schedule. Any beta: stacks of matrices with a unit stride, stacks of vectors with a positive one, both with at least one term, and inner products. Refuted: other output strides lose beta * c; an empty contraction clears c; empty results ignore the rank rule. The library is modelled by its specification with the argument check of the reference implementation. |
| C67 | The BLAS builder for matrix products computes alpha op(A) op(B) + beta C | partial | Proved for all layouts in neither order, and for those along an order that start their storage; outputs compact or along neither order; at least one element; transposition flags other than conjugation alone (an error). Refuted: offsets of operands along an order, outputs with gaps, the meaning of the order argument, empty results. The library is modelled by its specification with the argument check of the reference implementation; elements form a commutative semiring-like structure (only commutativity of * is used). |
| C68 | The BLAS builders for symmetric and Hermitian products use the chosen triangle | partial | Proved for square b (any side, order, output) and for rectangular b into a new result where the extent confusion is harmless. Refuted: rectangular b in the other cases; SYMM of a matrix in the non-preferred order uses the other triangle. |
| C69 | Triangular solves use the chosen triangle and solve the system | partial | Proved for a in neither order or starting its storage, and b likewise (a mutable b compact or along neither order). The library is any function that solves triangular systems. Refuted for offsets and for a mutable b with gaps along an order, in particular a mutable vector with a stride. |
| C70 | solve_general, solve_symmetric, inv and cholesky hand the right matrices to LAPACK | partial | Proved for all strides, offsets and both orders, any behaviour of LAPACK, for non-empty matrices, and for solve_general and solve_symmetric as called with vectors and matrices. Refuted: POTRF called directly does not write back into a mutable view in neither order; GESV and SYSV count pivots differently. The row-major drivers' slices are modelled as the elements they read and write; their extent beyond the storage is not. eigh, svd, pinv, det and slogdet are in C82-C85. |
| C71 | cdist tables the distances of all pairs of rows | partial | Proved for all metrics (any fields), strides, offsets, batches and schedules, for at least one column. Refuted: no columns (panic), weights that are a prefix of a longer storage, a number of weights that differs from the columns. |
| C72 | Every distance metric computes its formula | proved | All seventeen metrics, weighted and unweighted (Jensen-Shannon unweighted, rows without negative entries). Arithmetic is arbitrary, so the formulas hold with the code's rounding and order of addition. |
| C73 | Element iterators hand out every element once | partial | Proved for all histories of next, next_back and split_at and all orders. The index that indexed_iter().next_back() gives is wrong (refuted); splits of the indexed iterator are C117. |
| C74 | Mutable and parallel element iterators touch each element once | partial | Proved for layouts that address every element once; for broadcast mutable views it is false (refuted). Indexed mutable iterators: C117. |
| C75 | Variance, deviation and norm | partial | Whole tensors (any layout) and the exactness of the formula are proved; over axes, empty inputs and inputs that repeat an axis by broadcasting are missing (the shared kernel is refuted there, C32). Rounding is not modelled. |
| C76 | Extrema, logic and counting over axes | partial | Proved for all axes selections, both devices and all schedules; empty (except for min and max, an error) and broadcast inputs are missing, as for C32. |
| C77 | Printed tensors | partial | The text, its independence of the layout and its balance are proved for MIN_PRINT at least 1; refuted for MIN_PRINT = 0 (brackets stay open) and, for dots that hide nothing, when MAX_PRINT is at most twice MIN_PRINT. The element formatter is a parameter; Debug texts are the subject of C119. |
| C78 | Reshape without a copy, or an error | proved | Completeness of the zero-copy reshape is proved for every layout and both orders. |
| C79 | Type promotion and casts keep numbers | partial | Exactness of promotion and casts, and where they exist, is proved for all types and values; refuted: i8 with i16 has no promotion although i16 with i8 has, grouping matters for three operands, and 64-bit integers beyond 2^53 lose digits. Half-precision types and 128-bit integers are not modelled. |
| C80 | Comparison, extrema and floor division of mixed types | partial | Proved for all tensors whose elements the promoted type has; refuted for 64-bit integers of different signedness beyond 2^53, which compare as equal when they are not. |
| C81 | Sign, sign bit and absolute value | partial | sign and abs are proved; signbit is refuted: it is the opposite. abs of the smallest signed integer is refuted without overflow checks. |
| C82 | Singular value decomposition | partial | The default driver gesdd is proved for every nonempty matrix and layout; the driver gesvd is proved where it works and refuted elsewhere: it panics, also for matrices without rows (overflow checks on). LAPACK is an arbitrary function. Other empty matrices are not covered. |
| C83 | Eigenvalues of symmetric and Hermitian matrices | partial | Simple and generalised problems are proved for every layout and triangle; refuted: the subset arguments have no effect. LAPACK is an arbitrary function. |
| C84 | Determinants | partial | det and slogdet are proved for every commutative ring and every factorisation; refuted: singular matrices are an error and matrices that are not square are accepted. |
| C85 | Pseudo-inverse | partial | All Penrose conditions and the rank are proved for every matrix of rank at least 1; refuted for rank 0, which ends the program on a column-major device. |
| C86 | Exchange of matrices with faer | partial | Reading, writing and owned matrices are proved for every layout; the round trip for strides that are not negative and refuted for negative ones. |
| C87 | Singular values and pseudo-inverse on the faer device | partial | svdvals, real svd and pinv (complex and rank 0 included) are proved for every library result; refuted: svd of complex matrices lacks the conjugation and pinv of an empty matrix panics. faer is an arbitrary function. |
| C88 | Eigenvalues on the faer device | partial | eigh, eigvalsh and all three generalised problems are proved for every triangle; refuted for the generalised problem with a broadcast matrix. faer is an arbitrary function with its documented contract. |
| C89 | Factorisations and solutions on the faer device | proved | For every layout, triangle and kind of right-hand side, vectors and matrices. faer is an arbitrary function with its documented contract. |
| C90 | Linear algebra calls leave faer's global parallelism alone | partial | Proved for every successful call; refuted for calls in which faer fails. |
| C91 | Results stay on the device of the operand | partial | Proved for svdvals and eigvalsh; refuted for svd, eigh, inv and cholesky. |
| C92 | Owned tensors have elements of their own | partial | Proved for operands with distinct addresses; refuted for broadcast views of storages with as many elements as the view. |
| C93 | Lebedev rules exist for the documented orders | partial | Proved for every order and number of points in real arithmetic; refuted: the documented number of points of order 131. |
| C94 | Lebedev grids lie on the sphere and have octahedral symmetry | partial | Sphere and symmetry are proved for all 32 rules in real arithmetic; positive weights for all but the three rules that have negative ones, refuted there. |
| C95 | Lebedev rules integrate polynomials up to their order | partial | Odd monomials and degree at most 3 for all 32 rules; all degrees for the 18 rules of order at most 47, with relative error 10^-14, in real arithmetic (the decimal tables are exact, f64 rounding is not modelled). Missing: full degree for orders 53 to 131. |
| C96 | A device reports the threads and the order it was last given | partial | Pool size, order and same_device hold for every history; the number asked for is reported unless two requests of 0 in a row come from places with different numbers of threads, refuted there. rayon's own limit on pool sizes is not modelled. |
| C97 | Moving a tensor between devices keeps its content | partial | into_device holds for every tensor; change_device and to_device for every tensor whose offset is inside its storage, refuted for empty views with an offset beyond it. |
| C98 | Operations refuse operands of different devices | proved | For the operations of op_with_func.rs and the arithmetic operators; matmul, linear algebra and BLAS builders have such checks too (C65-C67, C88). |
| C99 | with_num_threads is scoped | partial | Proved on one thread for every nesting, and for every schedule of every number of threads if the library keeps its number per thread; refuted for panics, for process-wide numbers, and for what MKL and KML keep besides the number read. |
| C100 | einsum | proved | For every library with the contract einsum_library (Spec_Tblis.v), which some library is proved to meet.  Rounding: any order and grouping of the sums and products is allowed, so nothing is assumed about associativity. |
| C101 | tensordot | proved | As C100.  Lists of axes of different lengths are accepted by the code (C43); then nothing is claimed. |
| C102 | number of threads of TBLIS | partial | Proved unless the library itself reports an error; refuted in that case.  The number is process-wide: concurrent calls race as in C99_concurrent_restore_refuted. |
| C103 | arange of floating-point numbers | partial | Proved for both directions when the ends are far from overflow and the step is neither lost in the rounding errors nor 2^1000 times the interval, refuted without the last two conditions; refuted: arange ends (a negative step with stop above start loops for ever).  Arguments near overflow are left out. |
| C104 | linspace of floating-point numbers | partial | Error bounds for both devices when the number of values fits the precision; refuted: the last value is stop, the devices agree, and that the complex linspace between real ends has the values of the real one.  For complex numbers, n times the larger end of a part must be far from overflow (the division by n + 0i multiplies by n first). |
| C105 | Sums and means of floating-point tensors | partial | Error bounds for sums of all elements without further conditions than finiteness and no overflow; over axes without broadcast inputs, and means up to 2^24 or 2^53 elements.  Refuted: sums do not depend on the schedule; variances are not negative; the norm of a finite vector is finite. |
| C106 | Extrema of floating-point tensors | partial | All elements: complete.  Over axes: without broadcast inputs.  Refuted: the minimum is an element (all +inf); the position does not depend on the schedule when there is a NaN.  Positions are given as a multi-index and as one number. |
| C107 | Products of floating-point matrices | partial | matmul: complete for the serial device if the memory of the result holds finite numbers (refuted otherwise); matmul_from: as C34, without broadcast outputs; the parallel kernels themselves, not their dispatch.  Refuted: the parallel inner product does not depend on the schedule. |
| C108 | Closeness of floating-point numbers | partial | All finite operands whose difference can be represented; equality, monotonicity, symmetry and NaN without that condition.  Refuted: differences that overflow, in f32 and f64 (and infinite operands, see C62).  Complex and signed-integer operands of mixed types are not modelled. |
| C109 | Neighbouring half-precision numbers | proved | f16 and bf16; f32 and f64 use the external crate libm. |
| C110 | Dot products of floating-point tensors | partial | Serial, rayon (every schedule) and the in-place variant, rounding bound and exactness.  Missing, as in C54: empty operands (refuted there), operands with aliased elements on the rayon device; complex elements are the subject of C114. |
| C111 | Products and norms of floating-point tensors | partial | All elements: complete.  Over axes: without empty and broadcast inputs, as C32.  Refuted: products do not depend on the schedule. |
| C112 | Variances and standard deviations of floating-point tensors | partial | All elements: complete.  Over axes: without empty and broadcast inputs, as C32.  Refuted: a bound relative to the variance itself. |
| C113 | Distances of floating-point vectors | proved | Refuted: that Euclidean distances of different rows are nonzero, and the triangle inequality for computed distances.  Weights and complex entries are outside the statement (C71 and C72 cover weights over abstract arithmetic). |
| C114 | Sums, means, norms and dot products of complex floating-point tensors | partial | Refuted for the mean if away from overflow refers to the sum as for real tensors: the division by n + 0i multiplies the sum by n first.  Missing: empty tensors and broadcast inputs over axes (C32), empty operands of vecdot (C54); products and variances of complex tensors (matrix products are in C118). |
| C115 | The iteration order K is the order of memory | proved |  |
| C116 | Closures that keep a state | partial | Refuted for mapb_fnmut of operands that are both broadcast along an axis: one cell of the result takes all the calls, the last one wins.  Missing: the order of the calls of mapi_fnmut and mapb_fnmut. |
| C117 | Parallel iteration with indices and over sub-views | proved | Parts are consumed from the front; consuming them from the back gives the wrong indices of C73_indexed_iter_reversed_refuted and C51_indexed_back_refuted. |
| C118 | Products of complex floating-point matrices | proved | C118_matmul_exact gives the exact product for parts that are multiples of a common power of two (Gaussian integers), with sums that fit in the precision.  matmul with alpha = 1 and beta = 0; both parts must stay away from overflow, since the multiplication by 1 + 0i turns an infinite part into a NaN in the other (C118_parts_refuted).  matmul_from with other alpha and beta is covered for exact arithmetic (C34) and for real floats (C107) only. |
| C119 | Debug texts of layouts and tensors | proved | The plain format {:?}; MIN_PRINT at least 1 for the tensor text (C77).  Offsets must be non-negative for C119_layout_text (a negative one can only occur in a layout without elements, where the code prints its usize image). |
| C120 | Indices and ranges of all integer types | partial | Proved for all values up to isize::MAX, thus for all values of isize, u32, i32 and i64.  Refuted beyond, for usize and u64: the conversion wraps to a negative number, ..usize::MAX leaves out the last element and usize::MAX is the last index. |
| C121 | Memory of new tensors | partial | Proved with overflow checks, or for fewer than 2^64 bytes.  Refuted in a release build beyond (a block of 128 bytes for 2^61 + 16 elements), and for giving back: from 128 elements on, the block is asked for with alignment 64 and freed with that of the element type.  The allocator is a parameter; Linux and macOS with the default feature aligned_alloc. |
| C122 | Dimension types | proved | All dimension types Ix<N> and IxD; layouts carry their static type beside them in the model. |
| C123 | Unary operators | proved | Integers of any width; any operator of the elements, also one that panics, in C123_unary_borrowed and C123_unary_owned.  The rayon kernels agree with these by C53. |
