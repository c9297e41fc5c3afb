(** Model of matrix multiplication on the devices that call an external library: rstsr-core/src/device_faer/matmul.rs and matmul_impl.rs (faer),
    crates-device/rstsr-openblas/src/matmul.rs and matmul_impl.rs (CBLAS; the copies in rstsr-aocl, -blis, -kml and -mkl have the same text up to comments).
    The libraries themselves are modelled by their specification.  One element type [T] with both factors of that type: the four library types.
    (Other types go to gemm_ix2_naive_cpu_rayon, M_Matmul.gemm_rayon.)  [eqb] is PartialEq of the element type.  fill_cpu_rayon, assign_cpu_rayon and
    op_muta_numb_func_cpu_rayon are replaced by the serial kernels, which have the same result (C53). *)
From Verif Require Import Base Spec M_Layout M_Indexer M_Broadcast M_Rearr M_Iter M_Kernel M_Tensor M_Matmul.
Local Open Scope Z_scope.

Section Library.
  Context {T : Type} (zero one : T) (add mul : T -> T -> T) (eqb : T -> T -> bool).

  (** ** the external libraries.  An access outside the storage is [Panic] here, undefined behaviour there. *)
  (** one entry of a matrix product of inner extent [K]; [pa] and [pb] are the positions of the entries of the factors *)
  Definition lib_entry (a b : list T) (pa pb : nat -> Z) (K : nat) : res T :=
    fold_res (fun s k => let* x := zget a (pa k) in let* y := zget b (pb k) in Ok (add s (mul x y))) (seq 0 K) zero.
  (** the listed entries of c become alpha * (a b), the old value not read ([old] = None), or old(c) + alpha * (a b) *)
  Definition lib_cell (old : option (T -> T)) (alpha : T) (pc : nat -> nat -> Z) (a : list T) (pa : nat -> nat -> Z) (b : list T) (pb : nat -> nat -> Z) (K : nat)
    (c : list T) (ij : nat * nat) : res (list T) :=
    let* s := lib_entry a b (pa (fst ij)) (fun k => pb k (snd ij)) K in
    match old with
    | None => zset c (pc (fst ij) (snd ij)) (mul alpha s)
    | Some f => let* z := zget c (pc (fst ij) (snd ij)) in zset c (pc (fst ij) (snd ij)) (add (f z) (mul alpha s))
    end.
  Definition lib_product (cells : list (nat * nat)) (old : option (T -> T)) (alpha : T) (c : list T) (pc : nat -> nat -> Z) (a : list T) (pa : nat -> nat -> Z) (b : list T) (pb : nat -> nat -> Z) (K : nat)
    : res (list T) := fold_res (lib_cell old alpha pc a pa b pb K) cells c.
  (** the entries of an [m] by [n] matrix; those on and below, on and above the diagonal *)
  Definition all_cells (m n : nat) : list (nat * nat) := list_prod (seq 0 m) (seq 0 n).
  Definition lower_cells (n : nat) : list (nat * nat) := filter (fun ij => snd ij <=? fst ij)%nat (all_cells n n).
  Definition upper_cells (n : nat) : list (nat * nat) := filter (fun ij => fst ij <=? snd ij)%nat (all_cells n n).
  (** column-major with leading extent [ld]; transposed *)
  Definition col_pos (trans : bool) (off ld : Z) (i j : nat) : Z := if trans then off + Z.of_nat j + Z.of_nat i * ld else off + Z.of_nat i + Z.of_nat j * ld.
  Definition at_least (ld : Z) (rows : nat) : bool := Z.max 1 (Z.of_nat rows) <=? ld.
  (** cblas_?gemm(ColMajor, ta, tb, m, n, k, alpha, a, lda, b, ldb, beta, c, ldc): c := alpha op(a) op(b) + beta c, with the argument check of the
      reference implementation (a leading extent that is too small ends the program) *)
  Definition cblas_gemm (ta tb : bool) (m n k : nat) (alpha : T) (a : list T) (offa lda : Z) (b : list T) (offb ldb : Z) (beta : T) (c : list T) (offc ldc : Z) : res (list T) :=
    if at_least lda (if ta then k else m) && at_least ldb (if tb then n else k) && at_least ldc m
    then lib_product (all_cells m n) (if eqb beta zero then None else Some (mul beta)) alpha c (col_pos false offc ldc) a (col_pos ta offa lda) b (col_pos tb offb ldb) k
    else Panic.
  (** cblas_?syrk(ColMajor, Upper, ta, n, k, alpha, a, lda, 0, c, ldc): the upper triangle of c := alpha op(a) op(a)^T *)
  Definition cblas_syrk (ta : bool) (n k : nat) (alpha : T) (a : list T) (offa lda : Z) (c : list T) (offc ldc : Z) : res (list T) :=
    if at_least lda (if ta then k else n) && at_least ldc n
    then lib_product (upper_cells n) None alpha c (col_pos false offc ldc) a (col_pos ta offa lda) a (fun l j => col_pos ta offa lda j l) k
    else Panic.
  (** faer::linalg::matmul::matmul on MatRef / MatMut made from a pointer and two strides; [old] = None is Accum::Replace, the identity is Accum::Add.
      triangular::matmul with a triangular destination touches only that triangle *)
  Definition faer_product (cells : list (nat * nat)) (old : option (T -> T)) (alpha : T) (c : list T) (lc : layout) (a : list T) (la : layout) (b : list T) (lb : layout) : res (list T) :=
    lib_product cells old alpha c (fun i j => addr lc [i; j]) a (fun i k => addr la [i; k]) b (fun k j => addr lb [k; j]) (extent la 1).

  (** ** faer *)
  (** gemm_faer, device_faer/matmul_impl.rs:19-103 *)
  Definition gemm_faer (c : list T) (lc : layout) (a : list T) (la : layout) (b : list T) (lb : layout) (alpha beta : T) : res (list T) :=
    let* _ := check (extent lc 0 =? extent la 0)%nat InvalidLayout in
    let* _ := check (extent la 1 =? extent lb 0)%nat InvalidLayout in
    let* _ := check (extent lc 1 =? extent lb 1)%nat InvalidLayout in
    if eqb beta zero then faer_product (all_cells (extent lc 0) (extent lc 1)) None alpha c lc a la b lb
    else
      let* c := if eqb beta one then Ok c else op_muta_numb Fixed c lc beta (fun x y => mul x y) in
      faer_product (all_cells (extent lc 0) (extent lc 1)) (Some (fun x => x)) alpha c lc a la b lb.
  (** syrk_faer, device_faer/matmul_impl.rs:109-198, as called: uplo = L and beta = 0 *)
  Definition syrk_faer (c : list T) (lc : layout) (a : list T) (la : layout) (alpha : T) : res (list T) :=
    let* _ := check (extent lc 0 =? extent lc 1)%nat InvalidLayout in
    let* _ := check (extent lc 0 =? extent la 0)%nat InvalidLayout in
    faer_product (lower_cells (extent lc 0)) None alpha c lc a la a (reverse_axes la).
  (** one step of the symmetrisation, matmul_impl.rs:234-239, 246-250: c[j, i] = c[i, j] *)
  Definition copy_cell (c : list T) (p : Z * Z) : res (list T) := let* x := zget c (fst p) in zset c (snd p) x.
  (** the pairs j < i < n, matmul_impl.rs:231-233 *)
  Definition strict_lower (n : nat) : list (nat * nat) := flat_map (fun i => map (fun j => (i, j)) (seq 0 i)) (seq 0 n).
  (** gemm_with_syrk_faer, matmul_impl.rs:203-256.  [tri] is the order in which the pairs are copied (the loop over i is parallel for large n). *)
  Definition gemm_with_syrk_faer (tri : list (nat * nat) -> list (nat * nat)) (c : list T) (lc : layout) (a : list T) (la : layout) (alpha beta : T) : res (list T) :=
    if negb (eqb beta zero) then gemm_faer c lc a la a (reverse_axes la) alpha beta
    else
      let* c := syrk_faer c lc a la alpha in
      fold_res copy_cell (map (fun ij => (index_uncheck lc [fst ij; snd ij], index_uncheck lc [snd ij; fst ij])) (tri (strict_lower (extent lc 0)))) c.
  Definition same_z (a b : list Z) : bool := if list_eq_dec Z.eq_dec a b then true else false.
  (** able_syrk, device_faer/matmul.rs:38-48, rstsr-openblas/src/matmul.rs:36-46.  [same]: the two factors are the same slice, so that equal pointers mean equal
      offsets.  (Two different slices meet only in a one-past-the-end pointer, which an empty factor may have.) *)
  Definition able_syrk (same : bool) (la lb : layout) (beta : T) : bool :=
    eqb beta zero && same && (l_offset la =? l_offset lb) && same_shape (l_shape la) (rev (l_shape lb)) && same_z (l_stride la) (rev (l_stride lb)).
  (** gemm_faer_ix2_dispatch, device_faer/matmul.rs:19-80 *)
  Definition dispatch_faer (tri : list (nat * nat) -> list (nat * nat)) (same : bool) (c : list T) (lc : layout) (a : list T) (la : layout) (b : list T) (lb : layout) (alpha beta : T) : res (list T) :=
    if able_syrk same la lb beta then gemm_with_syrk_faer tri c lc a la alpha beta else gemm_faer c lc a la b lb alpha beta.

  (** ** CBLAS *)
  (** lda, ldb, ldc, rstsr-openblas/src/matmul_impl.rs:113-115 *)
  Definition leading (l : layout) : Z := if negb (extent l 1 =? 1)%nat then nth 1 (l_stride l) 0 else Z.of_nat (extent l 0).
  (** a factor that the library can read: as it is, transposed, or copied to a new column-major buffer, matmul_impl.rs:86-109.  The buffer starts uninitialised. *)
  Definition blas_factor (a : list T) (la : layout) : res (bool * list T * layout) :=
    if f_prefer la then Ok (false, a, la)
    else if c_prefer la then Ok (true, a, reverse_axes la)
    else
      let l := new_f_contig Fixed (l_shape la) 0 in
      let* d := assign Fixed Some (repeat None (l_size la)) l a la in
      let* d := assume_init d in
      Ok (false, d, l).
  (** the same function on an output that is column-major, matmul_impl.rs:63-131 *)
  Definition gemm_blas_col (c : list T) (lc : layout) (a : list T) (la : layout) (b : list T) (lb : layout) (alpha beta : T) : res (list T) :=
    let* _ := check (extent lc 0 =? extent la 0)%nat InvalidLayout in
    let* _ := check (extent la 1 =? extent lb 0)%nat InvalidLayout in
    let* _ := check (extent lc 1 =? extent lb 1)%nat InvalidLayout in
    let m := extent lc 0 in
    let n := extent lc 1 in
    let k := extent la 1 in
    if (k =? 0)%nat then fill Fixed (fun x => x) c lc zero
    else if (n =? 0)%nat || (m =? 0)%nat then Ok c
    else
      let* fa := blas_factor a la in
      let* fb := blas_factor b lb in
      let '(ta, da, la') := fa in
      let '(tb, db, lb') := fb in
      cblas_gemm ta tb m n k alpha da (l_offset la') (leading la') db (l_offset lb') (leading lb') beta c (l_offset lc) (leading lc).
  (** gemm_blas_no_conj_{f32,f64,c32,c64}, matmul_impl.rs:28-132.  The recursive calls get a column-major output, so [fuel] 2 is enough. *)
  Fixpoint gemm_blas (fuel : nat) (c : list T) (lc : layout) (a : list T) (la : layout) (b : list T) (lb : layout) (alpha beta : T) : res (list T) :=
    match fuel with
    | O => Panic
    | S fuel =>
      if f_prefer lc then gemm_blas_col c lc a la b lb alpha beta
      else if c_prefer lc then gemm_blas fuel c (reverse_axes lc) b (reverse_axes lb) a (reverse_axes la) alpha beta
      else
        let l := new_f_contig Fixed (l_shape lc) 0 in
        let* d := if eqb beta zero then fill Fixed Some (repeat None (l_size l)) l zero else assign Fixed Some (repeat None (l_size l)) l c lc in
        let* d := assume_init d in
        (* beta is not passed on, matmul_impl.rs:57 *)
        let* d := gemm_blas fuel d l a la b lb alpha zero in
        assign Fixed (fun x => x) c lc d l
    end.
  (** syrk_blas_no_conj_* on an output that is column-major, matmul_impl.rs:319-385.  [tri] is the order in which the lower triangle is written. *)
  Definition syrk_blas_col (tri : list (nat * nat) -> list (nat * nat)) (c : list T) (lc : layout) (a : list T) (la : layout) (alpha : T) : res (list T) :=
    let* _ := check (extent lc 0 =? extent la 0)%nat InvalidLayout in
    let* _ := check (extent lc 1 =? extent lc 0)%nat InvalidLayout in
    let n := extent lc 0 in
    let k := extent la 1 in
    if (k =? 0)%nat then fill Fixed (fun x => x) c lc zero
    else if (n =? 0)%nat then Ok c
    else
      let* fa := blas_factor a la in
      let '(ta, da, la') := fa in
      let* c := cblas_syrk ta n k alpha da (l_offset la') (leading la') c (l_offset lc) (leading lc) in
      let ldc := nth 1 (l_stride lc) 0 in
      fold_res copy_cell (map (fun ij => (l_offset lc + Z.of_nat (fst ij) * ldc + Z.of_nat (snd ij), l_offset lc + Z.of_nat (snd ij) * ldc + Z.of_nat (fst ij))) (tri (strict_lower n))) c.
  (** syrk_blas_no_conj_{f32,f64,c32,c64}, matmul_impl.rs:288-386 *)
  Fixpoint syrk_blas (fuel : nat) (tri : list (nat * nat) -> list (nat * nat)) (c : list T) (lc : layout) (a : list T) (la : layout) (alpha : T) : res (list T) :=
    match fuel with
    | O => Panic
    | S fuel =>
      if f_prefer lc then syrk_blas_col tri c lc a la alpha
      else if c_prefer lc then syrk_blas fuel tri c (reverse_axes lc) a la alpha
      else
        let l := new_f_contig Fixed (l_shape lc) 0 in
        let* d := fill Fixed Some (repeat None (l_size l)) l zero in
        let* d := assume_init d in
        let* d := syrk_blas fuel tri d l a la alpha in
        assign Fixed (fun x => x) c lc d l
    end.
  (** gemm_blas_ix2_no_conj_dispatch, rstsr-openblas/src/matmul.rs:16-78 *)
  Definition dispatch_blas (tri : list (nat * nat) -> list (nat * nat)) (same : bool) (c : list T) (lc : layout) (a : list T) (la : layout) (b : list T) (lb : layout) (alpha beta : T) : res (list T) :=
    if able_syrk same la lb beta then syrk_blas 2 tri c lc a la alpha else gemm_blas 2 c lc a la b lb alpha beta.

  (** ** stacks of products *)
  (** the broadcast rules 3 to 7, device_faer/matmul.rs:135-205, rstsr-openblas/src/matmul.rs:136-203, for a matrix kernel [g].  [sched] is the order in which the batches
      are worked on (from 4 batches per thread on they are spread over the threads). *)
  Definition matmul_batched (g : list T -> layout -> layout -> layout -> res (list T)) (sched : list (list Z) -> list (list Z)) (c : list T) (lc la lb : layout) : res (list T) :=
    let* cfg := layout_matmul_with_lc la lb lc in
    let* _ := check ((ndim (mm_la cfg) =? 2) && (ndim (mm_lb cfg) =? 2) && (ndim (mm_lc_matmul cfg) =? 2))%nat InvalidLayout in
    let* ra := unwrap_opt (mm_la_rest cfg) in
    let* rb := unwrap_opt (mm_lb_rest cfg) in
    let* rc := unwrap_opt (mm_lc_rest cfg) in
    let* pss := map_res (dispatch_positions Dyn) [ra; rb; rc] in
    fold_res (fun c p =>
      match p with
      | [ia; ib; ic] => g c (at_offset (mm_lc_matmul cfg) ic) (at_offset (mm_la cfg) ia) (at_offset (mm_lb cfg) ib)
      | _ => Panic
      end) (sched (zip_all pss)) c.
  (** matmul_row_major_faer, device_faer/matmul.rs:83-207.  [t] is the way the scheduler splits an inner product. *)
  Definition matmul_faer (t : split_tree) (tri : list (nat * nat) -> list (nat * nat)) (sched : list (list Z) -> list (list Z)) (same : bool)
    (c : list T) (lc : layout) (a : list T) (la : layout) (b : list T) (lb : layout) (alpha beta : T) : res (list T) :=
    match ndim la, ndim lb, ndim lc with
    | 1%nat, 1%nat, O => inner_dot_rayon t mul mul add zero c lc a la b lb alpha beta
    | 2%nat, 2%nat, 2%nat => dispatch_faer tri same c lc a la b lb alpha beta
    | _, _, _ => matmul_batched (fun c lc la lb => dispatch_faer tri same c lc a la b lb alpha beta) sched c lc la lb
    end.
  (** matmul_row_major_blas, rstsr-openblas/src/matmul.rs:81-204 *)
  Definition matmul_blas (t : split_tree) (tri : list (nat * nat) -> list (nat * nat)) (sched : list (list Z) -> list (list Z)) (same : bool)
    (c : list T) (lc : layout) (a : list T) (la : layout) (b : list T) (lb : layout) (alpha beta : T) : res (list T) :=
    if (l_size lc =? 0)%nat then Ok c else
    match ndim la, ndim lb, ndim lc with
    | 1%nat, 1%nat, O => inner_dot_rayon t mul mul add zero c lc a la b lb alpha beta
    | 2%nat, 2%nat, 2%nat => dispatch_blas tri same c lc a la b lb alpha beta
    | _, _, _ => matmul_batched (fun c lc la lb => dispatch_blas tri same c lc a la b lb alpha beta) sched c lc la lb
    end.
  (** DeviceMatMulAPI::matmul of DeviceFaer, device_faer/matmul.rs:216-238, and of DeviceBLAS, rstsr-openblas/src/matmul.rs:222-243 *)
  Definition device_faer (o : order) (t : split_tree) (tri : list (nat * nat) -> list (nat * nat)) (sched : list (list Z) -> list (list Z)) (same : bool)
    (c : list T) (lc : layout) (a : list T) (la : layout) (b : list T) (lb : layout) (alpha beta : T) : res (list T) :=
    match o with
    | RowMajor => matmul_faer t tri sched same c lc a la b lb alpha beta
    | ColMajor => matmul_faer t tri sched same c (reverse_axes lc) b (reverse_axes lb) a (reverse_axes la) alpha beta
    end.
  Definition device_blas (o : order) (t : split_tree) (tri : list (nat * nat) -> list (nat * nat)) (sched : list (list Z) -> list (list Z)) (same : bool)
    (c : list T) (lc : layout) (a : list T) (la : layout) (b : list T) (lb : layout) (alpha beta : T) : res (list T) :=
    match o with
    | RowMajor => matmul_blas t tri sched same c lc a la b lb alpha beta
    | ColMajor => matmul_blas t tri sched same c (reverse_axes lc) b (reverse_axes lb) a (reverse_axes la) alpha beta
    end.
  (** op_mutc_refa_refb_matmul and op_refa_refb_matmul, rstsr-core/src/tensor/linalg/matmul.rs:45-97, on such a device [dev] *)
  Definition op_mutc_matmul_on (dev : list T -> layout -> list T -> layout -> list T -> layout -> T -> T -> res (list T)) (c a b : tensor T) (alpha beta : T) : res (tensor T) :=
    let* d := dev (t_data c) (t_layout c) (t_data a) (t_layout a) (t_data b) (t_layout b) alpha beta in
    Ok (mkTensor d (t_layout c)).
  Definition op_matmul_on (dev : list T -> layout -> list T -> layout -> list T -> layout -> T -> T -> res (list T)) (k : dimty) (o : order) (junk : nat -> T)
    (a b : tensor T) (alpha : T) : res (tensor T) :=
    let* cfg := layout_matmul k (t_layout a) (t_layout b) o in
    let* bd := bounds_index (mm_lc cfg) in
    op_mutc_matmul_on dev (mkTensor (map junk (seq 0 (Z.to_nat (snd bd)))) (mm_lc cfg)) a b alpha zero.
End Library.
