(** Model of the BLAS level 3 and LAPACK wrappers: rstsr-blas-traits/src/blas3/{gemm,syhemm,trsm}.rs, lapack_solve/{getrf,getri,gesv,potrf,sysv}.rs,
    util/{util_layout,util_tensor}.rs, the drivers rstsr-blas-traits/driver_impl/{cblas/blas3,lapack/solve}, rstsr-core/src/tensor/tensor_mutable.rs and
    tensor2_impl.rs, and of rstsr-linalg-traits/src/ref_impl_blas.rs (cholesky, inv, solve_general, solve_symmetric, solve_triangular).
    The BLAS products are modelled by their specification; LAPACK's factorisations and BLAS's triangular solve are arbitrary functions of the matrices they
    are given.  Device checks, thread counts and workspace sizes are not modelled. *)
From Verif Require Import Base Spec Spec_Tri Spec_Blas M_Layout M_Indexer M_Broadcast M_Rearr M_Iter M_Kernel M_Tensor M_Matmul M_Fast M_Tri.
Local Open Scope Z_scope.

(** FlagTrans::flip, FlagSide::flip, rstsr-common/src/flags.rs:533-554 *)
Definition flip_ftrans (t : ftrans) (hermi : bool) : res ftrans :=
  match t with NoTrans => Ok (if hermi then ConjTrans else Trans) | Trans => Ok NoTrans | ConjTrans => Ok NoTrans | ConjOnly => Err InvalidValue end.
Definition flip_side (s : side) : side := match s with SLeft => SRight | SRight => SLeft end.
Definition ftrans_eqb (a b : ftrans) : bool :=
  match a, b with NoTrans, NoTrans | Trans, Trans | ConjTrans, ConjTrans | ConjOnly, ConjOnly => true | _, _ => false end.

(** TensorBase::ld_row, ld_col, ld, tensor2_impl.rs:15-52 *)
Definition ld_row (l : layout) : option Z :=
  if negb (c_prefer l) then None else if (extent l 0 =? 1)%nat then Some (Z.of_nat (extent l 1)) else Some (nth 0 (l_stride l) 0).
Definition ld_col (l : layout) : option Z :=
  if negb (f_prefer l) then None else if (extent l 1 =? 1)%nat then Some (Z.of_nat (extent l 0)) else Some (nth 1 (l_stride l) 0).
Definition ld (o : order) (l : layout) : option Z := match o with ColMajor => ld_col l | RowMajor => ld_row l end.
Definition prefers (o : order) (l : layout) : bool := match o with ColMajor => f_prefer l | RowMajor => c_prefer l end.

(** get_output_order, util_layout.rs:3-24; the pairs are (c_prefer, f_prefer) *)
Fixpoint by_first_order (by_first : list (option (bool * bool))) : option order :=
  match by_first with
  | [] => None
  | Some (true, false) :: _ => Some RowMajor
  | Some (false, true) :: _ => Some ColMajor
  | _ :: r => by_first_order r
  end.
Definition get_output_order (by_first : list (option (bool * bool))) (by_all : list (bool * bool)) (dflt : order) : order :=
  match by_first_order by_first with
  | Some o => o
  | None => if existsb fst by_all then RowMajor else if existsb snd by_all then ColMajor else dflt
  end.
(** the order argument of the BLAS builders, gemm.rs:57-60, syhemm.rs:59-62, trsm.rs:61-64 *)
Definition order_arg (o : order) : bool * bool := match o with ColMajor => (true, false) | RowMajor => (false, true) end.
Definition order_of (l : layout) : bool * bool := (c_prefer l, f_prefer l).

(** enum TensorMutable, tensor_mutable.rs:14-23, and TensorReference (a view or a mutable view) *)
Inductive mutable (T : Type) := Owned (t : tensor T) | MutRef (t : tensor T) | ToBeCloned (t buf : tensor T).
Arguments Owned {T} _.
Arguments MutRef {T} _.
Arguments ToBeCloned {T} _ _.
Inductive reference (T : Type) := Ref (t : tensor T) | RMut (t : tensor T).
Arguments Ref {T} _.
Arguments RMut {T} _.
Definition ref_of {T} (r : reference T) : tensor T := match r with Ref t | RMut t => t end.
Definition transposed {T} (t : tensor T) : tensor T := mkTensor (t_data t) (reverse_axes (t_layout t)).
(** view, view_mut, tensor_mutable.rs:25-55: the tensor that is worked on; a write through view_mut replaces its storage *)
Definition mview {T} (x : mutable T) : tensor T := match x with Owned t | MutRef t | ToBeCloned _ t => t end.
Definition mwrite {T} (x : mutable T) (d : list T) : mutable T :=
  match x with
  | Owned t => Owned (mkTensor d (t_layout t))
  | MutRef t => MutRef (mkTensor d (t_layout t))
  | ToBeCloned t b => ToBeCloned t (mkTensor d (t_layout b))
  end.
(** into_reverse_axes, tensor_mutable.rs:90-98, and of TensorReference *)
Definition mtransposed {T} (x : mutable T) : mutable T :=
  match x with Owned t => Owned (transposed t) | MutRef t => MutRef (transposed t) | ToBeCloned t b => ToBeCloned (transposed t) (transposed b) end.
Definition rtransposed {T} (r : reference T) : reference T := match r with Ref t => Ref (transposed t) | RMut t => RMut (transposed t) end.

Section Blas.
  Context {T : Type} (zero one : T) (add mul : T -> T -> T) (conj re : T -> T).
  (** [dev]: the device's default order; [dflt]: the compile-time default order *)
  Context (dev dflt : order).

  (** clone_to_mut, tensor_mutable.rs:80-88: assign() unwraps *)
  Definition clone_to_mut (x : mutable T) : res (mutable T) :=
    match x with
    | ToBeCloned t b => let* t' := unwrap (assign_f Fixed dev (fun x : T => x) t b) in Ok (MutRef t')
    | _ => Ok x
    end.
  (** a contiguous copy to work on: to_contig_f(order)?.into_owned(), and into_contig_f of a view *)
  Definition contig_owned (t : tensor T) (o : order) : res (tensor T) :=
    let* c := change_contig Fixed dev t o in into_owned Fixed dflt c.
  (** overwritable_convert, util_tensor.rs:9-34 *)
  Definition overwritable_convert (r : reference T) : res (mutable T) :=
    let l := t_layout (ref_of r) in
    let o := match f_prefer l, c_prefer l with true, false => ColMajor | false, true => RowMajor | _, _ => dev end in
    match r with
    | Ref t => let* c := contig_owned t o in Ok (Owned c)
    | RMut t => if f_prefer l || c_prefer l then Ok (MutRef t) else let* c := contig_owned t o in Ok (ToBeCloned t c)
    end.
  (** overwritable_convert_with_order, util_tensor.rs:36-59 *)
  Definition overwritable_convert_with_order (r : reference T) (o : order) : res (mutable T) :=
    match r with
    | Ref t => let* c := contig_owned t o in Ok (Owned c)
    | RMut t => if prefers o (t_layout t) then Ok (MutRef t) else let* c := contig_owned t o in Ok (ToBeCloned t c)
    end.
  (** flip_trans, util_tensor.rs:65-94.  conj() of the copy-on-write tensor makes a new tensor (map_f).  change_prefer and conj unwrap. *)
  Definition flip_trans (o : order) (t : ftrans) (v : tensor T) (hermi : bool) : res (ftrans * tensor T) :=
    if prefers o (t_layout v) then Ok (t, v)
    else
      let flipped := unwrap (change_prefer Fixed dev (transposed v) o) in
      match t with
      | NoTrans => let* t' := flip_ftrans t hermi in let* w := flipped in
                   if hermi then let* w := unwrap (map_f Fixed dflt conj w) in Ok (t', w) else Ok (t', w)
      | Trans => let* t' := flip_ftrans t hermi in let* w := flipped in Ok (t', w)
      | ConjTrans => let* t' := flip_ftrans t hermi in let* w := flipped in let* w := unwrap (map_f Fixed dflt conj w) in Ok (t', w)
      | ConjOnly => Err InvalidValue
      end.

  (** ** the external libraries.  A matrix in memory starts at [base], with leading extent [ld].  An access outside the storage is [Panic] here, undefined
      behaviour there; so is a leading extent that is too small (BLAS ends the program). *)
  Definition window (base ld : Z) (i j : nat) : Z := base + Z.of_nat i + Z.of_nat j * ld.
  Definition read_cell (d : list T) (base ld : Z) (cell : nat -> nat -> option T) (i j : nat) : res T :=
    match cell i j with Some x => Ok x | None => zget d (window base ld i j) end.
  (** the rows of the matrix in memory; [cell] gives the entries that are not read *)
  Definition read_window (d : list T) (base ld : Z) (cell : nat -> nat -> option T) (m n : nat) : res (list (list T)) :=
    map_res (fun i => map_res (read_cell d base ld cell i) (seq 0 n)) (seq 0 m).
  Definition everything (i j : nat) : option T := None.
  Definition triangle_only (u : uplo) (unit : bool) (i j : nat) : option T :=
    if unit && (i =? j)%nat then Some one else if in_triangle u i j then None else Some zero.
  (** the listed entries get new values, which may depend on the old ones *)
  Definition write_window (base ld : Z) (new : nat -> nat -> T -> T) (cells : list (nat * nat)) (d : list T) : res (list T) :=
    fold_res (fun d ij => let p := window base ld (fst ij) (snd ij) in let* z := zget d p in zset d p (new (fst ij) (snd ij) z)) cells d.
  Definition lib_op (t : ftrans) (A : list (list T)) (i j : nat) : T :=
    match t with NoTrans => entry_at zero A i j | Trans => entry_at zero A j i | ConjTrans => conj (entry_at zero A j i) | ConjOnly => conj (entry_at zero A i j) end.
  Definition lib_sum (K : nat) (f : nat -> T) : T := fold_right add zero (map f (seq 0 K)).
  (** cblas_?gemm(ColMajor, ...), cblas/blas3/gemm.rs.  (With beta = 0 the library does not read c, which in exact arithmetic is the same.) *)
  Definition driver_gemm (ta tb : ftrans) (m n k : nat) (alpha : T) (a : list T) (lda : Z) (b : list T) (ldb : Z) (beta : T) (c : list T) (ldc : Z) : res (list T) :=
    let ra := match ta with NoTrans => (m, k) | _ => (k, m) end in
    let rb := match tb with NoTrans => (k, n) | _ => (n, k) end in
    if at_least lda (fst ra) && at_least ldb (fst rb) && at_least ldc m then
      let* A := read_window a 0 lda everything (fst ra) (snd ra) in
      let* B := read_window b 0 ldb everything (fst rb) (snd rb) in
      write_window 0 ldc (fun i j z => add (mul alpha (lib_sum k (fun l => mul (lib_op ta A i l) (lib_op tb B l j)))) (mul beta z)) (all_cells m n) c
    else Panic.
  (** cblas_?symm, cblas_?hemm(ColMajor, ...), cblas/blas3/syhemm.rs *)
  Definition lib_sym (hermi : bool) (u : uplo) (A : list (list T)) (i j : nat) : T :=
    if (i =? j)%nat then (if hermi then re (entry_at zero A i i) else entry_at zero A i i)
    else if in_triangle u i j then entry_at zero A i j else if hermi then conj (entry_at zero A j i) else entry_at zero A j i.
  Definition driver_syhemm (hermi : bool) (s : side) (u : uplo) (m n : nat) (alpha : T) (a : list T) (lda : Z) (b : list T) (ldb : Z) (beta : T) (c : list T) (ldc : Z) : res (list T) :=
    let ka := match s with SLeft => m | SRight => n end in
    if at_least lda ka && at_least ldb m && at_least ldc m then
      let* A := read_window a 0 lda (triangle_only u false) ka ka in
      let* B := read_window b 0 ldb everything m n in
      write_window 0 ldc (fun i j z =>
        add (mul alpha (match s with
                        | SLeft => lib_sum m (fun l => mul (lib_sym hermi u A i l) (entry_at zero B l j))
                        | SRight => lib_sum n (fun l => mul (entry_at zero B i l) (lib_sym hermi u A l j))
                        end)) (mul beta z)) (all_cells m n) c
    else Panic.

  (** ** GEMM *)
  (** the output c of the product wrappers, gemm.rs:124-139, syhemm.rs:126-140 *)
  Definition product_output (c : option (tensor T)) (m n : nat) : res (mutable T) :=
    match c with
    | Some c =>
      let* _ := check (extent (t_layout c) 0 =? m)%nat InvalidLayout in
      let* _ := check (extent (t_layout c) 1 =? n)%nat InvalidLayout in
      if f_prefer (t_layout c) then Ok (MutRef c) else let* b := contig_owned c ColMajor in Ok (ToBeCloned c b)
    | None => Ok (Owned (mkTensor (repeat zero (m * n)) (new_f_contig Fixed [m; n] 0)))
    end.
  (** GEMM_::internal_run, gemm.rs:93-151: the raw storages are passed without the offsets, and m as the leading extent of c *)
  Definition gemm_internal (a b : tensor T) (c : option (tensor T)) (alpha beta : T) (ta tb : ftrans) : res (mutable T) :=
    let la := t_layout a in
    let lb := t_layout b in
    let* _ := check (f_prefer la) Miscellaneous in
    let* _ := check (f_prefer lb) Miscellaneous in
    let* mk := match ta with NoTrans => Ok (extent la 0, extent la 1) | Trans | ConjTrans => Ok (extent la 1, extent la 0) | ConjOnly => Err InvalidValue end in
    let* n := match tb with NoTrans => Ok (extent lb 1) | Trans | ConjTrans => Ok (extent lb 0) | ConjOnly => Err InvalidValue end in
    let '(m, k) := mk in
    let* lda := unwrap_opt (ld_col la) in
    let* ldb := unwrap_opt (ld_col lb) in
    let* _ := match tb with NoTrans => check (extent lb 0 =? k)%nat InvalidLayout | Trans | ConjTrans => check (extent lb 1 =? k)%nat InvalidLayout | ConjOnly => Err InvalidValue end in
    let* x := product_output c m n in
    let* d := driver_gemm ta tb m n k alpha (t_data a) lda (t_data b) ldb beta (t_data (mview x)) (Z.of_nat m) in
    clone_to_mut (mwrite x d).
  (** GEMM_::run, gemm.rs:51-91 *)
  Definition gemm (a b : tensor T) (c : option (tensor T)) (alpha beta : T) (ta tb : ftrans) (o : option order) : res (mutable T) :=
    let out := get_output_order [option_map order_arg o; option_map (fun c => order_of (t_layout c)) c] [] dev in
    let* fa := flip_trans out ta a false in
    let* fb := flip_trans out tb b false in
    match out with
    | ColMajor => gemm_internal (snd fa) (snd fb) c alpha beta (fst fa) (fst fb)
    | RowMajor =>
      let* x := gemm_internal (transposed (snd fb)) (transposed (snd fa)) (option_map transposed c) alpha beta (fst fb) (fst fa) in
      Ok (mtransposed x)
    end.

  (** ** SYMM and HEMM *)
  (** SYHEMM_::internal_run, syhemm.rs:96-141: the second extent is taken from a *)
  Definition syhemm_internal (hermi : bool) (a b : tensor T) (c : option (tensor T)) (alpha beta : T) (s : side) (u : uplo) : res (mutable T) :=
    let la := t_layout a in
    let lb := t_layout b in
    let* _ := check (f_prefer la) Miscellaneous in
    let* _ := check (f_prefer lb) Miscellaneous in
    let m := extent lb 0 in
    let n := extent la 1 in
    let* lda := unwrap_opt (ld_col la) in
    let* ldb := unwrap_opt (ld_col lb) in
    let* _ := match s with SLeft => check (same_shape (l_shape la) [m; m]) InvalidLayout | SRight => check (same_shape (l_shape la) [n; n]) InvalidLayout end in
    let* x := product_output c m n in
    let* d := driver_syhemm hermi s u m n alpha (t_data a) lda (t_data b) ldb beta (t_data (mview x)) (Z.of_nat m) in
    clone_to_mut (mwrite x d).
  (** SYHEMM_::run, syhemm.rs:53-94 *)
  Definition syhemm (hermi : bool) (a b : tensor T) (c : option (tensor T)) (alpha beta : T) (s : side) (u : uplo) (o : option order) : res (mutable T) :=
    let out := get_output_order [option_map order_arg o; option_map (fun c => order_of (t_layout c)) c] [] dev in
    let u := if negb hermi && negb (prefers out (t_layout a)) then flip_uplo u else u in
    let* ca := change_contig Fixed dev a out in
    let* cb := change_contig Fixed dev b out in
    match out with
    | ColMajor => syhemm_internal hermi ca cb c alpha beta s u
    | RowMajor =>
      let* x := syhemm_internal hermi (transposed ca) (transposed cb) (option_map transposed c) alpha beta (flip_side s) (flip_uplo u) in
      Ok (mtransposed x)
    end.

  (** ** TRSM.  [trsm_lib s t m n alpha A B] is what the library returns for the triangular matrix [A] (rows; zeros outside the triangle, ones on a unit diagonal). *)
  Context (trsm_lib : side -> ftrans -> nat -> nat -> T -> list (list T) -> list (list T) -> nat -> nat -> T).
  (** cblas_?trsm(ColMajor, ...), cblas/blas3/trsm.rs *)
  Definition driver_trsm (s : side) (u : uplo) (t : ftrans) (unit : bool) (m n : nat) (alpha : T) (a : list T) (lda : Z) (b : list T) (ldb : Z) : res (list T) :=
    let ka := match s with SLeft => m | SRight => n end in
    match t with
    | ConjOnly => Panic
    | _ =>
      if at_least lda ka && at_least ldb m then
        let* A := read_window a 0 lda (triangle_only u unit) ka ka in
        let* B := read_window b 0 ldb everything m n in
        write_window 0 ldb (fun i j _ => trsm_lib s t m n alpha A B i j) (all_cells m n) b
      else Panic
    end.
  (** TRSM_::internal_run, trsm.rs:105-139 *)
  Definition trsm_internal (a : tensor T) (b : reference T) (alpha : T) (s : side) (u : uplo) (t : ftrans) (unit : bool) : res (mutable T) :=
    let la := t_layout a in
    let lb := t_layout (ref_of b) in
    let* _ := check (f_prefer la) Miscellaneous in
    let m := extent lb 0 in
    let n := extent lb 1 in
    let* lda := unwrap_opt (ld ColMajor la) in
    let* _ := match s with SLeft => check (same_shape (l_shape la) [m; m]) InvalidLayout | SRight => check (same_shape (l_shape la) [n; n]) InvalidLayout end in
    let* x := overwritable_convert_with_order b ColMajor in
    let* d := driver_trsm s u t unit m n alpha (t_data a) lda (t_data (mview x)) (Z.of_nat m) in
    clone_to_mut (mwrite x d).
  (** the default triangle, trsm.rs:54-57, potrf.rs:37-40, sysv.rs:56-59, ref_impl_blas.rs:19-22, 188-191 *)
  Definition default_uplo (u : option uplo) : uplo := match u with Some u => u | None => match dev with RowMajor => Lower | ColMajor => Upper end end.
  (** TRSM_::run, trsm.rs:50-103 *)
  Definition trsm (a : tensor T) (b : reference T) (alpha : T) (s : side) (u : option uplo) (t : ftrans) (unit : bool) (o : option order) : res (mutable T) :=
    let u := default_uplo u in
    let out := get_output_order [option_map order_arg o; Some (order_of (t_layout (ref_of b)))] [] dev in
    let* f := flip_trans out t a false in
    let u := if negb (ftrans_eqb (fst f) t) then flip_uplo u else u in
    match out with
    | ColMajor => trsm_internal (snd f) b alpha s u (fst f) unit
    | RowMajor =>
      let* x := trsm_internal (transposed (snd f)) (rtransposed b) alpha (flip_side s) (flip_uplo u) (fst f) unit in
      Ok (mtransposed x)
    end.
  (** ref_impl_solve_triangular_f, ref_impl_blas.rs:205-220 *)
  Definition solve_triangular (a : tensor T) (b : reference T) (u : option uplo) : res (mutable T) :=
    let* x := trsm a b one SLeft u NoTrans false None in clone_to_mut x.

  (** ** LAPACK.  The routines are functions of the matrices they are given (as rows; of a symmetric matrix only the triangle, with zeros elsewhere).
      [None]: info is not 0. *)
  Context (getrf_lib : nat -> nat -> list (list T) -> option ((nat -> nat -> T) * list Z)).
  Context (getri_lib : nat -> list (list T) -> list Z -> option (nat -> nat -> T)).
  Context (gesv_lib : nat -> nat -> list (list T) -> list (list T) -> option ((nat -> nat -> T) * list Z * (nat -> nat -> T))).
  Context (potrf_lib : uplo -> nat -> list (list T) -> option (nat -> nat -> T)).
  Context (sysv_lib : bool -> uplo -> nat -> nat -> list (list T) -> list (list T) -> option ((nat -> nat -> T) * list Z * (nat -> nat -> T))).
  (** the column-major calls; a leading extent that is too small is an error (info < 0) *)
  Definition getrf_col (m n : nat) (a : list T) (base lda : Z) : res (list T * list Z) :=
    let* _ := check (at_least lda m) Miscellaneous in
    let* A := read_window a base lda everything m n in
    match getrf_lib m n A with
    | None => Err Miscellaneous
    | Some (F, p) => let* a := write_window base lda (fun i j _ => F i j) (all_cells m n) a in Ok (a, p)
    end.
  Definition getri_col (n : nat) (a : list T) (base lda : Z) (p : list Z) : res (list T) :=
    let* _ := check (at_least lda n) Miscellaneous in
    let* A := read_window a base lda everything n n in
    match getri_lib n A p with
    | None => Err Miscellaneous
    | Some F => write_window base lda (fun i j _ => F i j) (all_cells n n) a
    end.
  Definition potrf_col (u : uplo) (n : nat) (a : list T) (base lda : Z) : res (list T) :=
    let* _ := check (at_least lda n) Miscellaneous in
    let* A := read_window a base lda (triangle_only u false) n n in
    match potrf_lib u n A with
    | None => Err Miscellaneous
    | Some F => write_window base lda (fun i j z => if in_triangle u i j then F i j else z) (all_cells n n) a
    end.
  Definition gesv_col (n nrhs : nat) (a : list T) (base lda : Z) (b : list T) (baseb ldb : Z) : res (list T * list Z * list T) :=
    let* _ := check (at_least lda n && at_least ldb n) Miscellaneous in
    let* A := read_window a base lda everything n n in
    let* B := read_window b baseb ldb everything n nrhs in
    match gesv_lib n nrhs A B with
    | None => Err Miscellaneous
    | Some (F, p, X) =>
      let* a := write_window base lda (fun i j _ => F i j) (all_cells n n) a in
      let* b := write_window baseb ldb (fun i j _ => X i j) (all_cells n nrhs) b in
      Ok (a, p, b)
    end.
  Definition sysv_col (hermi : bool) (u : uplo) (n nrhs : nat) (a : list T) (base lda : Z) (b : list T) (baseb ldb : Z) : res (list T * list Z * list T) :=
    let* _ := check (at_least lda n && at_least ldb n) Miscellaneous in
    let* A := read_window a base lda (triangle_only u false) n n in
    let* B := read_window b baseb ldb everything n nrhs in
    match sysv_lib hermi u n nrhs A B with
    | None => Err Miscellaneous
    | Some (F, p, X) =>
      let* a := write_window base lda (fun i j z => if in_triangle u i j then F i j else z) (all_cells n n) a in
      let* b := write_window baseb ldb (fun i j _ => X i j) (all_cells n nrhs) b in
      Ok (a, p, b)
    end.
  (** the transposed copies of the row-major drivers, e.g. lapack/solve/gesv.rs:36-50 and 66-67.  The slices from_raw_parts_mut(a, n * lda) are modelled as the
      storage itself with offset [base]. *)
  Definition row_layout (m n : nat) (base lda : Z) : layout := mkLayout [m; n] [lda; 1] base.
  Definition col_layout (m n : nat) : layout := mkLayout [m; n] [1; Z.of_nat (Nat.max m 1)] 0.
  Definition to_col (m n : nat) (a : list T) (base lda : Z) : res (list T) :=
    let* c := unwrap (orderchange_r2c (repeat None (m * n)) (col_layout m n) (map Some a) (row_layout m n base lda)) in assume_init c.
  Definition from_col (m n : nat) (a : list T) (base lda : Z) (c : list T) : res (list T) :=
    unwrap (orderchange_c2r a (row_layout m n base lda) c (col_layout m n)).
  Definition ld_t (m : nat) : Z := Z.of_nat (Nat.max m 1).
  (** driver_getrf, lapack/solve/getrf.rs:14-53 *)
  Definition driver_getrf (o : order) (m n : nat) (a : list T) (base lda : Z) : res (list T * list Z) :=
    match o with
    | ColMajor => getrf_col m n a base lda
    | RowMajor => let* c := to_col m n a base lda in
                  let* r := getrf_col m n c 0 (ld_t m) in
                  let* a := from_col m n a base lda (fst r) in Ok (a, snd r)
    end.
  (** driver_getri, lapack/solve/getri.rs:15-60 *)
  Definition driver_getri (o : order) (n : nat) (a : list T) (base lda : Z) (p : list Z) : res (list T) :=
    match o with
    | ColMajor => getri_col n a base lda p
    | RowMajor => let* c := to_col n n a base lda in let* c := getri_col n c 0 (ld_t n) p in from_col n n a base lda c
    end.
  (** driver_potrf, lapack/solve/potrf.rs:14-46 *)
  Definition driver_potrf (o : order) (u : uplo) (n : nat) (a : list T) (base lda : Z) : res (list T) :=
    match o with
    | ColMajor => potrf_col u n a base lda
    | RowMajor => let* c := to_col n n a base lda in let* c := potrf_col u n c 0 (ld_t n) in from_col n n a base lda c
    end.
  (** driver_gesv, lapack/solve/gesv.rs:14-72 *)
  Definition driver_gesv (o : order) (n nrhs : nat) (a : list T) (base lda : Z) (b : list T) (baseb ldb : Z) : res (list T * list Z * list T) :=
    match o with
    | ColMajor => gesv_col n nrhs a base lda b baseb ldb
    | RowMajor =>
      let* ca := to_col n n a base lda in
      let* cb := to_col n nrhs b baseb ldb in
      let* r := gesv_col n nrhs ca 0 (ld_t n) cb 0 (ld_t n) in
      let* a := from_col n n a base lda (fst (fst r)) in
      let* b := from_col n nrhs b baseb ldb (snd r) in
      Ok (a, snd (fst r), b)
    end.
  (** driver_sysv, lapack/solve/sysv.rs:15-117, 132-230 *)
  Definition driver_sysv (hermi : bool) (o : order) (u : uplo) (n nrhs : nat) (a : list T) (base lda : Z) (b : list T) (baseb ldb : Z) : res (list T * list Z * list T) :=
    match o with
    | ColMajor => sysv_col hermi u n nrhs a base lda b baseb ldb
    | RowMajor =>
      let* ca := to_col n n a base lda in
      let* cb := to_col n nrhs b baseb ldb in
      let* r := sysv_col hermi u n nrhs ca 0 (ld_t n) cb 0 (ld_t n) in
      let* a := from_col n n a base lda (fst (fst r)) in
      let* b := from_col n nrhs b baseb ldb (snd r) in
      Ok (a, snd (fst r), b)
    end.

  (** the order in which a converted operand is handed over, getrf.rs:38, getri.rs:34, gesv.rs:45, potrf.rs:42, sysv.rs:55 *)
  Definition working_order (l : layout) : order := if f_prefer l && negb (c_prefer l) then ColMajor else RowMajor.
  (** GETRF_::internal_run, getrf.rs:33-60.  (The n pivots are returned as a list: a contiguous tensor.) *)
  Definition getrf (r : reference T) : res (mutable T * list Z) :=
    let* a := overwritable_convert r in
    let l := t_layout (mview a) in
    let o := working_order l in
    let* lda := unwrap_opt (ld o l) in
    let* x := driver_getrf o (extent l 0) (extent l 1) (t_data (mview a)) (l_offset l) lda in
    let* a := clone_to_mut (mwrite a (fst x)) in
    Ok (a, map (fun p => p - 1) (snd x)).
  (** GETRI_::internal_run, getri.rs:29-57 *)
  Definition getri (r : reference T) (p : list Z) : res (mutable T) :=
    let* a := overwritable_convert r in
    let l := t_layout (mview a) in
    let o := working_order l in
    let* _ := check (extent l 0 =? extent l 1)%nat InvalidLayout in
    let* lda := unwrap_opt (ld o l) in
    let* d := driver_getri o (extent l 0) (t_data (mview a)) (l_offset l) lda (map (fun p => p + 1) p) in
    clone_to_mut (mwrite a d).
  (** POTRF_::internal_run, potrf.rs:33-62: the result is not cloned back here *)
  Definition potrf (r : reference T) (u : option uplo) : res (mutable T) :=
    let u := default_uplo u in
    let* a := overwritable_convert r in
    let l := t_layout (mview a) in
    let o := working_order l in
    let* _ := check (extent l 0 =? extent l 1)%nat InvalidLayout in
    let* lda := unwrap_opt (ld o l) in
    let* d := driver_potrf o u (extent l 0) (t_data (mview a)) (l_offset l) lda in
    Ok (mwrite a d).
  (** GESV_::internal_run, gesv.rs:37-72, and SYSV_::internal_run, sysv.rs:46-85, which differ in the driver and in the pivots *)
  Definition solve_with (driver : order -> nat -> nat -> list T -> Z -> Z -> list T -> Z -> Z -> res (list T * list Z * list T))
    (ra rb : reference T) : res (mutable T * list Z * mutable T) :=
    let* b := overwritable_convert rb in
    let lb := t_layout (mview b) in
    let o := working_order lb in
    let* a := overwritable_convert_with_order ra o in
    let la := t_layout (mview a) in
    let n := extent lb 0 in
    let nrhs := extent lb 1 in
    let* _ := check (same_shape (l_shape la) [n; n]) InvalidLayout in
    let* lda := unwrap_opt (ld o la) in
    let* ldb := unwrap_opt (ld o lb) in
    let* x := driver o n nrhs (t_data (mview a)) (l_offset la) lda (t_data (mview b)) (l_offset lb) ldb in
    let* a := clone_to_mut (mwrite a (fst (fst x))) in
    let* b := clone_to_mut (mwrite b (snd x)) in
    Ok (a, snd (fst x), b).
  Definition gesv (ra rb : reference T) : res (mutable T * list Z * mutable T) :=
    let* r := solve_with driver_gesv ra rb in Ok (fst (fst r), map (fun p => p - 1) (snd (fst r)), snd r).
  Definition sysv (hermi : bool) (ra rb : reference T) (u : option uplo) : res (mutable T * list Z * mutable T) :=
    solve_with (fun o => driver_sysv hermi o (default_uplo u)) ra rb.
  (** ref_impl_cholesky_f, ref_impl_blas.rs:9-30 (triu and tril unwrap) *)
  Definition cholesky (r : reference T) (u : option uplo) : res (mutable T) :=
    let u := default_uplo u in
    let* x := potrf r (Some u) in
    let* t := unwrap (match u with Upper => triu_mut zero (mview x) 0 | Lower => tril_mut zero (mview x) 0 end) in
    clone_to_mut (mwrite x (t_data t)).
  (** ref_impl_inv_f, ref_impl_blas.rs:89-102: GETRI works on a mutable view of the factorisation *)
  Definition inv (r : reference T) : res (mutable T) :=
    let* f := getrf r in
    let* x := getri (RMut (mview (fst f))) (snd f) in
    clone_to_mut (mwrite (fst f) (t_data (mview x))).
  (** ref_impl_solve_general_f, ref_impl_blas.rs:154-169 *)
  Definition solve_general (ra rb : reference T) : res (mutable T) :=
    let* r := gesv ra rb in clone_to_mut (snd r).
  (** ref_impl_solve_symmetric_f, ref_impl_blas.rs:175-199: a is passed as a view *)
  Definition solve_symmetric (hermi : bool) (ra rb : reference T) (u : option uplo) : res (mutable T) :=
    let* r := sysv hermi (Ref (ref_of ra)) rb (Some (default_uplo u)) in clone_to_mut (snd r).
End Blas.
