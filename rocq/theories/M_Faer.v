(** Model of linear algebra on the faer device: rstsr-core/src/device_faer/conversion.rs and rstsr-linalg-traits/src/faer_impl/{svd,svdvals,pinv,eigh,eigvalsh,
    cholesky,inv,det,solve_general,solve_triangular}.rs.  faer's routines are arbitrary functions of the matrices they are given and of the degree of parallelism;
    they may return a value, an error or panic.  The matrices they return lie in new memory by columns, with gaps between the columns (the row capacity).
    The dispatching implementations (which check the ranks and convert dimension types) are modelled for the functions of one tensor. *)
From Verif Require Import Base Spec Spec_Tri Spec_Blas M_Layout M_Indexer M_Broadcast M_Rearr M_Iter M_Kernel M_Tensor M_Reduce M_Matmul M_Fast M_Tri M_Blas M_Linalg.
Local Open Scope Z_scope.

(** ** matrices of faer: a pointer into a buffer, two extents, two strides *)
Record fmat (T : Type) := mkFmat { fm_data : list T; fm_ptr : Z; fm_rows : nat; fm_cols : nat; fm_rs : Z; fm_cs : Z }.
Arguments mkFmat {T}. Arguments fm_data {T}. Arguments fm_ptr {T}. Arguments fm_rows {T}. Arguments fm_cols {T}. Arguments fm_rs {T}. Arguments fm_cs {T}.
Definition fm_pos {T} (m : fmat T) (i j : nat) : Z := fm_ptr m + Z.of_nat i * fm_rs m + Z.of_nat j * fm_cs m.
(** transpose, transpose_mut *)
Definition fm_transpose {T} (m : fmat T) : fmat T := mkFmat (fm_data m) (fm_ptr m) (fm_cols m) (fm_rows m) (fm_cs m) (fm_rs m).
(** what a routine reads: everything, or the triangle [u] (the rest counts as [zero]).  Reading outside the buffer is [Panic] here, undefined behaviour there. *)
Definition fm_read_with {T} (cell : nat -> nat -> option T) (m : fmat T) : res (list (list T)) :=
  map_res (fun i => map_res (fun j => match cell i j with Some x => Ok x | None => zget (fm_data m) (fm_pos m i j) end) (seq 0 (fm_cols m))) (seq 0 (fm_rows m)).
Definition fm_read {T} (m : fmat T) : res (list (list T)) := fm_read_with (fun _ _ => None) m.
Definition fm_read_tri {T} (zero : T) (u : uplo) (m : fmat T) : res (list (list T)) := fm_read_with (fun i j => if in_triangle u i j then None else Some zero) m.
(** a routine that overwrites the matrix *)
Definition fm_write {T} (m : fmat T) (X : nat -> nat -> T) : res (fmat T) :=
  let* d := fold_res (fun d ij => zset d (fm_pos m (fst ij) (snd ij)) (X (fst ij) (snd ij))) (all_cells (fm_rows m) (fm_cols m)) (fm_data m) in
  Ok (mkFmat d (fm_ptr m) (fm_rows m) (fm_cols m) (fm_rs m) (fm_cs m)).

(** IntoFaer for TensorView and TensorViewMut, conversion.rs:10-39 *)
Definition into_faer {T} (t : tensor T) : fmat T :=
  let l := t_layout t in mkFmat (t_data t) (l_offset l) (extent l 0) (extent l 1) (nth 0 (l_stride l) 0) (nth 1 (l_stride l) 0).
(** Vec::from_raw_parts(ptr, n, n) on a pointer into a buffer (leaving the buffer is [Panic] here, undefined behaviour there) *)
Definition vec_at {T} (d : list T) (p n : Z) : res (list T) :=
  if (0 <=? p) && (0 <=? n) && (p + n <=? Z.of_nat (length d)) then Ok (firstn (Z.to_nat n) (skipn (Z.to_nat p) d)) else Panic.
(** IntoRSTSR for MatRef, Mat and MatMut, conversion.rs:41-80, 100-118 *)
Definition into_rstsr {T} (m : fmat T) : res (tensor T) :=
  let* l := unwrap (layout_new [fm_rows m; fm_cols m] [fm_rs m; fm_cs m] 0) in
  let* b := unwrap (bounds_index l) in
  let* d := vec_at (fm_data m) (fm_ptr m) (snd b) in Ok (mkTensor d l).
(** IntoRSTSR for ColRef, conversion.rs:82-98 *)
Definition col_into_rstsr {T} (d : list T) (ptr : Z) (n : nat) (stride : Z) : res (tensor T) :=
  let* l := unwrap (layout_new [n] [stride] 0) in
  let* b := unwrap (bounds_index l) in
  let* d := vec_at d ptr (snd b) in Ok (mkTensor d l).

(** ** devices and faer's global degree of parallelism *)
(** DeviceFaer: get_num_threads and default_order, feature_rayon/device.rs:41-45, 107-113 *)
Record device := mkDevice { d_threads : nat; d_order : order }.
Definition order_eqb (a b : order) : bool := match a, b with RowMajor, RowMajor | ColMajor, ColMajor => true | _, _ => false end.
(** same_device, device_faer/device.rs:47-51 *)
Definition same_device (a b : device) : bool := (d_threads a =? d_threads b)%nat && order_eqb (d_order a) (d_order b).
(** a tensor and the device it was made for *)
Record placed (X : Type) := mkPlaced { p_tensor : tensor X; p_device : device }.
Arguments mkPlaced {X}. Arguments p_tensor {X}. Arguments p_device {X}.
Inductive par := ParSeq | ParRayon (n : nat).
(** a computation that may read and set the global degree; one that ends early leaves it as it is at that point *)
Definition globally (X : Type) := par -> res X * par.
Definition gret {X} (x : X) : globally X := fun g => (Ok x, g).
Definition gbind {X Y} (m : globally X) (f : X -> globally Y) : globally Y :=
  fun g => match m g with (Ok x, g') => f x g' | (Err e, g') => (Err e, g') | (Panic, g') => (Panic, g') end.
Notation "'let+' x ':=' m 'in' f" := (gbind m (fun x => f)) (at level 61, x pattern, m at next level, f at level 200, right associativity).
Definition glift {X} (r : res X) : globally X := fun g => (r, g).
Definition gget : globally par := fun g => (Ok g, g).
Definition gset (p : par) : globally unit := fun _ => (Ok tt, p).
(** the first and the last lines of every function, e.g. svd.rs:14-20, 42-45.  [pool]: the number of threads of the device's pool, [None] on a thread of rayon's
    (get_current_pool, feature_rayon/device.rs:122-128) *)
Definition enter (pool : option nat) : globally par :=
  let+ orig := gget in
  match pool with Some n => let+ _ := gset (ParRayon n) in gret orig | None => gret orig end.
Definition leave (pool : option nat) (orig : par) : globally unit := match pool with Some _ => gset orig | None => gret tt end.
(** .map_err(|e| rstsr_error!(FaerError, ...)); a routine without a Result *)
Definition faer_err {X} (r : res X) : res X := match r with Err _ => Err FaerError | r => r end.
Definition or_panic {X} (r : option X) : res X := match r with Some x => Ok x | None => Panic end.
Definition gcall {X} (f : par -> res X) : globally X := fun g => (f g, g).

Section Faer.
  (** [T]: the scalars, [R]: their real type; [rp] and [emb]: the real part, a real number as a scalar *)
  Context {T R : Type} (zero one : T) (conj : T -> T) (rp : T -> R) (emb : R -> T).
  (** [dflt]: the compile-time default order; [cores]: rayon::current_num_threads(); DeviceFaer::default() *)
  Context (dflt : order) (cores : nat).
  Definition default_device : device := mkDevice cores dflt.
  (** a new matrix of faer's: [cap] is the row capacity, [pad] what lies in the gaps *)
  Context (cap : nat -> nat) (pad : nat -> T).
  Definition fm_new (m n : nat) (X : nat -> nat -> T) : fmat T :=
    mkFmat (map (fun p => if (p mod cap m <? m)%nat then X (p mod cap m)%nat (p / cap m)%nat else pad p) (seq 0 (cap m * n))) 0 m n 1 (Z.of_nat (cap m)).
  (** a diagonal's column vector *)
  Definition column (n : nat) (s : nat -> T) : res (tensor T) := col_into_rstsr (map s (seq 0 n)) 0 n 1.
  Definition listed (m n : nat) (F : nat -> nat -> T) : list (list T) := map (fun i => map (F i) (seq 0 n)) (seq 0 m).
  Definition half (u : uplo) (F : nat -> nat -> T) (i j : nat) : T := if in_triangle u i j then F i j else zero.
  (** into_contig of a tensor made by into_rstsr, which is on the default device *)
  Definition settle {X} (t : tensor X) (o : order) : res (tensor X) := unwrap (contig_owned dflt dflt t o).
  (** uplo.unwrap_or(...), e.g. eigh.rs:26-29 *)
  Definition side_of (d : device) (u : option uplo) : uplo := match u with Some u => u | None => match d_order d with RowMajor => Lower | ColMajor => Upper end end.

  (** ** singular values.  [svd_lib g full m n A]: U, S, V with A = U S V^H *)
  Context (svd_lib : par -> bool -> nat -> nat -> list (list T) -> res ((nat -> nat -> T) * (nat -> T) * (nat -> nat -> T))).
  Context (svdvals_lib : par -> nat -> nat -> list (list T) -> res (list R)).
  (** faer_impl_svd_f, svd.rs:7-48 *)
  Definition faer_svd (pool : option nat) (a : placed T) (full : bool) : globally (placed T * placed R * placed T) :=
    let d := p_device a in
    let+ orig := enter pool in
    let fa := into_faer (p_tensor a) in
    let m := fm_rows fa in
    let n := fm_cols fa in
    let k := Nat.min m n in
    let+ A := glift (fm_read fa) in
    let+ x := gcall (fun g => faer_err (svd_lib g full m n A)) in
    let '(U, sv, V) := x in
    let+ r := glift (
      let* u := into_rstsr (fm_new m (if full then m else k) U) in
      let* u := into_owned Fixed dflt u in
      let* s := column k sv in
      let* v := into_rstsr (fm_new n (if full then n else k) V) in
      let* u := settle u (d_order d) in
      let* s := unwrap (map_f Fixed dflt rp s) in
      let* s := settle s (d_order d) in
      let* vt := settle (transposed v) (d_order d) in
      Ok (mkPlaced u default_device, mkPlaced s default_device, mkPlaced vt default_device)) in
    let+ _ := leave pool orig in gret r.
  (** svd_f of (tensor, full_matrices), svd.rs:64-75 *)
  Definition faer_svd_f (pool : option nat) (a : placed T) (full : bool) : globally (placed T * placed R * placed T) :=
    let+ _ := glift (check (length (t_shape (p_tensor a)) =? 2)%nat InvalidLayout) in faer_svd pool a full.
  (** faer_impl_svdvals_f, svdvals.rs:7-34; asarray of a Vec and a device; svdvals_f, :49-55 *)
  Definition faer_svdvals (pool : option nat) (a : placed T) : globally (placed R) :=
    let+ _ := glift (check (length (t_shape (p_tensor a)) =? 2)%nat InvalidLayout) in
    let+ orig := enter pool in
    let fa := into_faer (p_tensor a) in
    let+ A := glift (fm_read fa) in
    let+ s := gcall (fun g => faer_err (svdvals_lib g (fm_rows fa) (fm_cols fa) A)) in
    let r := mkPlaced (mkTensor s (new_contig Fixed [length s] 0 (d_order (p_device a)))) (p_device a) in
    let+ _ := leave pool orig in gret r.

  (** ** the pseudo-inverse *)
  Context (add mul : T -> T -> T) (eqb : T -> T -> bool) (div : T -> R -> T) (radd rmul : R -> R -> R) (rzero : R) (rcmp : R -> R -> option comparison) (rgt : R -> R -> bool) (of_nat : nat -> R) (eps : R).
  (** the schedule of the matrix product, M_Fast.v *)
  Context (tree : split_tree) (tri : list (nat * nat) -> list (nat * nat)) (sched : list (list Z) -> list (list Z)) (junk : nat -> T).
  (** iter().max_by(|a, b| a.partial_cmp(b).unwrap()).unwrap(), pinv.rs:47: the last of the greatest *)
  Definition max_by (l : list R) : res R :=
    match l with
    | [] => Panic
    | x :: r => fold_res (fun a b => match rcmp a b with Some Gt => Ok a | Some _ => Ok b | None => Panic end) r x
    end.
  (** faer_impl_pinv_f, pinv.rs:8-62.  u, s and v are on the default device. *)
  Definition faer_pinv (pool : option nat) (a : placed T) (atol rtol : option R) : globally (placed T * nat) :=
    let+ orig := enter pool in
    let fa := into_faer (p_tensor a) in
    let m := fm_rows fa in
    let n := fm_cols fa in
    let k := Nat.min m n in
    let atol := match atol with Some x => x | None => rzero end in
    let rtol := match rtol with Some x => x | None => rmul (of_nat (Nat.max m n)) eps end in
    let+ A := glift (fm_read fa) in
    let+ x := gcall (fun g => faer_err (svd_lib g false m n A)) in
    let '(U, sv, V) := x in
    let+ r := glift (
      let* u := into_rstsr (fm_new m k U) in
      let* u := into_owned Fixed dflt u in
      let* s := column k sv in
      let* v := into_rstsr (fm_new n k V) in
      let* s := unwrap (map_f Fixed dflt rp s) in
      let* maxs := max_by (t_data s) in
      let val := radd atol (rmul rtol maxs) in
      let rank := length (take_while (fun x => rgt x val) (t_data s)) in
      let* lu := unwrap (dim_slice (t_layout u) [full_slice; upto rank]) in
      let* ls := unwrap (dim_slice (t_layout s) [IInsert; upto rank]) in
      let* u := unwrap (op_muta_refb_func Fixed dflt div (mkTensor (t_data u) lu) (mkTensor (t_data s) ls)) in
      let* lv := unwrap (dim_slice (t_layout v) [full_slice; upto rank]) in
      let* c := unwrap (map_f Fixed dflt conj u) in
      let* p := unwrap (op_matmul_on zero (device_faer zero one add mul eqb dflt tree tri sched false) Fixed dflt junk (mkTensor (t_data v) lv) (transposed c) one) in
      Ok (mkPlaced p default_device, rank)) in
    let+ _ := leave pool orig in gret r.
  (** pinv_f, pinv.rs:78-86, 100-108 *)
  Definition faer_pinv_f (pool : option nat) (a : placed T) (tols : option (R * R)) : globally (placed T * nat) :=
    let+ _ := glift (check (length (t_shape (p_tensor a)) =? 2)%nat InvalidLayout) in
    match tols with Some (x, y) => faer_pinv pool a (Some x) (Some y) | None => faer_pinv pool a None None end.

  (** ** eigenvalues *)
  Context (eigen_lib : par -> uplo -> nat -> nat -> list (list T) -> res ((nat -> T) * (nat -> nat -> T))) (eigvals_lib : par -> uplo -> nat -> nat -> list (list T) -> res (list R)).
  Context (llt_lib : par -> uplo -> nat -> nat -> list (list T) -> res (nat -> nat -> T)).
  (** faer::linalg::triangular_solve::solve_{lower,upper}_triangular_in_place on the listed matrices ([None]: it panics) *)
  Context (tri_lib : par -> uplo -> nat -> nat -> list (list T) -> nat -> nat -> list (list T) -> option (nat -> nat -> T)).
  (** faer_impl_standard_eigh_f, eigh.rs:8-51, and eigh_f of one tensor *)
  Definition faer_eigh (pool : option nat) (a : placed T) (u : option uplo) : globally (placed R * placed T) :=
    let+ _ := glift (check (length (t_shape (p_tensor a)) =? 2)%nat InvalidLayout) in
    let d := p_device a in
    let+ orig := enter pool in
    let u := side_of d u in
    let fa := into_faer (p_tensor a) in
    let+ A := glift (fm_read_tri zero u fa) in
    let+ x := gcall (fun g => faer_err (eigen_lib g u (fm_rows fa) (fm_cols fa) A)) in
    let '(sv, V) := x in
    let+ r := glift (
      let* s := column (fm_rows fa) sv in
      let* s := unwrap (map_f Fixed dflt rp s) in
      let* v := into_rstsr (fm_new (fm_rows fa) (fm_rows fa) V) in
      let* v := settle v (d_order d) in
      Ok (mkPlaced s default_device, mkPlaced v default_device)) in
    let+ _ := leave pool orig in gret r.
  (** faer_impl_eigvalsh_f, eigvalsh.rs:7-46, and eigvalsh_f *)
  Definition faer_eigvalsh (pool : option nat) (a : placed T) (u : option uplo) : globally (placed R) :=
    let+ _ := glift (check (length (t_shape (p_tensor a)) =? 2)%nat InvalidLayout) in
    let+ orig := enter pool in
    let u := side_of (p_device a) u in
    let fa := into_faer (p_tensor a) in
    let+ A := glift (fm_read_tri zero u fa) in
    let+ s := gcall (fun g => faer_err (eigvals_lib g u (fm_rows fa) (fm_cols fa) A)) in
    let r := mkPlaced (mkTensor s (new_contig Fixed [length s] 0 (d_order (p_device a)))) (p_device a) in
    let+ _ := leave pool orig in gret r.
  (** the loops that make a Hermitian, eigh.rs:92-112: source and destination of each assignment *)
  Definition mirrored (u : uplo) (n : nat) : list ((nat * nat) * (nat * nat)) :=
    flat_map (fun i => map (fun j => ((i, j), (j, i))) (match u with Lower => seq 0 i | Upper => seq (S i) (n - S i) end) ++ [((i, i), (i, i))]) (seq 0 n).
  Definition mirror_step (l : layout) (d : list T) (s : (nat * nat) * (nat * nat)) : res (list T) :=
    let '((i, j), (i', j')) := s in
    let* x := zget d (index_uncheck l [i; j]) in
    zset d (index_uncheck l [i'; j']) (if (i =? j)%nat then emb (rp x) else conj x).
  (** solve_*_triangular_in_place(l, b, par) on a matrix in memory *)
  Definition tri_in_place (g : par) (u : uplo) (n : nat) (L : nat -> nat -> T) (b : fmat T) : res (fmat T) :=
    let* B := fm_read b in
    let* X := or_panic (tri_lib g u n n (listed n n (half u L)) (fm_rows b) (fm_cols b) B) in
    fm_write b X.
  Definition adjoint (F : nat -> nat -> T) (i j : nat) : T := conj (F j i).
  (** eigenvalues of a matrix in memory, eigh.rs:129-132 *)
  Definition eigen_of (u : uplo) (n : nat) (a : fmat T) : globally ((nat -> T) * (nat -> nat -> T)) :=
    let+ A := glift (fm_read_tri zero u a) in gcall (fun g => faer_err (eigen_lib g u n n A)).
  (** faer_impl_generalized_eigh_f, eigh.rs:53-181.  [gp] is faer_par. *)
  Definition faer_eigh_general (pool : option nat) (a b : placed T) (u : option uplo) (itype : Z) : globally (placed R * placed T) :=
    let d := p_device a in
    let+ _ := glift (check (same_device d (p_device b)) DeviceMismatch) in
    let+ _ := glift (check ((1 <=? itype) && (itype <=? 3)) InvalidValue) in
    let n := extent (t_layout (p_tensor a)) 0 in
    let+ _ := glift (check (n =? extent (t_layout (p_tensor a)) 1)%nat InvalidLayout) in
    let+ orig := enter pool in
    let gp := match pool with Some n => ParRayon n | None => ParSeq end in
    let u := side_of d u in
    let+ ao := glift (into_owned Fixed dflt (p_tensor a)) in
    let+ ad := glift (fold_res (mirror_step (t_layout ao)) (mirrored u n) (t_data ao)) in
    let ao := into_faer (mkTensor ad (t_layout ao)) in
    let fb := into_faer (p_tensor b) in
    let+ B := glift (fm_read_tri zero u fb) in
    let+ L := gcall (fun g => faer_err (llt_lib g u (fm_rows fb) (fm_cols fb) B)) in
    let nb := fm_rows fb in
    let+ r :=
      if itype =? 1 then
        let+ c := glift (
          let* x := tri_in_place gp Lower nb L ao in
          let* x := tri_in_place gp Lower nb (fun i j => conj (L i j)) (fm_transpose x) in
          Ok (fm_transpose x)) in
        let+ e := eigen_of u n c in
        glift (
          let* s := column n (fst e) in
          let* s := unwrap (map_f Fixed dflt rp s) in
          let* v := tri_in_place gp Upper nb (adjoint L) (fm_new n n (snd e)) in
          let* v := into_rstsr v in
          let* v := settle v (d_order d) in Ok (s, v))
      else
        let+ c := glift (
          let* li := tri_in_place gp Lower nb L (fm_new n n (fun i j => if (i =? j)%nat then one else zero)) in
          let* li := fm_read li in
          let l_inv := fun i j => nth j (nth i li []) zero in
          let* x := tri_in_place gp Upper n (adjoint l_inv) ao in
          let* x := tri_in_place gp Upper n (fun i j => l_inv j i) (fm_transpose x) in
          Ok (fm_transpose x, l_inv)) in
        let+ e := eigen_of u n (fst c) in
        glift (
          let* s := column n (fst e) in
          let* s := unwrap (map_f Fixed dflt rp s) in
          let* v := if itype =? 2 then tri_in_place gp Upper nb (adjoint L) (fm_new n n (snd e)) else tri_in_place gp Lower n (snd c) (fm_new n n (snd e)) in
          let* v := into_rstsr v in
          let* v := settle v (d_order d) in Ok (s, v)) in
    let+ _ := leave pool orig in gret (mkPlaced (fst r) default_device, mkPlaced (snd r) default_device).

  (** ** factorisations and linear systems *)
  (** faer_impl_cholesky_f, cholesky.rs:7-48, and cholesky_f *)
  Definition faer_cholesky (pool : option nat) (a : placed T) (u : option uplo) : globally (placed T) :=
    let+ _ := glift (check (length (t_shape (p_tensor a)) =? 2)%nat InvalidLayout) in
    let d := p_device a in
    let+ orig := enter pool in
    let u := side_of d u in
    let fa := into_faer (p_tensor a) in
    let+ A := glift (fm_read_tri zero u fa) in
    let+ L := gcall (fun g => faer_err (llt_lib g u (fm_rows fa) (fm_cols fa) A)) in
    let n := fm_rows fa in
    let+ r := glift (
      let* t := into_rstsr (match u with Lower => fm_new n n L | Upper => fm_new n n (adjoint L) end) in
      let* t := settle t (d_order d) in Ok (mkPlaced t default_device)) in
    let+ _ := leave pool orig in gret r.
  (** Svd::inverse and Svd::solve_in_place of the full decomposition ([None]: they panic) *)
  Context (inverse_lib : par -> nat -> nat -> (nat -> nat -> T) * (nat -> T) * (nat -> nat -> T) -> option (nat -> nat -> T)).
  Context (solve_lib : par -> nat -> nat -> (nat -> nat -> T) * (nat -> T) * (nat -> nat -> T) -> nat -> nat -> list (list T) -> option (nat -> nat -> T)).
  Context (det_lib : par -> nat -> nat -> list (list T) -> option T).
  (** faer_impl_inv_f, inv.rs:8-35, and inv_f *)
  Definition faer_inv (pool : option nat) (a : placed T) : globally (placed T) :=
    let+ _ := glift (check (length (t_shape (p_tensor a)) =? 2)%nat InvalidLayout) in
    let d := p_device a in
    let+ orig := enter pool in
    let fa := into_faer (p_tensor a) in
    let+ A := glift (fm_read fa) in
    let+ x := gcall (fun g => faer_err (svd_lib g true (fm_rows fa) (fm_cols fa) A)) in
    let+ X := gcall (fun g => or_panic (inverse_lib g (fm_rows fa) (fm_cols fa) x)) in
    let+ r := glift (
      let* t := into_rstsr (fm_new (fm_rows fa) (fm_rows fa) X) in
      let* t := settle t (d_order d) in Ok (mkPlaced t default_device)) in
    let+ _ := leave pool orig in gret r.
  (** faer_impl_det_f, det.rs:7-31, and det_f *)
  Definition faer_det (pool : option nat) (a : placed T) : globally T :=
    let+ _ := glift (check (length (t_shape (p_tensor a)) =? 2)%nat InvalidLayout) in
    let+ orig := enter pool in
    let fa := into_faer (p_tensor a) in
    let+ A := glift (fm_read fa) in
    let+ r := gcall (fun g => or_panic (det_lib g (fm_rows fa) (fm_cols fa) A)) in
    let+ _ := leave pool orig in gret r.
  (** faer_impl_solve_general_f, solve_general.rs:8-42.  [d] is the device of b. *)
  Definition faer_solve_general (pool : option nat) (d : device) (a : tensor T) (b : reference T) : globally (mutable T) :=
    let+ orig := enter pool in
    let fa := into_faer a in
    let+ A := glift (fm_read fa) in
    let+ x := gcall (fun g => faer_err (svd_lib g true (fm_rows fa) (fm_cols fa) A)) in
    let+ b := glift (overwritable_convert (d_order d) dflt b) in
    let fb := into_faer (mview b) in
    let+ B := glift (fm_read fb) in
    let+ X := gcall (fun g => or_panic (solve_lib g (fm_rows fa) (fm_cols fa) x (fm_rows fb) (fm_cols fb) B)) in
    let+ fb := glift (fm_write fb X) in
    let+ _ := leave pool orig in
    glift (clone_to_mut (d_order d) (mwrite b (fm_data fb))).
  (** faer_impl_solve_triangular_f, solve_triangular.rs:8-36: the degree of parallelism is passed, the global one is not used *)
  Definition faer_solve_triangular (pool : option nat) (da d : device) (a : tensor T) (b : reference T) (u : option uplo) : res (mutable T) :=
    let gp := match pool with Some n => ParRayon n | None => ParSeq end in
    let u := side_of da u in
    let fa := into_faer a in
    let* b := overwritable_convert (d_order d) dflt b in
    let fb := into_faer (mview b) in
    let* A := fm_read_tri zero u fa in
    let* B := fm_read fb in
    let* X := or_panic (tri_lib gp u (fm_rows fa) (fm_cols fa) A (fm_rows fb) (fm_cols fb) B) in
    let* fb := fm_write fb X in
    clone_to_mut (d_order d) (mwrite b (fm_data fb)).
End Faer.
