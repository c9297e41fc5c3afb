(** Model of the singular value, eigenvalue, determinant and pseudo-inverse functions: rstsr-linalg-traits/src/ref_impl_blas.rs and
    src/blas_impl/{svd,svdvals,eigh,eigvalsh,det,slogdet,pinv}.rs, rstsr-blas-traits/src/lapack_svd/{gesdd,gesvd}.rs and lapack_eigh/{syev,syevd,sygv,sygvd}.rs with the
    drivers driver_impl/lapack/{svd,eigh}.  LAPACK's routines are arbitrary functions of the matrices they are given.  Workspace queries, thread counts and
    the array superb of GESVD are not modelled. *)
From Coq Require Import String.
From Verif Require Import Base Spec Spec_Tri Spec_Blas M_Layout M_Indexer M_Broadcast M_Rearr M_Iter M_Kernel M_Tensor M_Reduce M_Matmul M_Fast M_Tri M_Blas.
Local Open Scope Z_scope.

(** jobz of the SVD routines: no vectors, the first min(m, n) of them, all *)
Inductive job := JobN | JobS | JobA.

Section Linalg.
  (** [T]: the scalars, [R]: their real type *)
  Context {T R : Type} (zero one : T).
  Context (dev dflt : order).
  (** a new contiguous vector *)
  Definition vector (n : nat) (s : nat -> R) : tensor R := mkTensor (map s (seq 0 n)) (new_contig Fixed [n] 0 dev).

  (** ** singular values.  [svd_lib j m n A] is what the library computes: the rest of A, s, U, Vt; [None]: info is not 0. *)
  Definition svd_routine := job -> nat -> nat -> list (list T) -> option ((nat -> nat -> T) * (nat -> R) * (nat -> nat -> T) * (nat -> nat -> T)).
  Context (gesdd_lib gesvd_lib : svd_routine).
  (** the extents of u and vt, gesdd.rs:63-68, gesvd.rs:62-67, and of their transposed copies, lapack/svd/gesdd.rs:92-107, gesvd.rs:89-104 *)
  Definition u_extents (j : job) (m n : nat) : nat * nat := match j with JobN => (1, 1) | JobS => (m, Nat.min m n) | JobA => (m, m) end%nat.
  Definition vt_extents (j : job) (m n : nat) : nat * nat := match j with JobN => (1, 1) | JobS => (Nat.min m n, n) | JobA => (n, n) end%nat.
  Definition is_n (j : job) : bool := match j with JobN => true | _ => false end.
  (** a matrix of the library's in new memory *)
  Definition put_col (m n : nat) (X : nat -> nat -> T) (u : list (option T)) (ldu : Z) : res (list (option T)) :=
    write_window 0 ldu (fun i j _ => Some (X i j)) (all_cells m n) u.
  (** the column-major call; without vectors u and vt are not referenced *)
  Definition svd_col (lib : svd_routine) (j : job) (m n : nat) (a : list T) (base lda : Z) (u : list (option T)) (ldu : Z) (vt : list (option T)) (ldvt : Z) :
    res (list T * (nat -> R) * list (option T) * list (option T)) :=
    let eu := u_extents j m n in
    let ev := vt_extents j m n in
    let* _ := check (at_least lda m && at_least ldu (fst eu) && at_least ldvt (fst ev)) Miscellaneous in
    let* A := read_window a base lda everything m n in
    match lib j m n A with
    | None => Err Miscellaneous
    | Some (F, s, U, V) =>
      let* a := write_window base lda (fun i j _ => F i j) (all_cells m n) a in
      if is_n j then Ok (a, s, u, vt) else
      let* u := put_col (fst eu) (snd eu) U u ldu in
      let* vt := put_col (fst ev) (snd ev) V vt ldvt in
      Ok (a, s, u, vt)
    end.
  (** orderchange_out_c2r_ix2_cpu_serial(u_slice, &lu, &u_t, &lu_t).unwrap(), lapack/svd/gesdd.rs:161-175 *)
  Definition back_c2r {X} (m n : nat) (a : list X) (base lda : Z) (c : list X) : res (list X) :=
    unwrap (orderchange_c2r a (row_layout m n base lda) c (col_layout m n)).
  (** orderchange_out_r2c_ix2_cpu_serial(u_slice, &lu, &u_t, &lu_t).unwrap(), lapack/svd/gesvd.rs:154-168, 319-333 *)
  Definition back_r2c {X} (m n : nat) (a : list X) (base lda : Z) (c : list X) : res (list X) :=
    unwrap (orderchange_r2c a (row_layout m n base lda) c (col_layout m n)).
  (** driver_gesdd, lapack/svd/gesdd.rs:14-179, 187-363, and driver_gesvd, lapack/svd/gesvd.rs:14-179: they differ in the way back *)
  Definition driver_svd (back : forall X : Type, nat -> nat -> list X -> Z -> Z -> list X -> res (list X)) (lib : svd_routine)
    (o : order) (j : job) (m n : nat) (a : list T) (base lda : Z) (u : list (option T)) (ldu : Z) (vt : list (option T)) (ldvt : Z) :
    res (list T * (nat -> R) * list (option T) * list (option T)) :=
    match o with
    | ColMajor => svd_col lib j m n a base lda u ldu vt ldvt
    | RowMajor =>
      let eu := u_extents j m n in
      let ev := match j with JobN => (1, n) | _ => vt_extents j m n end%nat in
      let* c := to_col m n a base lda in
      let* r := svd_col lib j m n c 0 (ld_t m) (uninit T (Z.of_nat (fst eu * snd eu))) (ld_t (fst eu)) (uninit T (Z.of_nat (fst ev * snd ev))) (ld_t (fst ev)) in
      let '(c, s, ut, vtt) := r in
      let* a := back T m n a base lda c in
      if is_n j then Ok (a, s, u, vt) else
      let* u := back (option T) (fst eu) (snd eu) u 0 ldu ut in
      let* vt := back (option T) (fst ev) (snd ev) vt 0 ldvt vtt in
      Ok (a, s, u, vt)
    end.
  Definition driver_gesdd := driver_svd (@back_c2r) gesdd_lib.
  Definition driver_gesvd := driver_svd (@back_r2c) gesvd_lib.
  (** GESDD_::internal_run, gesdd.rs:44-107, and GESVD_::internal_run, gesvd.rs:44-110 from the choice of the order on.  [superb]: gesvd.rs:80 computes
      min(m, n) - 1 in usize (a panic with overflow checks).  The elements of u and vt that were not written are undefined there, [Panic] here; without vectors they are dropped. *)
  Definition svd_run (driver : order -> job -> nat -> nat -> list T -> Z -> Z -> list (option T) -> Z -> list (option T) -> Z ->
      res (list T * (nat -> R) * list (option T) * list (option T))) (superb : bool) (o : order) (r : reference T) (full uv : bool) :
    res (tensor R * option (tensor T) * option (tensor T)) :=
    let* a := overwritable_convert_with_order dev dflt r o in
    let la := t_layout (mview a) in
    let m := extent la 0 in
    let n := extent la 1 in
    let* lda := unwrap_opt (ld o la) in
    let j := if uv then (if full then JobA else JobS) else JobN in
    let eu := u_extents j m n in
    let ev := vt_extents j m n in
    let lu := new_contig Fixed [fst eu; snd eu] 0 o in
    let lv := new_contig Fixed [fst ev; snd ev] 0 o in
    let* _ := if superb && (Nat.min m n =? 0)%nat then Panic else Ok tt in
    let* ldu := unwrap_opt (ld o lu) in
    let* ldvt := unwrap_opt (ld o lv) in
    let* x := driver o j m n (t_data (mview a)) (l_offset la) lda (uninit T (Z.of_nat (fst eu * snd eu))) ldu (uninit T (Z.of_nat (fst ev * snd ev))) ldvt in
    let '(_, s, u, vt) := x in
    if uv then
      let* u := assume_init u in
      let* vt := assume_init vt in
      Ok (vector (Nat.min m n) s, Some (mkTensor u lu), Some (mkTensor vt lv))
    else Ok (vector (Nat.min m n) s, None, None).
  (** the order of the working copy, gesdd.rs:49-53 *)
  Definition gesdd (r : reference T) (full uv : bool) :=
    let l := t_layout (ref_of r) in
    svd_run driver_gesdd false (match c_prefer l, f_prefer l with true, false => RowMajor | false, true => ColMajor | _, _ => dev end) r full uv.
  (** gesvd.rs:51-55 *)
  Definition gesvd (r : reference T) (full uv : bool) :=
    let l := t_layout (ref_of r) in
    svd_run driver_gesvd true (match c_prefer l, f_prefer l with true, false => ColMajor | false, true => RowMajor | _, _ => dev end) r full uv.
  (** ref_impl_svd_simple_f, ref_impl_blas.rs:259-290 *)
  Definition svd_simple (r : reference T) (full : option bool) (driver : option string) : res (option (tensor T) * tensor R * option (tensor T)) :=
    let '(fm, uv) := match full with Some true => (true, true) | Some false => (false, true) | None => (false, false) end in
    let driver := match driver with Some d => d | None => "gesdd"%string end in
    let view := Ref (ref_of r) in
    let* x := if (driver =? "gesvd")%string then gesvd view fm uv
              else if (driver =? "gesdd")%string then gesdd view fm uv
              else Err InvalidValue in
    let '(s, u, vt) := x in Ok (u, s, vt).
  (** svd_f of (tensor, full_matrices), blas_impl/svd.rs:17-28; svd.rs:60-63 without the flag: full matrices *)
  Definition svd (t : tensor T) (full : bool) : res (tensor T * tensor R * tensor T) :=
    let* _ := check (length (t_shape t) =? 2)%nat InvalidLayout in
    let* x := svd_simple (Ref t) (Some full) None in
    let '(u, s, vt) := x in
    let* u := unwrap_opt u in
    let* vt := unwrap_opt vt in
    Ok (u, s, vt).
  (** svd_f of SVDArgs_, svd.rs:83-96 *)
  Definition svd_args (r : reference T) (full : option bool) (driver : option string) : res (tensor T * tensor R * tensor T) :=
    let* _ := check (match full with Some _ => true | None => false end) InvalidValue in
    let* x := svd_simple r full driver in
    let '(u, s, vt) := x in
    let* u := unwrap_opt u in
    let* vt := unwrap_opt vt in
    Ok (u, s, vt).
  (** svdvals_f, blas_impl/svdvals.rs:17-25, and of SVDArgs_, :57-67 *)
  Definition svdvals (t : tensor T) : res (tensor R) :=
    let* _ := check (length (t_shape t) =? 2)%nat InvalidLayout in
    let* x := svd_simple (Ref t) None None in Ok (snd (fst x)).
  Definition svdvals_args (r : reference T) (full : option bool) (driver : option string) : res (tensor R) :=
    let* _ := check (match full with Some _ => false | None => true end) InvalidValue in
    let* x := svd_simple r full driver in Ok (snd (fst x)).

  (** ** eigenvalues of symmetric and Hermitian matrices.  The library gets the triangle (zeros elsewhere).  With jobz = 'V' the matrix is replaced by the
      eigenvectors, otherwise its triangle is destroyed; b's triangle is replaced by its factorisation. *)
  Definition ev_routine := bool -> uplo -> nat -> list (list T) -> option ((nat -> R) * (nat -> nat -> T)).
  Definition gv_routine := Z -> bool -> uplo -> nat -> list (list T) -> list (list T) -> option ((nat -> R) * (nat -> nat -> T) * (nat -> nat -> T)).
  Context (syev_lib syevd_lib : ev_routine) (sygv_lib sygvd_lib : gv_routine).
  Definition ev_col (lib : ev_routine) (vectors : bool) (u : uplo) (n : nat) (a : list T) (base lda : Z) : res (list T * (nat -> R)) :=
    let* _ := check (at_least lda n) Miscellaneous in
    let* A := read_window a base lda (triangle_only zero one u false) n n in
    match lib vectors u n A with
    | None => Err Miscellaneous
    | Some (w, F) => let* a := write_window base lda (fun i j z => if vectors || in_triangle u i j then F i j else z) (all_cells n n) a in Ok (a, w)
    end.
  (** driver_syev, lapack/eigh/syev.rs:14-91, 99-188; driver_syevd, lapack/eigh/syevd.rs *)
  Definition driver_ev (lib : ev_routine) (o : order) (vectors : bool) (u : uplo) (n : nat) (a : list T) (base lda : Z) : res (list T * (nat -> R)) :=
    match o with
    | ColMajor => ev_col lib vectors u n a base lda
    | RowMajor =>
      let* c := to_col n n a base lda in
      let* r := ev_col lib vectors u n c 0 (ld_t n) in
      let* a := from_col n n a base lda (fst r) in Ok (a, snd r)
    end.
  (** SYEV_::internal_run, syev.rs:40-67, SYEVD_::internal_run, syevd.rs:40-67 *)
  Definition ev_run (lib : ev_routine) (r : reference T) (vectors : bool) (u : option uplo) : res (tensor R * mutable T) :=
    let u := default_uplo dev u in
    let* a := overwritable_convert dev dflt r in
    let l := t_layout (mview a) in
    let o := working_order l in
    let* _ := check (extent l 0 =? extent l 1)%nat InvalidLayout in
    let* lda := unwrap_opt (ld o l) in
    let* x := driver_ev lib o vectors u (extent l 0) (t_data (mview a)) (l_offset l) lda in
    let* a := clone_to_mut dev (mwrite a (fst x)) in
    Ok (vector (extent l 0) (snd x), a).
  (** ?sygv, ?hegv and their divide-and-conquer versions; itype outside 1..3 is an error *)
  Definition gv_col (lib : gv_routine) (itype : Z) (vectors : bool) (u : uplo) (n : nat) (a : list T) (base lda : Z) (b : list T) (baseb ldb : Z) : res (list T * list T * (nat -> R)) :=
    let* _ := check (at_least lda n && at_least ldb n && (1 <=? itype) && (itype <=? 3)) InvalidLayout in
    let* A := read_window a base lda (triangle_only zero one u false) n n in
    let* B := read_window b baseb ldb (triangle_only zero one u false) n n in
    match lib itype vectors u n A B with
    | None => Err InvalidLayout
    | Some (w, F, G) =>
      let* a := write_window base lda (fun i j z => if vectors || in_triangle u i j then F i j else z) (all_cells n n) a in
      let* b := write_window baseb ldb (fun i j z => if in_triangle u i j then G i j else z) (all_cells n n) b in
      Ok (a, b, w)
    end.
  (** driver_sygv, lapack/eigh/sygv.rs:14-123, 131-245; driver_sygvd, lapack/eigh/sygvd.rs *)
  Definition driver_gv (lib : gv_routine) (o : order) (itype : Z) (vectors : bool) (u : uplo) (n : nat) (a : list T) (base lda : Z) (b : list T) (baseb ldb : Z) :
    res (list T * list T * (nat -> R)) :=
    match o with
    | ColMajor => gv_col lib itype vectors u n a base lda b baseb ldb
    | RowMajor =>
      let* ca := to_col n n a base lda in
      let* cb := to_col n n b baseb ldb in
      let* r := gv_col lib itype vectors u n ca 0 (ld_t n) cb 0 (ld_t n) in
      let* a := from_col n n a base lda (fst (fst r)) in
      let* b := from_col n n b baseb ldb (snd (fst r)) in
      Ok (a, b, snd r)
    end.
  (** SYGV_::internal_run, sygv.rs:47-76, SYGVD_::internal_run, sygvd.rs:47-76.  (A mutable b is left overwritten, if it lies along the order of a.) *)
  Definition gv_run (lib : gv_routine) (ra rb : reference T) (itype : Z) (vectors : bool) (u : option uplo) : res (tensor R * mutable T) :=
    let u := default_uplo dev u in
    let o := working_order (t_layout (ref_of ra)) in
    let* a := overwritable_convert_with_order dev dflt ra o in
    let* b := overwritable_convert_with_order dev dflt rb o in
    let la := t_layout (mview a) in
    let lb := t_layout (mview b) in
    let n := extent la 0 in
    let* _ := check (same_shape (l_shape la) [n; n]) InvalidLayout in
    let* _ := check (same_shape (l_shape lb) [n; n]) InvalidLayout in
    let* lda := unwrap_opt (ld o la) in
    let* ldb := unwrap_opt (ld o lb) in
    let* x := driver_gv lib o itype vectors u n (t_data (mview a)) (l_offset la) lda (t_data (mview b)) (l_offset lb) ldb in
    let* a := clone_to_mut dev (mwrite a (fst (fst x))) in
    Ok (vector n (snd x), a).
  (** EighArgs_, traits_def.rs:98-122 *)
  Record eigh_args := mkEigh { e_a : reference T; e_b : option (reference T); e_uplo : option uplo; e_vals_only : bool; e_type : Z;
    e_by_index : option (nat * nat); e_by_value : option (R * R); e_driver : option string }.
  (** ref_impl_eigh_simple_f, ref_impl_blas.rs:36-86: the subset arguments are not used *)
  Definition eigh_simple (g : eigh_args) : res (tensor R * option (mutable T)) :=
    let vectors := negb (e_vals_only g) in
    let* x :=
      match e_b g with
      | Some b =>
        let driver := match e_driver g with Some d => d | None => "gvd"%string end in
        if (driver =? "gv")%string then gv_run sygv_lib (e_a g) b (e_type g) vectors (e_uplo g)
        else if (driver =? "gvd")%string then gv_run sygvd_lib (e_a g) b (e_type g) vectors (e_uplo g)
        else Err InvalidValue
      | None =>
        let driver := match e_driver g with Some d => d | None => "evd"%string end in
        if (driver =? "ev")%string then ev_run syev_lib (e_a g) vectors (e_uplo g)
        else if (driver =? "evd")%string then ev_run syevd_lib (e_a g) vectors (e_uplo g)
        else Err InvalidValue
      end in
    if e_vals_only g then Ok (fst x, None) else let* v := clone_to_mut dev (snd x) in Ok (fst x, Some v).
  Definition simple_args (r : reference T) (u : option uplo) (only : bool) : eigh_args := mkEigh r None u only 1 None None None.
  (** eigh_f of views and of mutable tensors, blas_impl/eigh.rs:21-33, 70-81 (the default triangle, :48-54, 96-102, is the one of the drivers): the eigenvectors
      are a new tensor, or the tensor that was passed *)
  Definition eigh (r : reference T) (u : option uplo) : res (tensor R * mutable T) :=
    let* _ := check (length (t_shape (ref_of r)) =? 2)%nat InvalidLayout in
    let* x := eigh_simple (simple_args r u false) in
    let* v := unwrap_opt (snd x) in
    let* v := clone_to_mut dev v in Ok (fst x, v).
  (** eigvalsh_f, blas_impl/eigvalsh.rs:21-30 and 58-67 *)
  Definition eigvalsh (r : reference T) (u : option uplo) : res (tensor R) :=
    let* _ := check (length (t_shape (ref_of r)) =? 2)%nat InvalidLayout in
    let* x := eigh_simple (simple_args r u true) in Ok (fst x).
  (** eigh_f of two tensors, blas_impl/eigh.rs:121-136 *)
  Definition eigh_general (a b : tensor T) (u : option uplo) (itype : Z) : res (tensor R * mutable T) :=
    let* _ := check (length (t_shape a) =? 2)%nat InvalidLayout in
    let* _ := check (length (t_shape b) =? 2)%nat InvalidLayout in
    let* _ := check ((1 <=? itype) && (itype <=? 3)) InvalidLayout in
    let* x := eigh_simple (mkEigh (Ref a) (Some (Ref b)) u false itype None None None) in
    let* v := unwrap_opt (snd x) in Ok (fst x, v).
  (** eigh_f of EighArgs_, blas_impl/eigh.rs:208-213 *)
  Definition eigh_of_args (g : eigh_args) : res (tensor R * mutable T) :=
    let* _ := check (negb (e_vals_only g)) InvalidValue in
    let* x := eigh_simple g in
    let* v := unwrap_opt (snd x) in Ok (fst x, v).

  (** ** determinants *)
  Context (getrf_lib : nat -> nat -> list (list T) -> option ((nat -> nat -> T) * list Z)).
  Context (mul : T -> T -> T) (opp sgn : T -> T) (abs : T -> R) (radd rmul : R -> R -> R) (rzero : R) (log exp : R -> R) (scale : T -> R -> T).
  (** ref_impl_slogdet_f, ref_impl_blas.rs:226-252.  The pivots are n entries, getrf.rs:45 *)
  Definition slogdet (r : reference T) : res (T * R) :=
    let* x := getrf dev dflt getrf_lib r in
    let piv := snd x in
    let changes := length (filter (fun ip => negb (Z.of_nat (fst ip) =? snd ip)) (combine (seq 0 (length piv)) piv)) in
    let a := mview (fst x) in
    let* ld := unwrap (diagonal (t_layout a) None None None) in
    let diag := mkTensor (t_data a) ld in
    let* diag_abs := unwrap (map_f Fixed dflt abs diag) in
    let* diag_sgn := unwrap (map_f Fixed dflt sgn diag) in
    let* acc_sgn := unwrap (reduce_all one mul mul (fun x => x) Fixed (t_data diag_sgn) (t_layout diag_sgn)) in
    let acc_sgn := if Nat.even changes then acc_sgn else opp acc_sgn in
    let* logs := unwrap (map_f Fixed dflt log diag_abs) in
    let* acc_abs := unwrap (reduce_all rzero radd radd (fun x => x) Fixed (t_data logs) (t_layout logs)) in
    Ok (acc_sgn, acc_abs).
  (** slogdet_f, det_f: blas_impl/slogdet.rs:17-24, det.rs:17-24 *)
  Definition slogdet_f (r : reference T) : res (T * R) :=
    let* _ := check (length (t_shape (ref_of r)) =? 2)%nat InvalidLayout in slogdet r.
  Definition det_f (r : reference T) : res T :=
    let* _ := check (length (t_shape (ref_of r)) =? 2)%nat InvalidLayout in
    let* x := slogdet r in Ok (scale (fst x) (exp (snd x))).

  (** ** the pseudo-inverse *)
  Context (add : T -> T -> T) (conj : T -> T) (div : T -> R -> T) (rgt : R -> R -> bool) (rmax : R -> R -> R) (rlow : R) (of_nat : nat -> R) (eps : R).
  Fixpoint take_while {X} (p : X -> bool) (l : list X) : list X := match l with x :: r => if p x then x :: take_while p r else [] | [] => [] end.
  Definition upto (n : nat) : indexer := ISlice (mkSlice None (Some (Z.of_nat n)) None).
  (** TensorMutable::into_owned, tensor_mutable.rs:68-74 *)
  Definition owned_of (x : mutable T) : res (tensor T) := match x with Owned t => Ok t | MutRef t => into_owned Fixed dflt t | ToBeCloned _ t => Ok t end.
  (** ref_impl_pinv_f, ref_impl_blas.rs:108-148.  [s.max_all()] starts from the least value [rlow].  [x > val] is [rgt x val]; [T /= Real] is [div]. *)
  Definition pinv (t : tensor T) (atol rtol : option R) : res (tensor T * nat) :=
    let m := extent (t_layout t) 0 in
    let n := extent (t_layout t) 1 in
    let atol := match atol with Some x => x | None => rzero end in
    let rtol := match rtol with Some x => x | None => rmul (of_nat (Nat.max m n)) eps end in
    let* x := gesdd (Ref t) false true in
    match x with
    | (s, Some u, Some vt) =>
      let* maxs := unwrap (reduce_all rlow rmax rmax (fun x => x) Fixed (t_data s) (t_layout s)) in
      let val := radd atol (rmul rtol maxs) in
      let rank := length (take_while (fun x => rgt x val) (t_data s)) in
      let* lu := unwrap (dim_slice (t_layout u) [full_slice; upto rank]) in
      let* ls := unwrap (dim_slice (t_layout s) [IInsert; upto rank]) in
      let* u := unwrap (op_muta_refb_func Fixed dev div (mkTensor (t_data u) lu) (mkTensor (t_data s) ls)) in
      let* lv := unwrap (dim_slice (t_layout vt) [upto rank; full_slice]) in
      let* p := gemm zero add mul conj dev dflt (transposed (mkTensor (t_data vt) lv)) (transposed u) None one zero NoTrans NoTrans (Some dev) in
      let* p := owned_of p in
      let* p := unwrap (map_f Fixed dflt conj p) in
      Ok (p, rank)
    | _ => Panic
    end.
  (** pinv_f, blas_impl/pinv.rs:18-25, 40-47 *)
  Definition pinv_f (t : tensor T) (tols : option (R * R)) : res (tensor T * nat) :=
    let* _ := check (length (t_shape t) =? 2)%nat InvalidLayout in
    match tols with Some (a, r) => pinv t (Some a) (Some r) | None => pinv t None None end.
End Linalg.
