(** The functions solve_general, solve_symmetric and solve_triangular with a vector or a matrix as right-hand side:
    rstsr-linalg-traits/src/blas_impl/{solve_general,solve_symmetric,solve_triangular}.rs, on top of the functions on matrices of M_Blas.v. *)
From Verif Require Import Base Spec Spec_Tri Spec_Blas M_Layout M_Indexer M_Rearr M_Tensor M_Blas M_Mesh.
Local Open Scope Z_scope.

Section Solve.
  Context {T : Type} (zero one : T) (dev dflt : order).
  (** a.ndim() == 2 and b.ndim() in 1..=2, solve_general.rs:26-27, solve_symmetric.rs:25-26 and the same lines of the other impls *)
  Definition solve_ranks (ra : reference T) (b : tensor T) : res unit :=
    let* _ := check (length (t_shape (ref_of ra)) =? 2)%nat InvalidLayout in
    check ((1 <=? length (t_shape b)) && (length (t_shape b) <=? 2))%nat InvalidLayout.
  Definition is_vec (b : tensor T) : bool := (length (t_shape b) =? 1)%nat.
  (** b.i((.., None)) and b.i_mut((.., None)) of a vector, which unwrap; a matrix is passed as it is *)
  Definition as_column (b : tensor T) : res (tensor T) :=
    if is_vec b then let* l := unwrap (dim_slice (t_layout b) [full_slice; IInsert]) in Ok (mkTensor (t_data b) l) else Ok b.
  (** TensorMutable::into_owned, tensor_mutable.rs:68-74 *)
  Definition into_owned_of (x : mutable T) : res (tensor T) := match x with Owned t => Ok t | MutRef t => into_owned Fixed dflt t | ToBeCloned _ t => Ok t end.
  (** right-hand side passed as a view, solve_symmetric.rs:23-41, 88-106: a new tensor is returned *)
  Definition solve_view (core : reference T -> res (mutable T)) (ra : reference T) (b : tensor T) : res (tensor T) :=
    let* _ := solve_ranks ra b in
    let* m := as_column b in
    let* y := core (Ref m) in
    let* t := into_owned_of y in
    if is_vec b then unwrap (into_shape dev t [-1]) else Ok t.
  (** right-hand side passed as an owned tensor or a mutable view, solve_symmetric.rs:58-73, 124-139: [b] is returned, its storage having been
      written through the mutable view of it *)
  Definition solve_mut (core : reference T -> res (mutable T)) (ra : reference T) (b : tensor T) : res (tensor T) :=
    let* _ := solve_ranks ra b in
    let* m := as_column b in
    let* y := core (RMut m) in
    let* y := clone_to_mut dev y in
    Ok (mkTensor (t_data (match y with ToBeCloned t _ => t | y => mview y end)) (t_layout b)).
  Context (gesv_lib : nat -> nat -> list (list T) -> list (list T) -> option ((nat -> nat -> T) * list Z * (nat -> nat -> T))).
  Context (sysv_lib : bool -> uplo -> nat -> nat -> list (list T) -> list (list T) -> option ((nat -> nat -> T) * list Z * (nat -> nat -> T))).
  (** solve_general_f, blas_impl/solve_general.rs *)
  Definition solve_general_view (ra : reference T) : tensor T -> res (tensor T) := solve_view (solve_general dev dflt gesv_lib ra) ra.
  Definition solve_general_mut (ra : reference T) : tensor T -> res (tensor T) := solve_mut (solve_general dev dflt gesv_lib ra) ra.
  (** solve_symmetric_f of (a, b, hermi, uplo), blas_impl/solve_symmetric.rs:8-140 *)
  Definition solve_symmetric_view (hermi : bool) (ra : reference T) (u : option uplo) : tensor T -> res (tensor T) :=
    solve_view (fun rb => solve_symmetric zero one dev dflt sysv_lib hermi ra rb u) ra.
  Definition solve_symmetric_mut (hermi : bool) (ra : reference T) (u : option uplo) : tensor T -> res (tensor T) :=
    solve_mut (fun rb => solve_symmetric zero one dev dflt sysv_lib hermi ra rb u) ra.
  (** solve_triangular_f of (a, b, uplo), blas_impl/solve_triangular.rs; a is used as a view *)
  Context (conj : T -> T) (trsm_lib : side -> ftrans -> nat -> nat -> T -> list (list T) -> list (list T) -> nat -> nat -> T).
  Definition solve_triangular_view (a : tensor T) (u : option uplo) : tensor T -> res (tensor T) :=
    solve_view (fun rb => solve_triangular zero one conj dev dflt trsm_lib a rb u) (Ref a).
  Definition solve_triangular_mut (a : tensor T) (u : option uplo) : tensor T -> res (tensor T) :=
    solve_mut (fun rb => solve_triangular zero one conj dev dflt trsm_lib a rb u) (Ref a).
End Solve.
