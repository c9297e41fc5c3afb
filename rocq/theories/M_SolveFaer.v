(** solve_triangular and solve_general of the faer device with a vector or a matrix as right-hand side: rstsr-linalg-traits/src/faer_impl/solve_triangular.rs:39-183
    and solve_general.rs:43-167, on top of the functions on matrices of M_Faer.v.  The wrapper is that of the BLAS devices (M_Solve.v). *)
From Verif Require Import Base Spec Spec_Tri Spec_Blas M_Layout M_Rearr M_Tensor M_Mesh M_Blas M_Faer M_Solve.
Local Open Scope Z_scope.

Section SolveFaer.
  Context {T : Type} (zero : T) (dflt : order) (tri_lib : par -> uplo -> nat -> nat -> list (list T) -> nat -> nat -> list (list T) -> option (nat -> nat -> T)).
  (** solve_triangular_f of (a, b, uplo), :53-69, 116-132; [d] is the device of b *)
  Definition faer_triangular_view (pool : option nat) (da d : device) (a : tensor T) (u : option uplo) : tensor T -> res (tensor T) :=
    solve_view (d_order d) dflt (fun rb => faer_solve_triangular zero dflt tri_lib pool da d a rb u) (Ref a).
  (** :86-99, 149-162 *)
  Definition faer_triangular_mut (pool : option nat) (da d : device) (a : tensor T) (u : option uplo) : tensor T -> res (tensor T) :=
    solve_mut (d_order d) (fun rb => faer_solve_triangular zero dflt tri_lib pool da d a rb u) (Ref a).
  Context (svd_lib : par -> bool -> nat -> nat -> list (list T) -> res ((nat -> nat -> T) * (nat -> T) * (nat -> nat -> T))).
  Context (solve_lib : par -> nat -> nat -> (nat -> nat -> T) * (nat -> T) * (nat -> nat -> T) -> nat -> nat -> list (list T) -> option (nat -> nat -> T)).
  (** solve_general_f of (a, b), solve_general.rs:57-73, 120-136: the steps of [solve_view], which do not touch the global degree of parallelism, around the call *)
  Definition faer_general_view (pool : option nat) (d : device) (a b : tensor T) : globally (tensor T) :=
    let+ _ := glift (solve_ranks (Ref a) b) in
    let+ m := glift (as_column b) in
    let+ y := faer_solve_general dflt svd_lib solve_lib pool d a (Ref m) in
    let+ t := glift (into_owned_of dflt y) in
    glift (if is_vec b then unwrap (into_shape (d_order d) t [-1]) else Ok t).
  (** :90-103, 153-166 *)
  Definition faer_general_mut (pool : option nat) (d : device) (a b : tensor T) : globally (tensor T) :=
    let+ _ := glift (solve_ranks (Ref a) b) in
    let+ m := glift (as_column b) in
    let+ y := faer_solve_general dflt svd_lib solve_lib pool d a (RMut m) in
    let+ y := glift (clone_to_mut (d_order d) y) in
    gret (mkTensor (t_data (match y with ToBeCloned t _ => t | y => mview y end)) (t_layout b)).
End SolveFaer.
