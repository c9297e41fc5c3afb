(** Property theorems about linear systems with a vector or a matrix as right-hand side on the faer device (C89, C90).  Statements use Spec.v, Spec_Blas.v, Spec_BlasApi.v, Spec_Linalg.v, Spec_Faer.v, Spec_Tri.v and M_SolveFaer.v only. *)
From Coq Require Import QArith Qcanon.
From Verif Require Import Base Spec Spec_Tri Spec_Blas M_Layout M_Tensor M_Blas Spec_BlasApi Spec_Linalg Spec_Faer M_Faer M_SolveFaer P_Tensor P_Strides P_Faer8 Q_SolveFaer Q_Faer Properties_Faer.
Local Open Scope Z_scope.

(** the lower triangle [[2]; [1; 4]] and the vector (6, 11) with a gap *)
Definition sf_a : tensor Qc := mkTensor [fx_q 2; fx_q 99; fx_q 1; fx_q 4] (mkLayout [2; 2]%nat [2; 1] 0).
Definition sf_b : tensor Qc := mkTensor [fx_q 6; fx_q 9; fx_q 11] (mkLayout [2]%nat [2] 0).
(** the vector (6, 12), and its solution (4, 3) for the matrix [[0; 2]; [3; 0]] *)
Definition sf_c : tensor Qc := mkTensor [fx_q 9; fx_q 12; fx_q 9; fx_q 6] (mkLayout [2]%nat [-2] 3).
Definition sf_solve (_ : par) (_ _ : nat) (_ : (nat -> nat -> Qc) * (nat -> Qc) * (nat -> nat -> Qc)) (_ _ : nat) (_ : list (list Qc)) : option (nat -> nat -> Qc) := Some (fx_matrix 4 4 3 3).
Definition sf_lib := substitution (fx_q 0) Qcplus Qcmult Qcminus Qcinv.

(** C89: solve_triangular with a vector b of any layout and a nonzero diagonal returns the solution of the system with the chosen triangle of a as a new vector; a vector passed by value or as a mutable view, with gaps or without, holds it afterwards, and nothing else of its storage changes. *)
Theorem C89_solve_triangular_vector : forall (T : Type) (zero one : T) add mul dflt tri_lib pool da d (a b : tensor T) u n A f, solves_triangles zero one add mul tri_lib -> is_matrix a n n A -> n <> 0%nat -> is_vector b n f ->
  (forall i, (i < n)%nat -> A i i <> zero) ->
  (exists y x, faer_triangular_view zero dflt tri_lib pool da d a u b = Ok y /\ is_vector y n x /\ solves zero add mul SLeft n 1 (triangular zero one (chosen (d_order da) u) false A) (fun i _ => x i) (fun i _ => f i)) /\
  (~ In 0 (l_stride (t_layout b)) -> exists y x, faer_triangular_mut zero dflt tri_lib pool da d a u b = Ok y /\ t_layout y = t_layout b /\ untouched_outside (t_layout b) (t_data b) (t_data y) /\ is_vector y n x /\
    solves zero add mul SLeft n 1 (triangular zero one (chosen (d_order da) u) false A) (fun i _ => x i) (fun i _ => f i)).
Proof. exact l_faer_triangular_vector. Qed.
Example C89_solve_triangular_vector_example : solves_triangles (fx_q 0) (fx_q 1) Qcplus Qcmult sf_lib /\ is_matrix sf_a 2 2 (fx_matrix 2 99 1 4) /\ is_vector sf_b 2 (fun i => fx_matrix 6 6 11 11 i 0) /\ ~ In 0 (l_stride (t_layout sf_b)) /\
  bind (faer_triangular_mut (fx_q 0) RowMajor sf_lib (Some 3%nat) fx_d fx_d sf_a (Some Lower) sf_b) (fun y => Ok (map this (t_data y))) = Ok [3; 9; 2]%Q /\
  bind (faer_triangular_view (fx_q 0) RowMajor sf_lib (Some 3%nat) fx_d fx_d sf_a (Some Lower) sf_b) (fun y => Ok (map this (t_data y))) = Ok [3; 2]%Q.
Proof. split; [exact (substitution_ok (fx_q 0) (fx_q 1) Qcplus Qcmult Qcminus Qcopp Qcrt Qcinv fx_inverse)|]. split; [unfold sf_a; fm|]. split; [split; [unfold sf_b; concrete_tensor|split; [reflexivity|]; intros [|[|i]] H; try lia; reflexivity]|]. split; [cbn; lia|]. split; vm_compute; reflexivity. Qed.
Print Assumptions C89_solve_triangular_vector.

(** C89: solve_general with a vector b of any layout: what faer's decomposition and solution give for the one column b is returned as a new vector, or written into b if b is passed by value or as a mutable view, with nothing else of its storage changed; it solves the system if faer is right, and errors and panics of faer's go through. *)
Theorem C89_solve_general_vector : forall (T : Type) (zero : T) add mul dflt svd_lib solve_lib pool d (a b : tensor T) n A f g, is_matrix a n n A -> n <> 0%nat -> is_vector b n f ->
  (forall x X, svd_lib (active pool g) true n n (rows n n A) = Ok x -> solve_lib (active pool g) n n x n 1%nat (rows n 1 (fun i _ => f i)) = Some X -> solves zero add mul SLeft n 1 A X (fun i _ => f i)) ->
  let found := let* x := svd_lib (active pool g) true n n (rows n n A) in or_panic (solve_lib (active pool g) n n x n 1%nat (rows n 1 (fun i _ => f i))) in
  outcome found pool g (faer_general_view dflt svd_lib solve_lib pool d a b) (fun _ y => exists x, is_vector y n x /\ solves zero add mul SLeft n 1 A (fun i _ => x i) (fun i _ => f i)) /\
  (~ In 0 (l_stride (t_layout b)) -> outcome found pool g (faer_general_mut dflt svd_lib solve_lib pool d a b)
    (fun _ y => t_layout y = t_layout b /\ untouched_outside (t_layout b) (t_data b) (t_data y) /\ exists x, is_vector y n x /\ solves zero add mul SLeft n 1 A (fun i _ => x i) (fun i _ => f i))).
Proof. exact l_faer_general_vector. Qed.
Example C89_solve_general_vector_example : is_matrix fx_qt 2 2 (fx_matrix 0 2 3 0) /\ is_vector sf_c 2 (fun i => fx_matrix 6 6 12 12 i 0) /\ ~ In 0 (l_stride (t_layout sf_c)) /\
  solves (fx_q 0) Qcplus Qcmult SLeft 2 1 (fx_matrix 0 2 3 0) (fx_matrix 4 4 3 3) (fun i _ => fx_matrix 6 6 12 12 i 0) /\
  bind (fst (faer_general_mut RowMajor fx_qsvd sf_solve (Some 3%nat) fx_d fx_qt sf_c ParSeq)) (fun y => Ok (map this (t_data y))) = Ok [9; 3; 9; 4]%Q /\
  bind (fst (faer_general_view RowMajor fx_qsvd sf_solve (Some 3%nat) fx_d fx_qt sf_c ParSeq)) (fun y => Ok (map this (t_data y))) = Ok [4; 3]%Q.
Proof. split; [unfold fx_qt; fm|]. split; [split; [unfold sf_c; concrete_tensor|split; [reflexivity|]; intros [|[|i]] H; try lia; reflexivity]|]. split; [cbn; lia|]. split; [intros [|[|i]] [|[|j]] Hi Hj; try lia; apply Qc_is_canon; vm_compute; reflexivity|]. split; vm_compute; reflexivity. Qed.
Print Assumptions C89_solve_general_vector.

(** C89: solve_triangular as called, with a matrix b of any layout: a new matrix with the solution is returned, or b itself holds it if b is passed by value or as a mutable view. *)
Theorem C89_solve_triangular_matrix : forall (T : Type) (zero one : T) add mul dflt tri_lib pool da d (a b : tensor T) u n p A B, solves_triangles zero one add mul tri_lib -> is_matrix a n n A -> nonempty n p -> is_matrix b n p B ->
  (forall i, (i < n)%nat -> A i i <> zero) ->
  (exists y X, faer_triangular_view zero dflt tri_lib pool da d a u b = Ok y /\ is_matrix y n p X /\ solves zero add mul SLeft n p (triangular zero one (chosen (d_order da) u) false A) X B) /\
  (overwritable (t_layout b) -> exists y X, faer_triangular_mut zero dflt tri_lib pool da d a u b = Ok y /\ t_layout y = t_layout b /\ untouched_outside (t_layout b) (t_data b) (t_data y) /\ is_matrix y n p X /\
    solves zero add mul SLeft n p (triangular zero one (chosen (d_order da) u) false A) X B).
Proof. exact l_faer_triangular_matrix. Qed.
Example C89_solve_triangular_matrix_example : is_matrix sf_a 2 2 (fx_matrix 2 99 1 4) /\ overwritable (t_layout sf_a) /\
  bind (faer_triangular_mut (fx_q 0) RowMajor sf_lib (Some 3%nat) fx_d fx_d sf_a None (mkTensor [fx_q 6; fx_q 9; fx_q 11] (mkLayout [2; 1]%nat [2; 1] 0))) (fun y => Ok (map this (t_data y))) = Ok [3; 9; 2]%Q.
Proof. split; [unfold sf_a; fm|]. split; [left; reflexivity|]. vm_compute. reflexivity. Qed.
Print Assumptions C89_solve_triangular_matrix.

(** C89: the same of solve_general. *)
Theorem C89_solve_general_matrix : forall (T : Type) (zero : T) add mul dflt svd_lib solve_lib pool d (a b : tensor T) n p A B g, is_matrix a n n A -> nonempty n p -> is_matrix b n p B ->
  (forall x X, svd_lib (active pool g) true n n (rows n n A) = Ok x -> solve_lib (active pool g) n n x n p (rows n p B) = Some X -> solves zero add mul SLeft n p A X B) ->
  let found := let* x := svd_lib (active pool g) true n n (rows n n A) in or_panic (solve_lib (active pool g) n n x n p (rows n p B)) in
  outcome found pool g (faer_general_view dflt svd_lib solve_lib pool d a b) (fun _ y => exists X, is_matrix y n p X /\ solves zero add mul SLeft n p A X B) /\
  (overwritable (t_layout b) -> outcome found pool g (faer_general_mut dflt svd_lib solve_lib pool d a b)
    (fun _ y => t_layout y = t_layout b /\ untouched_outside (t_layout b) (t_data b) (t_data y) /\ exists X, is_matrix y n p X /\ solves zero add mul SLeft n p A X B)).
Proof. exact l_faer_general_matrix. Qed.
Example C89_solve_general_matrix_example : bind (fst (faer_general_mut RowMajor fx_qsvd sf_solve (Some 3%nat) fx_d fx_qt (mkTensor [fx_q 12; fx_q 9; fx_q 6] (mkLayout [2; 1]%nat [-2; 1] 2)) ParSeq)) (fun y => Ok (map this (t_data y))) = Ok [3; 9; 4]%Q.
Proof. vm_compute. reflexivity. Qed.
Print Assumptions C89_solve_general_matrix.

(** C89: anything but a matrix a, and a vector or a matrix b, is an error, and the degree of parallelism is not touched. *)
Theorem C89_solve_ranks : forall (T : Type) (zero : T) dflt tri_lib svd_lib solve_lib pool da d (a b : tensor T) u g, ~ (length (t_shape a) = 2%nat /\ (length (t_shape b) = 1%nat \/ length (t_shape b) = 2%nat)) ->
  faer_triangular_view zero dflt tri_lib pool da d a u b = Err InvalidLayout /\ faer_triangular_mut zero dflt tri_lib pool da d a u b = Err InvalidLayout /\
  faer_general_view dflt svd_lib solve_lib pool d a b g = (Err InvalidLayout, g) /\ faer_general_mut dflt svd_lib solve_lib pool d a b g = (Err InvalidLayout, g).
Proof. exact l_faer_solve_ranks. Qed.
Example C89_solve_ranks_example : ~ (length (t_shape sf_b) = 2%nat /\ (length (t_shape sf_b) = 1%nat \/ length (t_shape sf_b) = 2%nat)). Proof. cbn. lia. Qed.
Print Assumptions C89_solve_ranks.

(** C90: solve_general as called, with a vector or a matrix, leaves the process-wide degree of parallelism as it found it if it succeeds. *)
Theorem C90_solve_restores : forall (T : Type) dflt svd_lib solve_lib pool d (a b : tensor T), restores (faer_general_view dflt svd_lib solve_lib pool d a b) /\ restores (faer_general_mut dflt svd_lib solve_lib pool d a b).
Proof. exact l_faer_general_restores. Qed.
Example C90_solve_restores_example : snd (faer_general_view RowMajor fx_qsvd sf_solve (Some 3%nat) fx_d fx_qt sf_c ParSeq) = ParSeq. Proof. vm_compute. reflexivity. Qed.
Print Assumptions C90_solve_restores.
