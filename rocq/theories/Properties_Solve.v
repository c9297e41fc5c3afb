(** Property theorems about linear systems with a vector or a matrix as right-hand side (C69, C70).  Statements use Spec.v, Spec_Blas.v, Spec_BlasApi.v, Spec_Linalg.v, Spec_Tri.v and M_Solve.v only. *)
From Verif Require Import Base Spec Spec_Tri Spec_Blas M_Layout M_Tensor M_Blas Spec_BlasApi Spec_Linalg M_Solve P_Tensor P_Fast3 Q_Solve Properties_Blas.
Local Open Scope Z_scope.

(** the matrix [[1; 0]; [1; 1]] and a vector with a gap *)
Definition so_a : tensor Z := mkTensor [1; 0; 1; 1] (mkLayout [2; 2]%nat [2; 1] 0).
Definition so_b : tensor Z := mkTensor [1; 9; 3] (mkLayout [2]%nat [2] 0).
Definition so_A (i j : nat) : Z := if (j <=? i)%nat then 1 else 0.
Definition so_f (i : nat) : Z := match i with O => 1 | _ => 3 end.
Lemma so_a_ok : tensor_ok so_a. Proof. unfold so_a. concrete_tensor. Qed.
Lemma so_b_ok : tensor_ok so_b. Proof. unfold so_b. concrete_tensor. Qed.
Lemma so_vector : is_vector so_b 2 so_f. Proof. split; [apply so_b_ok|]. split; [reflexivity|]. intros [|[|i]] H; try reflexivity; lia. Qed.
Lemma so_matrix : holds (t_data so_a) (t_layout so_a) 2 2 so_A. Proof. split; [reflexivity|]. intros [|[|i]] [|[|j]] Hi Hj; try reflexivity; lia. Qed.

(** C70: solve_general with a vector b of any layout returns the vector that LAPACK computes for the one column b, in a new tensor or, if b is passed by value or as a mutable view, in b itself with nothing else of its storage changed; it fails exactly if LAPACK does. *)
Theorem C70_solve_general_vector : forall (T : Type) dev dflt lib (ra : reference T) (b : tensor T) n A f, n <> 0%nat -> lapack_operand ra n n A -> not_broadcast ra -> is_vector b n f ->
  match lib n 1%nat (rows n n A) (rows n 1 (fun i _ => f i)) with
  | None => (exists e, solve_general_view dev dflt lib ra b = Err e) /\ (~ In 0 (l_stride (t_layout b)) -> exists e, solve_general_mut dev dflt lib ra b = Err e)
  | Some (F, p, X) => (exists y, solve_general_view dev dflt lib ra b = Ok y /\ is_vector y n (fun i => X i 0%nat)) /\
      (~ In 0 (l_stride (t_layout b)) -> exists y, solve_general_mut dev dflt lib ra b = Ok y /\ t_layout y = t_layout b /\ untouched_outside (t_layout b) (t_data b) (t_data y) /\ is_vector y n (fun i => X i 0%nat))
  end.
Proof. exact l_solve_general_vector. Qed.
Example C70_solve_general_vector_example : lapack_operand (RMut so_a) 2 2 so_A /\ not_broadcast (RMut so_a) /\ is_vector so_b 2 so_f /\
  solve_general_mut RowMajor RowMajor (fun n k A B => Some (fun _ _ => 0, [1; 2], fun i j => entry_at 0 A i 0 + 10 * entry_at 0 B i j)) (RMut so_a) so_b = Ok (mkTensor [11; 9; 31] (t_layout so_b)) /\
  solve_general_view ColMajor RowMajor (fun n k A B => Some (fun _ _ => 0, [1; 2], fun i j => entry_at 0 A i 0 + 10 * entry_at 0 B i j)) (Ref so_a) so_b = Ok (mkTensor [11; 31] (mkLayout [2]%nat [1] 0)).
Proof. split; [split; [apply so_a_ok|split; [apply so_matrix|now left]]|]. split; [cbn; lia|]. split; [apply so_vector|]. split; vm_compute; reflexivity. Qed.
Print Assumptions C70_solve_general_vector.

(** C70: the same of solve_symmetric, with the chosen triangle of a. *)
Theorem C70_solve_symmetric_vector : forall (T : Type) (zero one : T) dev dflt lib hermi (ra : reference T) u (b : tensor T) n A f, n <> 0%nat -> tensor_ok (ref_of ra) -> holds (t_data (ref_of ra)) (t_layout (ref_of ra)) n n A -> is_vector b n f ->
  match lib hermi (chosen dev u) n 1%nat (rows n n (triangular zero one (chosen dev u) false A)) (rows n 1 (fun i _ => f i)) with
  | None => (exists e, solve_symmetric_view zero one dev dflt lib hermi ra u b = Err e) /\ (~ In 0 (l_stride (t_layout b)) -> exists e, solve_symmetric_mut zero one dev dflt lib hermi ra u b = Err e)
  | Some (F, p, X) => (exists y, solve_symmetric_view zero one dev dflt lib hermi ra u b = Ok y /\ is_vector y n (fun i => X i 0%nat)) /\
      (~ In 0 (l_stride (t_layout b)) -> exists y, solve_symmetric_mut zero one dev dflt lib hermi ra u b = Ok y /\ t_layout y = t_layout b /\ untouched_outside (t_layout b) (t_data b) (t_data y) /\ is_vector y n (fun i => X i 0%nat))
  end.
Proof. exact l_solve_symmetric_vector. Qed.
Example C70_solve_symmetric_vector_example : solve_symmetric_mut 0 1 RowMajor RowMajor (fun h u n k A B => Some (fun _ _ => 0, [1; 2], fun i j => entry_at 0 A 1 i + 10 * entry_at 0 B i j)) false (Ref so_a) (Some Upper) so_b = Ok (mkTensor [10; 9; 31] (t_layout so_b)) /\
  solve_symmetric_mut 0 1 RowMajor RowMajor (fun h u n k A B => Some (fun _ _ => 0, [1; 2], fun i j => entry_at 0 A 1 i + 10 * entry_at 0 B i j)) false (Ref so_a) None so_b = Ok (mkTensor [11; 9; 31] (t_layout so_b)).
Proof. split; vm_compute; reflexivity. Qed.
Print Assumptions C70_solve_symmetric_vector.

(** C70: anything but a matrix a, and a vector or a matrix b, is an error. *)
Theorem C70_solve_ranks : forall (T : Type) (zero one : T) dev dflt gesv_lib sysv_lib hermi (ra : reference T) u (b : tensor T), ~ (length (t_shape (ref_of ra)) = 2%nat /\ (length (t_shape b) = 1%nat \/ length (t_shape b) = 2%nat)) ->
  solve_general_view dev dflt gesv_lib ra b = Err InvalidLayout /\ solve_general_mut dev dflt gesv_lib ra b = Err InvalidLayout /\
  solve_symmetric_view zero one dev dflt sysv_lib hermi ra u b = Err InvalidLayout /\ solve_symmetric_mut zero one dev dflt sysv_lib hermi ra u b = Err InvalidLayout.
Proof. exact l_solve_ranks. Qed.
Example C70_solve_ranks_example : ~ (length (t_shape (ref_of (Ref so_b))) = 2%nat /\ (length (t_shape so_b) = 1%nat \/ length (t_shape so_b) = 2%nat)). Proof. cbn. lia. Qed.
Print Assumptions C70_solve_ranks.

(** C69: solve_triangular with a vector of any layout returns the solution as a new vector; a vector passed by value or as a mutable view holds it afterwards if its elements fill the start of the storage (missing: see C69_solve_triangular_strided_refuted). *)
Theorem C69_solve_triangular_vector_partial : forall (T : Type) (zero one : T) add mul conj dev dflt lib (a b : tensor T) u A f n,
  (forall x y, mul x y = mul y x) -> (forall x, mul one x = x) -> conj zero = zero -> conj one = one ->
  library_solves zero add mul conj lib n (triangular zero one (chosen dev u) false A) ->
  tensor_ok a -> at_start (t_layout a) -> holds (t_data a) (t_layout a) n n A -> is_vector b n f -> n <> 0%nat ->
  (exists y x, solve_triangular_view zero one dev dflt conj lib a u b = Ok y /\ is_vector y n x /\ solves zero add mul SLeft n 1 (triangular zero one (chosen dev u) false A) (fun i _ => x i) (fun i _ => f i)) /\
  (l_stride (t_layout b) = [1] -> l_offset (t_layout b) = 0 -> exists y x, solve_triangular_mut zero one dev dflt conj lib a u b = Ok y /\ t_layout y = t_layout b /\ untouched_outside (t_layout b) (t_data b) (t_data y) /\
    is_vector y n x /\ solves zero add mul SLeft n 1 (triangular zero one (chosen dev u) false A) (fun i _ => x i) (fun i _ => f i)).
Proof. exact l_solve_triangular_vector. Qed.
Example C69_solve_triangular_vector_example : library_solves 0 Z.add Z.mul (fun x => x) small_lib 2 lowered /\ (forall i j, (i < 2)%nat -> (j < 2)%nat -> triangular 0 1 (chosen RowMajor None) false so_A i j = lowered i j) /\ at_start (t_layout so_a) /\
  solve_triangular_view 0 1 RowMajor RowMajor (fun x => x) small_lib so_a None so_b = Ok (mkTensor [1; 2] (mkLayout [2]%nat [1] 0)) /\ solve_triangular_mut 0 1 RowMajor RowMajor (fun x => x) small_lib so_a None (mkTensor [1; 3; 9] (mkLayout [2]%nat [1] 0)) = Ok (mkTensor [1; 2; 9] (mkLayout [2]%nat [1] 0)).
Proof. split; [exact small_solves|]. split; [intros [|[|i]] [|[|j]] Hi Hj; try reflexivity; lia|]. split; [now left|]. split; vm_compute; reflexivity. Qed.
Print Assumptions C69_solve_triangular_vector_partial.

(** C69: a mutable vector (0, 1) with a gap, such as a column of a matrix by rows: whatever the library does, it is given the 9 in the gap instead of the second element, the gap is overwritten, and the second element stays as it was. *)
Theorem C69_solve_triangular_strided_refuted : exists (a b : tensor Z), tensor_ok a /\ l_offset (t_layout a) = 0 /\ holds (t_data a) (t_layout a) 2 2 (identity 0 1) /\ is_vector b 2 (fun i => Z.of_nat i) /\ l_offset (t_layout b) = 0 /\ l_stride (t_layout b) = [2] /\ peek (t_data b) 1 = Some 9 /\
  forall dflt lib, let X := lib SRight NoTrans 1%nat 2%nat 1 [[1; 0]; [0; 1]] [[0; 9]] in
    solve_triangular_mut 0 1 ColMajor dflt (fun x => x) lib a None b = Ok (mkTensor [X 0%nat 0%nat; X 0%nat 1%nat; 1] (t_layout b)).
Proof. exact l_solve_triangular_strided_refuted. Qed.
Print Assumptions C69_solve_triangular_strided_refuted.

(** C69: anything but a matrix a, and a vector or a matrix b, is an error. *)
Theorem C69_solve_triangular_ranks : forall (T : Type) (zero one : T) dev dflt conj lib (a b : tensor T) u, ~ (length (t_shape a) = 2%nat /\ (length (t_shape b) = 1%nat \/ length (t_shape b) = 2%nat)) ->
  solve_triangular_view zero one dev dflt conj lib a u b = Err InvalidLayout /\ solve_triangular_mut zero one dev dflt conj lib a u b = Err InvalidLayout.
Proof. exact l_solve_triangular_ranks. Qed.
Example C69_solve_triangular_ranks_example : ~ (length (t_shape so_b) = 2%nat /\ (length (t_shape so_b) = 1%nat \/ length (t_shape so_b) = 2%nat)). Proof. cbn. lia. Qed.
Print Assumptions C69_solve_triangular_ranks.

(** C70: solve_general as called, with a matrix b of any layout: what LAPACK computes is returned in a new matrix, or is in b afterwards if b is passed by value or as a mutable view, with nothing else of its storage changed; it fails exactly if LAPACK does. *)
Theorem C70_solve_general_matrix : forall (T : Type) dev dflt lib (ra : reference T) (b : tensor T) n k A B, nonempty n k -> lapack_operand ra n n A -> not_broadcast ra -> is_matrix b n k B ->
  match lib n k (rows n n A) (rows n k B) with
  | None => (exists e, solve_general_view dev dflt lib ra b = Err e) /\ (overwritable (t_layout b) -> exists e, solve_general_mut dev dflt lib ra b = Err e)
  | Some (F, p, X) => (exists y, solve_general_view dev dflt lib ra b = Ok y /\ is_matrix y n k X) /\
      (overwritable (t_layout b) -> exists y, solve_general_mut dev dflt lib ra b = Ok y /\ t_layout y = t_layout b /\ untouched_outside (t_layout b) (t_data b) (t_data y) /\ is_matrix y n k X)
  end.
Proof. exact l_solve_general_matrix. Qed.
Example C70_solve_general_matrix_example : nonempty 2 1 /\ overwritable (mkLayout [2; 1]%nat [2; 5] 0) /\
  solve_general_mut RowMajor RowMajor (fun n k A B => Some (fun _ _ => 0, [1; 2], fun i j => entry_at 0 A i 0 + 10 * entry_at 0 B i j)) (RMut so_a) (mkTensor [1; 9; 3] (mkLayout [2; 1]%nat [2; 5] 0)) = Ok (mkTensor [11; 9; 31] (mkLayout [2; 1]%nat [2; 5] 0)).
Proof. split; [split; discriminate|]. split; [right; right; cbn; lia|]. vm_compute. reflexivity. Qed.
Print Assumptions C70_solve_general_matrix.

(** C70: the same of solve_symmetric, with the chosen triangle of a. *)
Theorem C70_solve_symmetric_matrix : forall (T : Type) (zero one : T) dev dflt lib hermi (ra : reference T) u (b : tensor T) n k A B, nonempty n k -> tensor_ok (ref_of ra) -> holds (t_data (ref_of ra)) (t_layout (ref_of ra)) n n A -> is_matrix b n k B ->
  match lib hermi (chosen dev u) n k (rows n n (triangular zero one (chosen dev u) false A)) (rows n k B) with
  | None => (exists e, solve_symmetric_view zero one dev dflt lib hermi ra u b = Err e) /\ (overwritable (t_layout b) -> exists e, solve_symmetric_mut zero one dev dflt lib hermi ra u b = Err e)
  | Some (F, p, X) => (exists y, solve_symmetric_view zero one dev dflt lib hermi ra u b = Ok y /\ is_matrix y n k X) /\
      (overwritable (t_layout b) -> exists y, solve_symmetric_mut zero one dev dflt lib hermi ra u b = Ok y /\ t_layout y = t_layout b /\ untouched_outside (t_layout b) (t_data b) (t_data y) /\ is_matrix y n k X)
  end.
Proof. exact l_solve_symmetric_matrix. Qed.
Example C70_solve_symmetric_matrix_example : solve_symmetric_view 0 1 RowMajor RowMajor (fun h u n k A B => Some (fun _ _ => 0, [1; 2], fun i j => entry_at 0 A 1 i + 10 * entry_at 0 B i j)) false (Ref so_a) (Some Upper) so_a = Ok (mkTensor [10; 0; 11; 11] (mkLayout [2; 2]%nat [2; 1] 0)).
Proof. vm_compute. reflexivity. Qed.
Print Assumptions C70_solve_symmetric_matrix.
