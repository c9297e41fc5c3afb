(** Property theorems about singular values, eigenvalues and determinants (C82-C84).  Statements use Spec.v, Spec_Matmul.v, Spec_Tri.v, Spec_Blas.v,
    Spec_BlasApi.v, Spec_Linalg.v and the modelled entry points of M_Linalg.v only.  [dev] is the device's default order, [dflt] the compile-time one.  LAPACK's
    routines are arbitrary functions of the matrices they are given (as lists of rows): [None] is a nonzero info. *)
From Coq Require Import String Ring_theory ZArithRing.
From Verif Require Import Base Spec Spec_Matmul Spec_Tri Spec_Blas P_Index M_Layout M_Rearr M_Kernel M_Tensor M_Matmul P_Strides P_Tensor M_Fast M_Tri M_Blas Spec_BlasApi M_Reduce Q_Reduce M_Linalg Spec_Linalg Q_Linalg.
Local Open Scope Z_scope.

Ltac entries := split; [reflexivity|]; intros [|[|[|i]]] [|[|[|j]]] Hi Hj; try lia; reflexivity.
Ltac square2 := intros [|[|i]] [|[|j]] Hi Hj; try lia; reflexivity.
Definition matrix2 (a b c d : Z) (i j : nat) : Z := match i, j with 0, 0 => a | 0, _ => b | _, 0 => c | _, _ => d end%nat.
(** [[0; 2]; [3; 0]] with gaps, and row-major *)
Definition lx_g : tensor Z := mkTensor [9; 0; 9; 2; 9; 3; 9; 0] (mkLayout [2; 2]%nat [4; 2] 1).
Definition lx_a : tensor Z := mkTensor [0; 2; 3; 0] (mkLayout [2; 2]%nat [2; 1] 0).
Definition lx_A := matrix2 0 2 3 0.
Definition lx_s (i : nat) : Z := match i with O => 3 | _ => 2 end.
Definition swap2 := matrix2 0 1 1 0.
Definition unit2 := matrix2 1 0 0 1.
(** a library that knows the decomposition [[0; 1]; [1; 0]] diag(3, 2) [[1; 0]; [0; 1]] of that matrix *)
Definition lx_lib (j : job) (m n : nat) (A : list (list Z)) : option ((nat -> nat -> Z) * (nat -> Z) * (nat -> nat -> Z) * (nat -> nat -> Z)) :=
  match m, n, A with 2%nat, 2%nat, [[0; 2]; [3; 0]] => Some (lx_A, lx_s, swap2, unit2) | _, _, _ => None end.
Lemma lx_g_ok : is_matrix lx_g 2 2 lx_A. Proof. split; [unfold lx_g; concrete_tensor|entries]. Qed.
Lemma lx_a_ok : is_matrix lx_a 2 2 lx_A. Proof. split; [unfold lx_a; concrete_tensor|entries]. Qed.

(** C82: svd returns what LAPACK computes for the matrix: u is m by m (by min(m, n) without full matrices), vt n by n (min(m, n) by n), the singular values a vector of min(m, n), for every layout of the matrix; it fails exactly if LAPACK does. *)
Theorem C82_svd : forall (T R : Type) dev dflt gesdd_lib gesvd_lib (t : tensor T) (full : bool) m n A, nonempty m n -> tensor_ok t -> holds (t_data t) (t_layout t) m n A ->
  match gesdd_lib (if full then JobA else JobS) m n (rows m n A) with
  | None => svd dev dflt gesdd_lib gesvd_lib t full = Err Miscellaneous
  | Some (F, s, U, V) => exists u (sv : tensor R) vt, svd dev dflt gesdd_lib gesvd_lib t full = Ok (u, sv, vt) /\
      is_matrix u m (if full then m else Nat.min m n) U /\ is_vector sv (Nat.min m n) s /\ is_matrix vt (if full then n else Nat.min m n) n V
  end.
Proof. exact l_svd. Qed.
Example C82_example : nonempty 2 2 /\ is_matrix lx_g 2 2 lx_A /\ svd RowMajor RowMajor lx_lib lx_lib lx_g true =
  Ok (mkTensor [0; 1; 1; 0] (mkLayout [2; 2]%nat [2; 1] 0), mkTensor [3; 2] (mkLayout [2]%nat [1] 0), mkTensor [1; 0; 0; 1] (mkLayout [2; 2]%nat [2; 1] 0)).
Proof. split; [unfold nonempty; lia|]. split; [apply lx_g_ok|reflexivity]. Qed.
Print Assumptions C82_svd.

(** C82: if LAPACK computes decompositions, the tensors returned are one of the matrix passed: u diag(s) vt = A, the columns of u and the rows of vt are orthonormal. *)
Theorem C82_svd_reconstructs : forall (T R : Type) (zero one : T) add mul conj scale dev dflt gesdd_lib gesvd_lib (t : tensor T) (full : bool) m n A u (sv : tensor R) vt, nonempty m n -> tensor_ok t -> holds (t_data t) (t_layout t) m n A ->
  (forall F s U V, gesdd_lib (if full then JobA else JobS) m n (rows m n A) = Some (F, s, U, V) -> decomposes zero add mul scale m n (Nat.min m n) A U s V /\
     orthonormal_columns zero one add mul conj m (if full then m else Nat.min m n) U /\ orthonormal_rows zero one add mul conj (if full then n else Nat.min m n) n V) ->
  svd dev dflt gesdd_lib gesvd_lib t full = Ok (u, sv, vt) ->
  exists U s V, is_matrix u m (if full then m else Nat.min m n) U /\ is_vector sv (Nat.min m n) s /\ is_matrix vt (if full then n else Nat.min m n) n V /\
    decomposes zero add mul scale m n (Nat.min m n) A U s V /\ orthonormal_columns zero one add mul conj m (if full then m else Nat.min m n) U /\ orthonormal_rows zero one add mul conj (if full then n else Nat.min m n) n V.
Proof. exact l_svd_reconstructs. Qed.
Example C82_example_reconstructs : forall F s U V, lx_lib JobS 2 2 (rows 2 2 lx_A) = Some (F, s, U, V) -> decomposes 0 Z.add Z.mul Z.mul 2 2 2 lx_A U s V /\
  orthonormal_columns 0 1 Z.add Z.mul (fun x => x) 2 2 U /\ orthonormal_rows 0 1 Z.add Z.mul (fun x => x) 2 2 V.
Proof. intros F s U V E. cbn in E. injection E as <- <- <- <-. split; [square2|]. split; square2. Qed.
Print Assumptions C82_svd_reconstructs.

(** C82: svdvals returns the singular values alone. *)
Theorem C82_svdvals : forall (T R : Type) dev dflt gesdd_lib gesvd_lib (t : tensor T) m n A, nonempty m n -> tensor_ok t -> holds (t_data t) (t_layout t) m n A ->
  match gesdd_lib JobN m n (rows m n A) with
  | None => svdvals dev dflt gesdd_lib gesvd_lib t = Err Miscellaneous
  | Some (F, s, U, V) => exists sv : tensor R, svdvals dev dflt gesdd_lib gesvd_lib t = Ok sv /\ is_vector sv (Nat.min m n) s
  end.
Proof. exact l_svdvals. Qed.
Example C82_example_values : svdvals ColMajor RowMajor lx_lib lx_lib lx_a = Ok (mkTensor [3; 2] (mkLayout [2]%nat [1] 0)).
Proof. reflexivity. Qed.
Print Assumptions C82_svdvals.

(** C82: the builder of arguments gives the same results: by default, or if named, with the driver gesdd. *)
Theorem C82_svd_args : forall (T R : Type) dev dflt gesdd_lib gesvd_lib (r : reference T) (full : bool) m n A, nonempty m n -> tensor_ok (ref_of r) -> holds (t_data (ref_of r)) (t_layout (ref_of r)) m n A ->
  svd_args (R := R) dev dflt gesdd_lib gesvd_lib r (Some full) (Some "gesdd"%string) = svd dev dflt gesdd_lib gesvd_lib (ref_of r) full /\
  svd_args (R := R) dev dflt gesdd_lib gesvd_lib r (Some full) None = svd dev dflt gesdd_lib gesvd_lib (ref_of r) full /\
  svdvals_args (R := R) dev dflt gesdd_lib gesvd_lib r None None = svdvals dev dflt gesdd_lib gesvd_lib (ref_of r).
Proof. exact l_svd_args. Qed.
Print Assumptions C82_svd_args.

(** C82: tensors that are not matrices, vectors asked of svdvals or not asked of svd, and unknown drivers are refused with an error. *)
Theorem C82_svd_invalid : forall (T R : Type) dev dflt gesdd_lib gesvd_lib (t : tensor T) (r : reference T) full d,
  (length (t_shape t) <> 2%nat -> svd (R := R) dev dflt gesdd_lib gesvd_lib t full = Err InvalidLayout /\ svdvals (R := R) dev dflt gesdd_lib gesvd_lib t = Err InvalidLayout) /\
  svd_args (R := R) dev dflt gesdd_lib gesvd_lib r None d = Err InvalidValue /\ svdvals_args (R := R) dev dflt gesdd_lib gesvd_lib r (Some full) d = Err InvalidValue /\
  (forall name, d = Some name -> name <> "gesdd"%string -> name <> "gesvd"%string ->
     svd_args (R := R) dev dflt gesdd_lib gesvd_lib r (Some full) d = Err InvalidValue /\ svdvals_args (R := R) dev dflt gesdd_lib gesvd_lib r None d = Err InvalidValue).
Proof. exact l_svd_invalid. Qed.
Example C82_example_invalid : svd (R := Z) RowMajor RowMajor lx_lib lx_lib (mkTensor [1; 2] (mkLayout [2]%nat [1] 0)) true = Err InvalidLayout /\ svd_args (R := Z) RowMajor RowMajor lx_lib lx_lib (Ref lx_a) (Some true) (Some "gesvj"%string) = Err InvalidValue.
Proof. split; reflexivity. Qed.
Print Assumptions C82_svd_invalid.

(** C82: the driver gesvd does the same for matrices that lie along rows, and on column-major devices for those that lie along neither or both orders.  Missing: the other matrices, refuted next. *)
Theorem C82_svd_gesvd_partial : forall (T R : Type) dev dflt gesdd_lib gesvd_lib (r : reference T) (full : bool) m n A, nonempty m n -> tensor_ok (ref_of r) -> holds (t_data (ref_of r)) (t_layout (ref_of r)) m n A ->
  let l := t_layout (ref_of r) in (c_prefer l = true /\ f_prefer l = false) \/ (c_prefer l = f_prefer l /\ dev = ColMajor) ->
  match gesvd_lib (if full then JobA else JobS) m n (rows m n A) with
  | None => svd_args dev dflt gesdd_lib gesvd_lib r (Some full) (Some "gesvd"%string) = Err Miscellaneous
  | Some (F, s, U, V) => exists u (sv : tensor R) vt, svd_args dev dflt gesdd_lib gesvd_lib r (Some full) (Some "gesvd"%string) = Ok (u, sv, vt) /\
      is_matrix u m (if full then m else Nat.min m n) U /\ is_vector sv (Nat.min m n) s /\ is_matrix vt (if full then n else Nat.min m n) n V
  end.
Proof. exact l_gesvd_partial. Qed.
Example C82_example_gesvd : c_prefer (t_layout lx_a) = true /\ f_prefer (t_layout lx_a) = false /\ svd_args (R := Z) RowMajor RowMajor lx_lib lx_lib (Ref lx_a) (Some true) (Some "gesvd"%string) =
  Ok (mkTensor [0; 1; 1; 0] (mkLayout [2; 2]%nat [1; 2] 0), mkTensor [3; 2] (mkLayout [2]%nat [1] 0), mkTensor [1; 0; 0; 1] (mkLayout [2; 2]%nat [1; 2] 0)).
Proof. split; [reflexivity|]. split; reflexivity. Qed.
Print Assumptions C82_svd_gesvd_partial.

(** C82: the driver gesvd panics for every matrix of more than one row that lies along columns, or on a row-major device along neither order: the results are copied back with the copy for the other direction, whose refusal is unwrapped. *)
Theorem C82_svd_gesvd_refuted : forall (T R : Type) dev dflt gesdd_lib gesvd_lib (r : reference T) (full : bool) m n A F (s : nat -> R) U V, nonempty m n -> m <> 1%nat -> tensor_ok (ref_of r) -> holds (t_data (ref_of r)) (t_layout (ref_of r)) m n A ->
  let l := t_layout (ref_of r) in (c_prefer l = false /\ f_prefer l = true) \/ (c_prefer l = f_prefer l /\ dev = RowMajor) ->
  gesvd_lib (if full then JobA else JobS) m n (rows m n A) = Some (F, s, U, V) -> svd_args dev dflt gesdd_lib gesvd_lib r (Some full) (Some "gesvd"%string) = Panic.
Proof. exact l_gesvd_refuted. Qed.
Example C82_example_gesvd_refuted : c_prefer (t_layout lx_g) = false /\ f_prefer (t_layout lx_g) = false /\ svd_args (R := Z) RowMajor RowMajor lx_lib lx_lib (Ref lx_g) (Some true) (Some "gesvd"%string) = Panic.
Proof. split; [reflexivity|]. split; reflexivity. Qed.
Print Assumptions C82_svd_gesvd_refuted.

(** C83: eigh returns the eigenvalues as a vector and the eigenvectors as a matrix as LAPACK computes them from the chosen triangle (by default lower on row-major devices, upper on column-major ones), for every layout; the vectors of a mutable matrix are written into it and nothing else of its storage is changed; it fails exactly if LAPACK does. *)
Theorem C83_eigh : forall (T R : Type) (zero one : T) dev dflt syev_lib syevd_lib sygv_lib sygvd_lib (r : reference T) u n A, nonempty n n -> lapack_operand r n n A ->
  match syevd_lib true (chosen dev u) n (rows n n (triangular zero one (chosen dev u) false A)) with
  | None => eigh zero one dev dflt syev_lib syevd_lib sygv_lib sygvd_lib r u = Err Miscellaneous
  | Some (w, V) => exists (ws : tensor R) y, eigh zero one dev dflt syev_lib syevd_lib sygv_lib sygvd_lib r u = Ok (ws, y) /\ is_vector ws n w /\ delivered (target_of r) y n n V
  end.
Proof. exact l_eigh. Qed.
(** a library that knows the eigenvectors (1, 0) and (0, 1) of diagonal matrices *)
Definition lx_diag (A : list (list Z)) (i : nat) : Z := entry_at 0 A i i.
Definition lx_ev (vectors : bool) (u : uplo) (n : nat) (A : list (list Z)) : option ((nat -> Z) * (nat -> nat -> Z)) :=
  if entry_at 0 A 0 1 =? entry_at 0 A 1 0 then Some (lx_diag A, identity 0 1) else None.
Definition lx_gv (itype : Z) (vectors : bool) (u : uplo) (n : nat) (A B : list (list Z)) : option ((nat -> Z) * (nat -> nat -> Z) * (nat -> nat -> Z)) := Some (lx_diag A, identity 0 1, identity 0 1).
Definition lx_d : tensor Z := mkTensor [9; 5; 0; 9; 0; 7] (mkLayout [2; 2]%nat [3; 1] 1).
Definition lx_b : tensor Z := mkTensor [1; 0; 0; 1] (mkLayout [2; 2]%nat [1; 2] 0).
Definition lx_D := matrix2 5 0 0 7.
Lemma lx_b_ok : is_matrix lx_b 2 2 unit2. Proof. split; [unfold lx_b; concrete_tensor|entries]. Qed.
Lemma lx_d_ok : is_matrix lx_d 2 2 lx_D. Proof. split; [unfold lx_d; concrete_tensor|entries]. Qed.
Lemma lx_d_operand : lapack_operand (RMut lx_d) 2 2 lx_D.
Proof. split; [apply lx_d_ok|]. split; [entries|]. right. right. cbn. lia. Qed.
Example C83_example : lapack_operand (RMut lx_d) 2 2 lx_D /\ eigh 0 1 RowMajor RowMajor lx_ev lx_ev lx_gv lx_gv (RMut lx_d) None = Ok (mkTensor [5; 7] (mkLayout [2]%nat [1] 0), MutRef (mkTensor [9; 1; 0; 9; 0; 1] (t_layout lx_d))).
Proof. split; [apply lx_d_operand|reflexivity]. Qed.
Print Assumptions C83_eigh.

(** C83: if LAPACK solves the eigenvalue problem of the symmetric (Hermitian) matrix stored in the chosen triangle, the tensors returned solve it: S v = w v, and the vectors are orthonormal. *)
Theorem C83_eigh_solves : forall (T R : Type) (zero one : T) add mul conj re scale hermi dev dflt syev_lib syevd_lib sygv_lib sygvd_lib (r : reference T) u n A (ws : tensor R) y, nonempty n n -> lapack_operand r n n A ->
  (forall w V, syevd_lib true (chosen dev u) n (rows n n (triangular zero one (chosen dev u) false A)) = Some (w, V) -> eigen zero add mul scale n (symmetric_from conj re hermi (chosen dev u) A) V w /\ orthonormal_columns zero one add mul conj n n V) ->
  eigh zero one dev dflt syev_lib syevd_lib sygv_lib sygvd_lib r u = Ok (ws, y) ->
  exists w V, is_vector ws n w /\ delivered (target_of r) y n n V /\ eigen zero add mul scale n (symmetric_from conj re hermi (chosen dev u) A) V w /\ orthonormal_columns zero one add mul conj n n V.
Proof. exact l_eigh_solves. Qed.
Example C83_example_solves : forall w V, lx_ev true Lower 2 (rows 2 2 (triangular 0 1 Lower false lx_D)) = Some (w, V) -> eigen 0 Z.add Z.mul Z.mul 2 (symmetric_from (fun x => x) (fun x => x) false Lower lx_D) V w /\ orthonormal_columns 0 1 Z.add Z.mul (fun x => x) 2 2 V.
Proof. intros w V E. cbn in E. injection E as <- <-. split; square2. Qed.
Print Assumptions C83_eigh_solves.

(** C83: eigvalsh returns the eigenvalues alone. *)
Theorem C83_eigvalsh : forall (T R : Type) (zero one : T) dev dflt syev_lib syevd_lib sygv_lib sygvd_lib (r : reference T) u n A, nonempty n n -> lapack_operand r n n A ->
  match syevd_lib false (chosen dev u) n (rows n n (triangular zero one (chosen dev u) false A)) with
  | None => eigvalsh zero one dev dflt syev_lib syevd_lib sygv_lib sygvd_lib r u = Err Miscellaneous
  | Some (w, V) => exists ws : tensor R, eigvalsh zero one dev dflt syev_lib syevd_lib sygv_lib sygvd_lib r u = Ok ws /\ is_vector ws n w
  end.
Proof. exact l_eigvalsh. Qed.
Example C83_example_values : eigvalsh 0 1 ColMajor RowMajor lx_ev lx_ev lx_gv lx_gv (Ref lx_d) (Some Lower) = Ok (mkTensor [5; 7] (mkLayout [2]%nat [1] 0)).
Proof. reflexivity. Qed.
Print Assumptions C83_eigvalsh.

(** C83: eigh of two matrices returns what LAPACK computes for the generalised problem of the given type. *)
Theorem C83_eigh_general : forall (T R : Type) (zero one : T) dev dflt syev_lib syevd_lib sygv_lib sygvd_lib (a b : tensor T) u itype n A B, nonempty n n -> tensor_ok a -> holds (t_data a) (t_layout a) n n A -> tensor_ok b -> holds (t_data b) (t_layout b) n n B -> 1 <= itype <= 3 ->
  match sygvd_lib itype true (chosen dev u) n (rows n n (triangular zero one (chosen dev u) false A)) (rows n n (triangular zero one (chosen dev u) false B)) with
  | None => eigh_general zero one dev dflt syev_lib syevd_lib sygv_lib sygvd_lib a b u itype = Err InvalidLayout
  | Some (w, V, _) => exists (ws : tensor R) v, eigh_general zero one dev dflt syev_lib syevd_lib sygv_lib sygvd_lib a b u itype = Ok (ws, Owned v) /\ is_vector ws n w /\ is_matrix v n n V
  end.
Proof. exact l_eigh_general. Qed.
Example C83_example_general : is_matrix lx_d 2 2 lx_D /\ is_matrix lx_b 2 2 unit2 /\ eigh_general 0 1 RowMajor RowMajor lx_ev lx_ev lx_gv lx_gv lx_d lx_b None 2 = Ok (mkTensor [5; 7] (mkLayout [2]%nat [1] 0), Owned (mkTensor [1; 0; 0; 1] (mkLayout [2; 2]%nat [2; 1] 0))).
Proof. split; [apply lx_d_ok|]. split; [apply lx_b_ok|reflexivity]. Qed.
Print Assumptions C83_eigh_general.

(** C83: if LAPACK solves generalised problems, the tensors returned solve it: S v = w B v, S B v = w v or B S v = w v for types 1, 2 and 3. *)
Theorem C83_eigh_general_solves : forall (T R : Type) (zero one : T) add mul conj re scale hermi dev dflt syev_lib syevd_lib sygv_lib sygvd_lib (a b : tensor T) u itype n A B (ws : tensor R) y, nonempty n n -> tensor_ok a -> holds (t_data a) (t_layout a) n n A -> tensor_ok b -> holds (t_data b) (t_layout b) n n B -> 1 <= itype <= 3 ->
  (forall w V G, sygvd_lib itype true (chosen dev u) n (rows n n (triangular zero one (chosen dev u) false A)) (rows n n (triangular zero one (chosen dev u) false B)) = Some (w, V, G) ->
     eigen_general zero add mul scale itype n (symmetric_from conj re hermi (chosen dev u) A) (symmetric_from conj re hermi (chosen dev u) B) V w) ->
  eigh_general zero one dev dflt syev_lib syevd_lib sygv_lib sygvd_lib a b u itype = Ok (ws, y) ->
  exists w v V, y = Owned v /\ is_vector ws n w /\ is_matrix v n n V /\ eigen_general zero add mul scale itype n (symmetric_from conj re hermi (chosen dev u) A) (symmetric_from conj re hermi (chosen dev u) B) V w.
Proof. exact l_eigh_general_solves. Qed.
Example C83_example_general_solves : forall w V G, lx_gv 3 true Lower 2 (rows 2 2 (triangular 0 1 Lower false lx_D)) (rows 2 2 (triangular 0 1 Lower false unit2)) = Some (w, V, G) ->
  eigen_general 0 Z.add Z.mul Z.mul 3 2 (symmetric_from (fun x => x) (fun x => x) false Lower lx_D) (symmetric_from (fun x => x) (fun x => x) false Lower unit2) V w.
Proof. intros w V G E. cbn in E. injection E as <- <- <-. square2. Qed.
Print Assumptions C83_eigh_general_solves.

(** C83: matrices that are not square, tensors that are not matrices and unknown problem types are refused with an error. *)
Theorem C83_eigh_invalid : forall (T R : Type) (zero one : T) dev dflt syev_lib syevd_lib sygv_lib sygvd_lib (r : reference T) (a b : tensor T) u itype m n A, nonempty m n -> lapack_operand r m n A ->
  (m <> n -> eigh (R := R) zero one dev dflt syev_lib syevd_lib sygv_lib sygvd_lib r u = Err InvalidLayout /\ eigvalsh (R := R) zero one dev dflt syev_lib syevd_lib sygv_lib sygvd_lib r u = Err InvalidLayout) /\
  (~ 1 <= itype <= 3 -> eigh_general (R := R) zero one dev dflt syev_lib syevd_lib sygv_lib sygvd_lib a b u itype = Err InvalidLayout) /\
  (length (t_shape a) <> 2%nat -> eigh (R := R) zero one dev dflt syev_lib syevd_lib sygv_lib sygvd_lib (Ref a) u = Err InvalidLayout /\ eigvalsh (R := R) zero one dev dflt syev_lib syevd_lib sygv_lib sygvd_lib (Ref a) u = Err InvalidLayout /\
     eigh_general (R := R) zero one dev dflt syev_lib syevd_lib sygv_lib sygvd_lib a b u itype = Err InvalidLayout).
Proof. exact l_eigh_invalid. Qed.
Example C83_example_invalid : eigh (R := Z) 0 1 RowMajor RowMajor lx_ev lx_ev lx_gv lx_gv (Ref (mkTensor [1; 2] (mkLayout [1; 2]%nat [2; 1] 0))) None = Err InvalidLayout.
Proof. reflexivity. Qed.
Print Assumptions C83_eigh_invalid.

(** C83: the builder of arguments gives the same results, with the driver ev on request; unknown drivers, and asking eigh for eigenvalues only, are refused. *)
Theorem C83_eigh_args : forall (T R : Type) (zero one : T) dev dflt syev_lib syevd_lib sygv_lib sygvd_lib (r : reference T) u itype driver n A, nonempty n n -> lapack_operand r n n A ->
  (driver = Some "ev"%string ->
   match syev_lib true (chosen dev u) n (rows n n (triangular zero one (chosen dev u) false A)) with
   | None => eigh_of_args zero one dev dflt syev_lib syevd_lib sygv_lib sygvd_lib (mkEigh r None u false itype None None driver) = Err Miscellaneous
   | Some (w, V) => exists (ws : tensor R) y, eigh_of_args zero one dev dflt syev_lib syevd_lib sygv_lib sygvd_lib (mkEigh r None u false itype None None driver) = Ok (ws, y) /\ is_vector ws n w /\ delivered (target_of r) y n n V
   end) /\
  (driver = Some "evd"%string \/ driver = None -> eigh_of_args (R := R) zero one dev dflt syev_lib syevd_lib sygv_lib sygvd_lib (mkEigh r None u false itype None None driver) = eigh zero one dev dflt syev_lib syevd_lib sygv_lib sygvd_lib r u) /\
  (forall name b, driver = Some name -> name <> "ev"%string -> name <> "evd"%string -> name <> "gv"%string -> name <> "gvd"%string -> eigh_of_args (R := R) zero one dev dflt syev_lib syevd_lib sygv_lib sygvd_lib (mkEigh r b u false itype None None driver) = Err InvalidValue) /\
  (forall b i v, eigh_of_args (R := R) zero one dev dflt syev_lib syevd_lib sygv_lib sygvd_lib (mkEigh r b u true itype i v driver) = Err InvalidValue).
Proof. exact l_eigh_args. Qed.
Print Assumptions C83_eigh_args.

(** C83: the arguments that choose a range of eigenvalues, by index or by value, have no effect: all of them are returned. *)
Theorem C83_eigh_subset_refuted : forall (T R : Type) (zero one : T) dev dflt syev_lib syevd_lib sygv_lib sygvd_lib (r : reference T) u lo hi values n A w V, nonempty n n -> lapack_operand r n n A ->
  syevd_lib true (chosen dev u) n (rows n n (triangular zero one (chosen dev u) false A)) = Some (w, V) ->
  exists (ws : tensor R) y, eigh_of_args zero one dev dflt syev_lib syevd_lib sygv_lib sygvd_lib (mkEigh r None u false 1 (Some (lo, hi)) values None) = Ok (ws, y) /\ is_vector ws n w /\ delivered (target_of r) y n n V.
Proof. exact l_eigh_subset_refuted. Qed.
Example C83_example_subset : lapack_operand (RMut lx_d) 2 2 lx_D /\ eigh_of_args 0 1 RowMajor RowMajor lx_ev lx_ev lx_gv lx_gv (mkEigh (Ref lx_d) None None false 1 (Some (0, 0)%nat) None None) =
  Ok (mkTensor [5; 7] (mkLayout [2]%nat [1] 0), Owned (mkTensor [1; 0; 0; 1] (mkLayout [2; 2]%nat [2; 1] 0))).
Proof. split; [apply lx_d_operand|reflexivity]. Qed.
Print Assumptions C83_eigh_subset_refuted.

(** C84: the determinant of the statements below (expansion along the first column) depends on the entries only, is linear in each row, vanishes when two rows are equal and is 1 at the identity, over every commutative ring. *)
Theorem C84_determinant : forall (T : Type) (zero one : T) add mul sub opp n, ring_theory zero one add mul sub opp eq -> is_determinant zero one add mul n (determinant zero one add mul opp n).
Proof. exact l_determinant. Qed.
Example C84_example_determinant : determinant 0 1 Z.add Z.mul Z.opp 2 (matrix2 0 2 3 4) = -6.
Proof. reflexivity. Qed.
Print Assumptions C84_determinant.

(** C84: slogdet returns the sign of the determinant and the logarithm of its modulus, if LAPACK factors P A = L U: every exchange of two rows is counted, whatever the layout of the matrix. *)
Theorem C84_slogdet : forall (T R : Type) (zero one : T) add mul sub opp sgn (abs : T -> R) radd rmul rzero rone log exp scale dev dflt getrf_lib (r : reference T) n A,
  ring_theory zero one add mul sub opp eq -> polar zero one mul opp sgn abs radd rmul rzero rone log exp scale -> comm_monoid rzero radd -> nonempty n n -> lapack_operand r n n A ->
  (forall F p, getrf_lib n n (rows n n A) = Some (F, p) -> lu_factored zero one add mul n A F p) ->
  match getrf_lib n n (rows n n A) with
  | None => slogdet_f one dev dflt getrf_lib mul opp sgn abs radd rzero log r = Err Miscellaneous
  | Some _ => exists l, slogdet_f one dev dflt getrf_lib mul opp sgn abs radd rzero log r = Ok (sgn (determinant zero one add mul opp n A), l) /\ exp l = abs (determinant zero one add mul opp n A)
  end.
Proof. exact l_slogdet. Qed.
(** a library that knows the factorisation of [[0; 2]; [3; 4]]; over Z, with a logarithm that is the identity (sums of logarithms are products) *)
Definition lx_lu (m n : nat) (A : list (list Z)) : option ((nat -> nat -> Z) * list Z) := match m, n, A with 2%nat, 2%nat, [[0; 2]; [3; 4]] => Some (matrix2 3 4 0 2, [2; 2]) | _, _, _ => None end.
Definition lx_t : tensor Z := mkTensor [0; 3; 2; 4] (mkLayout [2; 2]%nat [1; 2] 0).
Definition lx_T := matrix2 0 2 3 4.
Lemma lx_polar : polar 0 1 Z.mul Z.opp Z.sgn Z.abs Z.mul Z.mul 1 1 (fun x => x) (fun x => x) Z.mul.
Proof. split; [intro; now rewrite Z.mul_comm, Z.abs_sgn|]. split; [apply Z.sgn_mul|]. split; [reflexivity|]. split; [apply Z.sgn_opp|]. split; [apply Z.abs_mul|]. split; [reflexivity|]. split; [apply Z.abs_opp|]. auto. Qed.
Lemma lx_factored : forall F p, lx_lu 2 2 (rows 2 2 lx_T) = Some (F, p) -> lu_factored 0 1 Z.add Z.mul 2 lx_T F p.
Proof. intros F p E. cbn in E. injection E as <- <-. split; [reflexivity|]. split; [repeat constructor; lia|]. split; [square2|]. intros [|[|i]] H; try lia; cbn; lia. Qed.
Example C84_example : lapack_operand (Ref lx_t) 2 2 lx_T /\ slogdet_f 1 RowMajor RowMajor lx_lu Z.mul Z.opp Z.sgn Z.abs Z.mul 1 (fun x => x) (Ref lx_t) = Ok (-1, 6).
Proof. split; [split; [unfold lx_t; concrete_tensor|split; [entries|exact I]]|reflexivity]. Qed.
Print Assumptions C84_slogdet.

(** C84: det returns the determinant of the matrix, if LAPACK factors it; it fails exactly if LAPACK does. *)
Theorem C84_det : forall (T R : Type) (zero one : T) add mul sub opp sgn (abs : T -> R) radd rmul rzero rone log exp scale dev dflt getrf_lib (r : reference T) n A,
  ring_theory zero one add mul sub opp eq -> polar zero one mul opp sgn abs radd rmul rzero rone log exp scale -> comm_monoid rzero radd -> nonempty n n -> lapack_operand r n n A ->
  (forall F p, getrf_lib n n (rows n n A) = Some (F, p) -> lu_factored zero one add mul n A F p) ->
  det_f one dev dflt getrf_lib mul opp sgn abs radd rzero log exp scale r =
    match getrf_lib n n (rows n n A) with None => Err Miscellaneous | Some _ => Ok (determinant zero one add mul opp n A) end.
Proof. exact l_det. Qed.
Example C84_example_det : ring_theory 0 1 Z.add Z.mul Z.sub Z.opp eq /\ comm_monoid 1 Z.mul /\ det_f 1 ColMajor RowMajor lx_lu Z.mul Z.opp Z.sgn Z.abs Z.mul 1 (fun x => x) (fun x => x) Z.mul (Ref lx_t) = Ok (-6).
Proof. split; [exact Zth|]. split; [|reflexivity]. split; [intros; lia|]. split; intros; lia. Qed.
Print Assumptions C84_det.

(** C84: the determinant of a singular matrix is an error, not 0: LAPACK reports the zero pivot in info, which becomes an error. *)
Theorem C84_det_singular_refuted : forall (T R : Type) (zero one : T) add mul sub opp sgn (abs : T -> R) radd rmul rzero rone log exp scale dev dflt getrf_lib (r : reference T) n A,
  ring_theory zero one add mul sub opp eq -> (forall x y, mul x y = zero -> x = zero \/ y = zero) -> one <> zero -> polar zero one mul opp sgn abs radd rmul rzero rone log exp scale -> comm_monoid rzero radd -> nonempty n n -> lapack_operand r n n A ->
  (forall F p, getrf_lib n n (rows n n A) = Some (F, p) -> lu_factored zero one add mul n A F p) ->
  determinant zero one add mul opp n A = zero -> det_f one dev dflt getrf_lib mul opp sgn abs radd rzero log exp scale r = Err Miscellaneous.
Proof. exact l_det_singular_refuted. Qed.
Example C84_example_singular : determinant 0 1 Z.add Z.mul Z.opp 2 (matrix2 1 2 2 4) = 0 /\ det_f 1 RowMajor RowMajor lx_lu Z.mul Z.opp Z.sgn Z.abs Z.mul 1 (fun x => x) (fun x => x) Z.mul (Ref (mkTensor [1; 2; 2; 4] (mkLayout [2; 2]%nat [2; 1] 0))) = Err Miscellaneous.
Proof. split; reflexivity. Qed.
Print Assumptions C84_det_singular_refuted.

(** C84: the determinant of a matrix that is not square is not refused: a number is returned. *)
Theorem C84_det_nonsquare_refuted : forall (T R : Type) (one : T) mul opp sgn (abs : T -> R) radd rzero log exp scale dev dflt getrf_lib (r : reference T) m n A F p, comm_monoid one mul -> comm_monoid rzero radd -> nonempty m n -> m <> n -> lapack_operand r m n A ->
  getrf_lib m n (rows m n A) = Some (F, p) -> exists v, det_f one dev dflt getrf_lib mul opp sgn abs radd rzero log exp scale r = Ok v.
Proof. exact l_det_nonsquare_refuted. Qed.
Example C84_example_nonsquare : exists v, det_f 1 RowMajor RowMajor (fun _ _ _ => Some (matrix2 3 4 5 6, [1; 2; 3])) Z.mul Z.opp Z.sgn Z.abs Z.mul 1 (fun x => x) (fun x => x) Z.mul (Ref (mkTensor [1; 2; 3; 4; 5; 6] (mkLayout [2; 3]%nat [3; 1] 0))) = Ok v.
Proof. eexists. reflexivity. Qed.
Print Assumptions C84_det_nonsquare_refuted.

(** C82: svd by way of GESVD of a matrix without rows panics when overflow checks are on: the length of a work array, min(m, n) - 1, is computed without a sign. *)
Theorem C82_gesvd_empty_refuted : forall (T R : Type) dev dflt gesdd_lib gesvd_lib (full : bool),
  exists t : tensor T, tensor_ok t /\ t_shape t = [0; 3]%nat /\ svd_args (R := R) dev dflt gesdd_lib gesvd_lib (Ref t) (Some full) (Some "gesvd"%string) = Panic.
Proof. exact l_gesvd_empty_refuted. Qed.
Example C82_gesvd_empty_example : svd_args ColMajor RowMajor lx_lib lx_lib (Ref (mkTensor [] (mkLayout [0; 3]%nat [1; 1] 0))) (Some true) (Some "gesvd"%string) = Panic. Proof. vm_compute. reflexivity. Qed.
Print Assumptions C82_gesvd_empty_refuted.
