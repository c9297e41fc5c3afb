(** Property theorems about the BLAS level 3 and LAPACK wrappers and the linear algebra functions on top of them (C67-C70).  Statements use Spec.v,
    Spec_Matmul.v, Spec_Tri.v, Spec_Blas.v, Spec_BlasApi.v and the modelled entry points of M_Blas.v only.  [dev] is the device's default order, [dflt] the
    compile-time one.  LAPACK and the triangular solve of BLAS are arbitrary functions [lib] of the matrices they are given (as lists of rows). *)
From Verif Require Import Base Spec Spec_Matmul Spec_Tri Spec_Blas P_Index M_Layout M_Rearr M_Kernel M_Tensor M_Matmul P_Strides P_Tensor M_Fast M_Tri M_Blas Spec_BlasApi Q_Blas.
Local Open Scope Z_scope.

Ltac entries := split; [reflexivity|]; intros [|[|[|i]]] [|[|[|j]]] Hi Hj; try lia; reflexivity.
Definition counting (n : nat) (i j : nat) : Z := Z.of_nat (i * n + j + 1).
(** [[1; 2; 3]; [4; 5; 6]] row-major, the same with gaps, and the columns of a matrix whose storage starts elsewhere *)
Definition bx_a : tensor Z := mkTensor [1; 2; 3; 4; 5; 6] (mkLayout [2; 3]%nat [3; 1] 0).
Definition bx_g : tensor Z := mkTensor [0; 1; 0; 2; 0; 3; 0; 4; 0; 5; 0; 6] (mkLayout [2; 3]%nat [6; 2] 1).
Definition bx_s : tensor Z := mkTensor [1; 0; 1; 1] (mkLayout [2; 2]%nat [2; 1] 0).
Definition bx_c : tensor Z := mkTensor [1; 9; 1; 9; 1; 9; 1; 9] (mkLayout [2; 2]%nat [4; 2] 0).
Lemma bx_a_ok : tensor_ok bx_a. Proof. unfold bx_a. concrete_tensor. Qed.
Lemma bx_g_ok : tensor_ok bx_g. Proof. unfold bx_g. concrete_tensor. Qed.
Lemma bx_s_ok : tensor_ok bx_s. Proof. unfold bx_s. concrete_tensor. Qed.
Lemma bx_c_ok : tensor_ok bx_c. Proof. unfold bx_c. concrete_tensor. Qed.
Definition lowered (i j : nat) : Z := if (j <=? i)%nat then 1 else 0.
Lemma bx_operand : lapack_operand (Ref bx_s) 2 2 lowered /\ lapack_operand (RMut bx_s) 2 2 lowered /\ not_broadcast (RMut bx_s) /\ lapack_operand (RMut bx_c) 2 2 (fun _ _ => 1).
Proof. split; [split; [apply bx_s_ok|split; [entries|exact I]]|]. split; [split; [apply bx_s_ok|split; [entries|now left]]|]. split; [cbn; lia|]. split; [apply bx_c_ok|]. split; [entries|]. right. right. cbn. lia. Qed.

(** C67: the GEMM wrapper computes alpha op(A) op(B) + beta C for all layouts of a, b and c it can handle, all transposition flags, both orders; into c it changes nothing else of c's storage.  Missing: operands that lie along an order but not at the start of their storage, outputs with gaps, empty matrices (refuted below). *)
Theorem C67_gemm_partial : forall (T : Type) (zero : T) add mul conj dev dflt (a b : tensor T) c alpha beta ta tb o ma na A mb nb B m n k C,
  (forall x y, mul x y = mul y x) ->
  tensor_ok a -> at_start (t_layout a) -> holds (t_data a) (t_layout a) ma na A -> nonempty ma na -> ta <> ConjOnly ->
  tensor_ok b -> at_start (t_layout b) -> holds (t_data b) (t_layout b) mb nb B -> nonempty mb nb -> tb <> ConjOnly ->
  op_shape ta ma na = (m, k) -> op_shape tb mb nb = (k, n) -> output_ok c zero m n C ->
  exists y, gemm zero add mul conj dev dflt a b c alpha beta ta tb o = Ok y /\
    delivered c y m n (fun i j => add (mul alpha (product zero add mul k (op_of conj ta A) (op_of conj tb B) i j)) (mul beta (C i j))).
Proof. exact l_gemm. Qed.
Example C67_example : tensor_ok bx_a /\ tensor_ok bx_g /\ at_start (t_layout bx_a) /\ at_start (t_layout bx_g) /\ holds (t_data bx_a) (t_layout bx_a) 2 3 (counting 3) /\ holds (t_data bx_g) (t_layout bx_g) 2 3 (counting 3) /\
  op_shape NoTrans 2 3 = (2, 3)%nat /\ op_shape Trans 2 3 = (3, 2)%nat /\ output_ok (Some bx_c) 0 2 2 (fun _ _ => 1) /\
  gemm 0 Z.add Z.mul (fun x => x) RowMajor RowMajor bx_a bx_g (Some bx_c) 1 100 NoTrans Trans None = Ok (MutRef (mkTensor [114; 9; 132; 9; 132; 9; 177; 9] (t_layout bx_c))).
Proof. split; [apply bx_a_ok|]. split; [apply bx_g_ok|]. split; [now left|]. split; [right; split; reflexivity|]. split; [entries|]. split; [entries|]. split; [reflexivity|]. split; [reflexivity|].
  split; [|reflexivity]. split; [apply bx_c_ok|]. split; [entries|]. split; [cbn; lia|]. right. split; reflexivity. Qed.
Print Assumptions C67_gemm_partial.

(** C67: operands whose inner extents differ, an output of another shape, or the flag for conjugation without transposition are refused with an error. *)
Theorem C67_gemm_shape : forall (T : Type) (zero : T) add mul conj dev dflt (a b : tensor T) c alpha beta ta tb o ma na A mb nb B,
  tensor_ok a -> holds (t_data a) (t_layout a) ma na A -> nonempty ma na -> tensor_ok b -> holds (t_data b) (t_layout b) mb nb B -> nonempty mb nb ->
  match c with Some c => tensor_ok c | None => True end ->
  ta = ConjOnly \/ tb = ConjOnly \/ snd (op_shape ta ma na) <> fst (op_shape tb mb nb) \/
    match c with Some c => exists x y, l_shape (t_layout c) = [x; y] /\ (x, y) <> (fst (op_shape ta ma na), snd (op_shape tb mb nb)) | None => False end ->
  exists e, gemm zero add mul conj dev dflt a b c alpha beta ta tb o = Err e.
Proof. exact l_gemm_shape. Qed.
Example C67_example_shape : snd (op_shape NoTrans 2 3) <> fst (op_shape NoTrans 2 3) /\ exists e, gemm 0 Z.add Z.mul (fun x => x) RowMajor RowMajor bx_a bx_g None 1 0 NoTrans NoTrans None = Err e.
Proof. split; [cbn; lia|]. eexists. reflexivity. Qed.
Print Assumptions C67_gemm_shape.

(** C67: GEMM of a row- or column-major view that does not start at the beginning of its storage multiplies the wrong elements: the pointer of the storage is passed without the offset. *)
Theorem C67_gemm_offset_refuted : exists (a b : tensor Z) y, tensor_ok a /\ tensor_ok b /\ holds (t_data a) (t_layout a) 2 2 (fun i j => Z.of_nat (2 * i + j + 1)) /\ holds (t_data b) (t_layout b) 2 2 (identity 0 1) /\
  gemmZ RowMajor a b None NoTrans NoTrans None = Ok (Owned y) /\ at_ y [0; 0]%nat = Some 9.
Proof. exact l_gemm_offset_refuted. Qed.
Print Assumptions C67_gemm_offset_refuted.

(** C67: GEMM into a matrix with gaps between its rows (or columns) writes between them: the number of rows is passed as leading extent.  Elements outside the view are overwritten. *)
Theorem C67_gemm_strided_refuted : exists (a b c y : tensor Z), tensor_ok a /\ tensor_ok b /\ tensor_ok c /\ holds (t_data a) (t_layout a) 2 2 (fun i j => Z.of_nat (2 * i + j + 1)) /\ holds (t_data b) (t_layout b) 2 2 (identity 0 1) /\
  l_shape (t_layout c) = [2; 2]%nat /\ gemmZ RowMajor a b (Some c) NoTrans NoTrans None = Ok (MutRef y) /\ at_ y [1; 0]%nat = Some 4 /\
  ~ untouched_outside (t_layout c) (t_data c) (t_data y).
Proof. exact l_gemm_strided_refuted. Qed.
Print Assumptions C67_gemm_strided_refuted.

(** C67: the order argument of the builder is taken the wrong way round: asked for a row-major result, GEMM returns a column-major one, and conversely. *)
Theorem C67_gemm_order_refuted : exists (a : tensor Z) y z, tensor_ok a /\ gemmZ RowMajor a a None NoTrans NoTrans (Some RowMajor) = Ok (Owned y) /\ f_contig (t_layout y) = true /\ c_contig (t_layout y) = false /\
  gemmZ RowMajor a a None NoTrans NoTrans (Some ColMajor) = Ok (Owned z) /\ c_contig (t_layout z) = true /\ f_contig (t_layout z) = false.
Proof. exact l_gemm_order_refuted. Qed.
Print Assumptions C67_gemm_order_refuted.

(** C67: a product without elements calls the library with leading extent 0, which it refuses (the reference implementation ends the program). *)
Theorem C67_gemm_empty_refuted : exists (a b : tensor Z), tensor_ok a /\ tensor_ok b /\ l_shape (t_layout a) = [2; 2]%nat /\ l_shape (t_layout b) = [2; 0]%nat /\ gemmZ RowMajor a b None NoTrans NoTrans None = Panic.
Proof. exact l_gemm_empty_refuted. Qed.
Print Assumptions C67_gemm_empty_refuted.

(** C68: SYMM and HEMM of square matrices multiply with the symmetric (Hermitian) matrix stored in the chosen triangle, from either side, for all layouts of a and b.  For SYMM, both triangles must agree; see C68_symm_triangle_refuted. *)
Theorem C68_symm_square_partial : forall (T : Type) (zero one : T) add mul conj re dev dflt hermi (a b : tensor T) c alpha beta s u o A B n C,
  (forall x y, mul x y = mul y x) -> n <> 0%nat ->
  tensor_ok a -> holds (t_data a) (t_layout a) n n A -> tensor_ok b -> holds (t_data b) (t_layout b) n n B ->
  (hermi = true \/ forall i j, (i < n)%nat -> (j < n)%nat -> A i j = A j i) -> output_ok c zero n n C ->
  exists y, syhemm zero one add mul conj re dev dflt hermi a b c alpha beta s u o = Ok y /\
    delivered c y n n (combined add mul alpha beta (side_product zero add mul s n n (symmetric_from conj re hermi u A) B) C).
Proof. exact l_symm_square. Qed.
Example C68_example : tensor_ok bx_s /\ holds (t_data bx_s) (t_layout bx_s) 2 2 lowered /\ output_ok (Some bx_c) 0 2 2 (fun _ _ => 1) /\
  syhemm 0 1 Z.add Z.mul (fun x => x) (fun x => x) ColMajor RowMajor true bx_s bx_s (Some bx_c) 1 10 SRight Lower None = Ok (MutRef (mkTensor [11; 9; 11; 9; 12; 9; 12; 9] (t_layout bx_c))).
Proof. split; [apply bx_s_ok|]. split; [entries|]. split; [|reflexivity]. split; [apply bx_c_ok|]. split; [entries|]. split; [cbn; lia|]. right. split; reflexivity. Qed.
Print Assumptions C68_symm_square_partial.

(** C68: the same for rectangular b into a new result, from the left on a row-major device and from the right on a column-major one.  Missing: the two other combinations, which the next theorem refutes. *)
Theorem C68_symm_rect_partial : forall (T : Type) (zero one : T) add mul conj re dev dflt hermi (a b : tensor T) alpha beta s u A B m n,
  (forall x y, mul x y = mul y x) -> nonempty m n ->
  match dev, s with RowMajor, SLeft => True | ColMajor, SRight => True | _, _ => False end ->
  tensor_ok a -> holds (t_data a) (t_layout a) (side_extent s m n) (side_extent s m n) A -> tensor_ok b -> holds (t_data b) (t_layout b) m n B ->
  (hermi = true \/ match dev with RowMajor => c_prefer (t_layout a) | ColMajor => f_prefer (t_layout a) end = true \/ forall i j, (i < side_extent s m n)%nat -> (j < side_extent s m n)%nat -> A i j = A j i) ->
  exists y, syhemm zero one add mul conj re dev dflt hermi a b None alpha beta s u None = Ok y /\
    delivered None y m n (combined add mul alpha beta (side_product zero add mul s m n (symmetric_from conj re hermi u A) B) (fun _ _ => zero)).
Proof. exact l_symm_rect. Qed.
Example C68_example_rect : tensor_ok bx_g /\ holds (t_data bx_g) (t_layout bx_g) 2 3 (counting 3) /\
  syhemm 0 1 Z.add Z.mul (fun x => x) (fun x => x) RowMajor RowMajor false bx_s bx_g None 1 0 SLeft Lower None = Ok (Owned (mkTensor [5; 7; 9; 5; 7; 9] (mkLayout [2; 3]%nat [3; 1] 0))).
Proof. split; [apply bx_g_ok|]. split; [entries|reflexivity]. Qed.
Print Assumptions C68_symm_rect_partial.

(** C68: SYMM and HEMM take the number of columns of the result from a instead of b: on a column-major device a 2 by 2 matrix times a 2 by 3 matrix is returned as a 2 by 2 matrix, and times a 2 by 1 matrix reads beyond the storage. *)
Theorem C68_symm_rect_refuted : exists (a b y : tensor Z), tensor_ok a /\ tensor_ok b /\ holds (t_data a) (t_layout a) 2 2 (identity 0 1) /\ l_shape (t_layout b) = [2; 3]%nat /\
  (symmZ true ColMajor a b SLeft Lower = Ok (Owned y) /\ l_shape (t_layout y) = [2; 2]%nat) /\
  exists b', tensor_ok b' /\ l_shape (t_layout b') = [2; 1]%nat /\ symmZ true ColMajor a b' SLeft Lower = Panic.
Proof. exact l_symm_rect_refuted. Qed.
Print Assumptions C68_symm_rect_refuted.

(** C68: SYMM of a matrix stored in the other order uses the other triangle than the one asked for. *)
Theorem C68_symm_triangle_refuted : exists (a b y : tensor Z), tensor_ok a /\ tensor_ok b /\ at_ a [1; 0]%nat = Some 5 /\ holds (t_data b) (t_layout b) 2 2 (identity 0 1) /\
  symmZ false RowMajor a b SLeft Lower = Ok (Owned y) /\ at_ y [1; 0]%nat = Some 0.
Proof. exact l_symm_triangle_refuted. Qed.
Print Assumptions C68_symm_triangle_refuted.

(** C69: the TRSM wrapper solves op(T) X = alpha B (X op(T) = alpha B), where T is the chosen triangle of a (with unit diagonal if so asked), if the library solves such systems; a mutable b is overwritten and nothing else of its storage changed.  Missing: operands along an order away from the start of their storage and mutable b with gaps (both refuted below). *)
Theorem C69_trsm_partial : forall (T : Type) (zero one : T) add mul conj dev dflt lib (a : tensor T) r alpha s u t unit o A B m n,
  (forall x y, mul x y = mul y x) -> conj zero = zero -> conj one = one ->
  library_solves zero add mul conj lib (side_extent s m n) (op_of conj t (triangular zero one (chosen dev u) unit A)) ->
  tensor_ok a -> at_start (t_layout a) -> holds (t_data a) (t_layout a) (side_extent s m n) (side_extent s m n) A -> operand_ok r m n B -> nonempty m n -> t <> ConjOnly ->
  exists y X, trsm zero one conj dev dflt lib a r alpha s u t unit o = Ok y /\ delivered (target_of r) y m n X /\
    solves zero add mul s m n (op_of conj t (triangular zero one (chosen dev u) unit A)) X (fun i j => mul alpha (B i j)).
Proof. exact l_trsm. Qed.
(** a library that solves the systems with the matrix [[1; 0]; [1; 1]] *)
Definition back (t : ftrans) (R : list (list Z)) (i j : nat) : Z := match t with NoTrans => entry_at 0 R i j | _ => entry_at 0 R j i end.
Definition inverse (M : nat -> nat -> Z) (i j : nat) : Z := if (i =? j)%nat then 1 else - M i j.
Definition small_lib (s : side) (t : ftrans) (m n : nat) (alpha : Z) (R B : list (list Z)) (i j : nat) : Z :=
  alpha * match s with SLeft => product 0 Z.add Z.mul 2 (inverse (back t R)) (entry_at 0 B) i j | SRight => product 0 Z.add Z.mul 2 (entry_at 0 B) (inverse (back t R)) i j end.
Lemma nth_row {A} (f : nat -> A) d n : forall i s, (i < n)%nat -> nth i (map f (seq s n)) d = f (s + i)%nat.
Proof. induction n as [|n IH]; intros i s H; [lia|]. destruct i as [|i]; cbn; [now rewrite Nat.add_0_r|]. rewrite IH by lia. f_equal. lia. Qed.
Lemma entry_of_rows m n (A : nat -> nat -> Z) i j : (i < m)%nat -> (j < n)%nat -> entry_at 0 (rows m n A) i j = A i j.
Proof. intros Hi Hj. unfold entry_at, rows. rewrite (nth_row (fun i => map (A i) (seq 0 n))) by auto. cbn [Nat.add]. now rewrite nth_row. Qed.
Lemma small_solves : library_solves 0 Z.add Z.mul (fun x => x) small_lib 2 lowered.
Proof. intros s t m n alpha R B Hk Ht H.
  assert (V : forall i j, (i < 2)%nat -> (j < 2)%nat -> back t (rows 2 2 R) i j = op_of (fun x => x) t R i j). { intros i j Hi Hj. unfold back, op_of. destruct t; try congruence; now rewrite entry_of_rows. }
  assert (U : (forall i j, (i < 2)%nat -> (j < 2)%nat -> op_of (fun x => x) t R i j = lowered i j) \/ (forall i j, (i < 2)%nat -> (j < 2)%nat -> op_of (fun x => x) t R i j = lowered j i)) by exact H.
  intros i j Hi Hj. destruct s; cbn [side_extent] in Hk; subst; unfold small_lib, product, sum_over, total; cbn [seq map fold_right]; unfold inverse; cbn [Nat.eqb];
  rewrite ?entry_of_rows by lia; [destruct i as [|[|i]]; [| |lia]|destruct j as [|[|j]]; [| |lia]]; (destruct U as [U|U]; rewrite ?V, ?U by lia; unfold lowered; cbn [Nat.leb]; lia). Qed.
Example C69_example : library_solves 0 Z.add Z.mul (fun x => x) small_lib 2 lowered /\ tensor_ok bx_s /\ at_start (t_layout bx_s) /\ holds (t_data bx_s) (t_layout bx_s) 2 2 lowered /\ operand_ok (RMut bx_c) 2 2 (fun _ _ => 1) /\
  trsm 0 1 (fun x => x) RowMajor RowMajor small_lib bx_s (RMut bx_c) 5 SLeft (Some Lower) NoTrans false None = Ok (MutRef (mkTensor [5; 9; 5; 9; 0; 9; 0; 9] (t_layout bx_c))).
Proof. split; [apply small_solves|]. split; [apply bx_s_ok|]. split; [now left|]. split; [entries|]. split; [|reflexivity]. split; [apply bx_c_ok|]. split; [entries|]. split; [cbn; lia|]. right. split; reflexivity. Qed.
Print Assumptions C69_trsm_partial.

(** C69: solve_triangular returns X with T X = B, where T is the chosen (by default the device's) triangle of a.  Missing: as for TRSM. *)
Theorem C69_solve_triangular_partial : forall (T : Type) (zero one : T) add mul conj dev dflt lib (a : tensor T) r u A B m n,
  (forall x y, mul x y = mul y x) -> (forall x, mul one x = x) -> conj zero = zero -> conj one = one ->
  library_solves zero add mul conj lib m (triangular zero one (chosen dev u) false A) ->
  tensor_ok a -> at_start (t_layout a) -> holds (t_data a) (t_layout a) m m A -> operand_ok r m n B -> nonempty m n ->
  exists y X, solve_triangular zero one conj dev dflt lib a r u = Ok y /\ delivered (target_of r) y m n X /\
    solves zero add mul SLeft m n (triangular zero one (chosen dev u) false A) X B.
Proof. exact l_solve_triangular. Qed.
Example C69_example_solve : solve_triangular 0 1 (fun x => x) RowMajor RowMajor small_lib bx_s (Ref bx_c) None = Ok (Owned (mkTensor [1; 1; 0; 0] (mkLayout [2; 2]%nat [2; 1] 0))).
Proof. reflexivity. Qed.
Print Assumptions C69_solve_triangular_partial.

(** C69: solve_triangular with a matrix [1] that does not start at the beginning of its storage [2; 1] hands the matrix [2] to the library. *)
Theorem C69_trsm_offset_refuted : exists (a b : tensor Z), tensor_ok a /\ tensor_ok b /\ l_offset (t_layout a) = 1 /\ holds (t_data a) (t_layout a) 1 1 (identity 0 1) /\ holds (t_data b) (t_layout b) 1 1 (fun _ _ => 6) /\
  forall lib, exists y, solve_triangular 0 1 (fun x => x) RowMajor RowMajor lib a (Ref b) None = Ok (Owned y) /\ at_ y [0; 0]%nat = Some (lib SRight NoTrans 1%nat 1%nat 1 [[2]] [[6]] 0%nat 0%nat).
Proof. exact l_trsm_offset_refuted. Qed.
Print Assumptions C69_trsm_offset_refuted.

(** C69: a mutable b with gaps along an order: whatever the library does, it is given the 9 that stands in the gap as an entry and not the entry 3, and the solution is written over the gap (the number of rows is passed as the leading extent). *)
Theorem C69_trsm_gaps_refuted : exists (a b : tensor Z), tensor_ok a /\ tensor_ok b /\ holds (t_data a) (t_layout a) 2 2 (identity 0 1) /\ holds (t_data b) (t_layout b) 2 2 (fun i j => Z.of_nat (i + 2 * j)) /\ l_offset (t_layout a) = 0 /\ l_offset (t_layout b) = 0 /\
  (forall ix, valid (t_shape b) ix -> addr (t_layout b) ix <> 2) /\ peek (t_data b) 2 = Some 9 /\
  forall lib, let X := lib SLeft NoTrans 2%nat 2%nat 1 [[1; 0]; [0; 1]] [[0; 9]; [1; 2]] in
    solve_triangular 0 1 (fun x => x) ColMajor ColMajor lib a (RMut b) None = Ok (MutRef (mkTensor [X 0%nat 0%nat; X 1%nat 0%nat; X 0%nat 1%nat; X 1%nat 1%nat; 3] (t_layout b))).
Proof. exact l_trsm_gaps_refuted. Qed.
Print Assumptions C69_trsm_gaps_refuted.

(** C70: solve_general returns what LAPACK returns for the matrices a and b, whatever their layouts; it fails exactly if LAPACK does; a mutable b holds the solution afterwards and nothing else of its storage changed. *)
Theorem C70_solve_general : forall (T : Type) dev dflt lib (ra rb : reference T) n nrhs A B,
  nonempty n nrhs -> lapack_operand ra n n A -> not_broadcast ra -> lapack_operand rb n nrhs B ->
  match lib n nrhs (rows n n A) (rows n nrhs B) with
  | None => exists e, solve_general dev dflt lib ra rb = Err e
  | Some (F, p, X) => exists y, solve_general dev dflt lib ra rb = Ok y /\ delivered (target_of rb) y n nrhs X
  end.
Proof. exact l_solve_general. Qed.
Example C70_example : solve_general RowMajor RowMajor (fun n k A B => Some (fun _ _ => 0, [1; 2], fun i j => entry_at 0 A i j + 10 * entry_at 0 B i j)) (RMut bx_s) (RMut bx_c) = Ok (MutRef (mkTensor [11; 9; 10; 9; 11; 9; 11; 9] (t_layout bx_c))).
Proof. reflexivity. Qed.
Print Assumptions C70_solve_general.

(** C70: GESV also returns the factorisation in place of a, and the pivots counted from 0. *)
Theorem C70_gesv : forall (T : Type) dev dflt lib (ra rb : reference T) n nrhs A B,
  nonempty n nrhs -> lapack_operand ra n n A -> not_broadcast ra -> lapack_operand rb n nrhs B ->
  match lib n nrhs (rows n n A) (rows n nrhs B) with
  | None => exists e, gesv dev dflt lib ra rb = Err e
  | Some (F, p, X) => exists ya yb, gesv dev dflt lib ra rb = Ok (ya, map (fun i => i - 1)%Z p, yb) /\ delivered (target_of ra) ya n n F /\ delivered (target_of rb) yb n nrhs X
  end.
Proof. exact l_gesv. Qed.
Print Assumptions C70_gesv.

(** C70: if LAPACK solves the system, then what solve_general returns solves A X = B. *)
Theorem C70_solve_general_solves : forall (T : Type) (zero : T) add mul dev dflt lib (ra rb : reference T) n nrhs A B y,
  nonempty n nrhs -> lapack_operand ra n n A -> not_broadcast ra -> lapack_operand rb n nrhs B ->
  (forall F p X, lib n nrhs (rows n n A) (rows n nrhs B) = Some (F, p, X) -> solves zero add mul SLeft n nrhs A X B) ->
  solve_general dev dflt lib ra rb = Ok y -> exists X, delivered (target_of rb) y n nrhs X /\ solves zero add mul SLeft n nrhs A X B.
Proof. exact l_solve_general_solves. Qed.
Example C70_example_hypotheses : nonempty 2 2 /\ lapack_operand (RMut bx_s) 2 2 lowered /\ not_broadcast (RMut bx_s) /\ lapack_operand (RMut bx_c) 2 2 (fun _ _ => 1) /\
  solves 0 Z.add Z.mul SLeft 2 2 lowered (fun i j => if (i =? 0)%nat then 1 else 0) (fun _ _ => 1).
Proof. split; [split; lia|]. split; [apply bx_operand|]. split; [apply bx_operand|]. split; [apply bx_operand|]. intros [|[|i]] [|[|j]] Hi Hj; try lia; reflexivity. Qed.
Print Assumptions C70_solve_general_solves.

(** C70: solve_symmetric hands the chosen (by default the device's) triangle of a and b to LAPACK and returns what LAPACK returns; a is never changed. *)
Theorem C70_solve_symmetric : forall (T : Type) (zero one : T) dev dflt lib hermi (ra rb : reference T) u n nrhs A B,
  nonempty n nrhs -> tensor_ok (ref_of ra) -> holds (t_data (ref_of ra)) (t_layout (ref_of ra)) n n A -> lapack_operand rb n nrhs B ->
  match lib hermi (chosen dev u) n nrhs (rows n n (triangular zero one (chosen dev u) false A)) (rows n nrhs B) with
  | None => exists e, solve_symmetric zero one dev dflt lib hermi ra rb u = Err e
  | Some (F, p, X) => exists y, solve_symmetric zero one dev dflt lib hermi ra rb u = Ok y /\ delivered (target_of rb) y n nrhs X
  end.
Proof. exact l_solve_symmetric. Qed.
Example C70_example_symmetric : solve_symmetric 0 1 ColMajor RowMajor (fun h u n k A B => Some (fun _ _ => 0, [1; 2], fun i j => entry_at 0 A i j)) false (RMut bx_s) (Ref bx_c) None = Ok (Owned (mkTensor [1; 0; 0; 1] (mkLayout [2; 2]%nat [1; 2] 0))).
Proof. reflexivity. Qed.
Print Assumptions C70_solve_symmetric.

(** C70: if LAPACK solves the symmetric (Hermitian) system, then so does what solve_symmetric returns. *)
Theorem C70_solve_symmetric_solves : forall (T : Type) (zero one : T) add mul conj re dev dflt lib hermi (ra rb : reference T) u n nrhs A B y,
  nonempty n nrhs -> tensor_ok (ref_of ra) -> holds (t_data (ref_of ra)) (t_layout (ref_of ra)) n n A -> lapack_operand rb n nrhs B ->
  (forall F p X, lib hermi (chosen dev u) n nrhs (rows n n (triangular zero one (chosen dev u) false A)) (rows n nrhs B) = Some (F, p, X) ->
    solves zero add mul SLeft n nrhs (symmetric_from conj re hermi (chosen dev u) A) X B) ->
  solve_symmetric zero one dev dflt lib hermi ra rb u = Ok y ->
  exists X, delivered (target_of rb) y n nrhs X /\ solves zero add mul SLeft n nrhs (symmetric_from conj re hermi (chosen dev u) A) X B.
Proof. exact l_solve_symmetric_solves. Qed.
Print Assumptions C70_solve_symmetric_solves.

(** C70: a matrix that is not square, or does not fit the right-hand side, is refused with an error. *)
Theorem C70_solve_shape : forall (T : Type) (zero one : T) dev dflt lib slib hermi (ra rb : reference T) u ma na n nrhs A B,
  nonempty ma na -> nonempty n nrhs -> lapack_operand ra ma na A -> not_broadcast ra -> lapack_operand rb n nrhs B -> (ma, na) <> (n, n) ->
  (exists e, solve_general dev dflt lib ra rb = Err e) /\ (exists e, solve_symmetric zero one dev dflt slib hermi ra rb u = Err e).
Proof. exact l_solve_shape. Qed.
Print Assumptions C70_solve_shape.

(** C70: inv returns what the inversion of LAPACK returns for the factorisation (with its pivots) of LAPACK; it fails exactly if one of them fails; a mutable a holds the inverse afterwards. *)
Theorem C70_inv : forall (T : Type) dev dflt getrf_lib getri_lib (r : reference T) n A, nonempty n n -> lapack_operand r n n A ->
  match match getrf_lib n n (rows n n A) with None => None | Some (F, p) => getri_lib n (rows n n F) p end with
  | None => exists e, inv dev dflt getrf_lib getri_lib r = Err e
  | Some V => exists y, inv dev dflt getrf_lib getri_lib r = Ok y /\ delivered (target_of r) y n n V
  end.
Proof. exact l_inv. Qed.
Example C70_example_inv : inv RowMajor RowMajor (fun m n A => Some (fun i j => 2 * entry_at 0 A i j, [1; 2])) (fun n F p => Some (fun i j => entry_at 0 F i j + 100 * nth i p 0)) (RMut bx_c) = Ok (MutRef (mkTensor [102; 9; 102; 9; 202; 9; 202; 9] (t_layout bx_c))).
Proof. reflexivity. Qed.
Print Assumptions C70_inv.

(** C70: if LAPACK inverts the matrix, then what inv returns is its inverse on both sides. *)
Theorem C70_inv_inverts : forall (T : Type) (zero one : T) add mul dev dflt getrf_lib getri_lib (r : reference T) n A y, nonempty n n -> lapack_operand r n n A ->
  (forall F p V, getrf_lib n n (rows n n A) = Some (F, p) -> getri_lib n (rows n n F) p = Some V ->
    solves zero add mul SLeft n n A V (identity zero one) /\ solves zero add mul SRight n n A V (identity zero one)) ->
  inv dev dflt getrf_lib getri_lib r = Ok y ->
  exists V, delivered (target_of r) y n n V /\ solves zero add mul SLeft n n A V (identity zero one) /\ solves zero add mul SRight n n A V (identity zero one).
Proof. exact l_inv_inverts. Qed.
Example C70_example_inverse : solves 0 Z.add Z.mul SLeft 2 2 lowered (fun i j => if (i =? j)%nat then 1 else if (j <? i)%nat then -1 else 0) (identity 0 1) /\
  solves 0 Z.add Z.mul SRight 2 2 lowered (fun i j => if (i =? j)%nat then 1 else if (j <? i)%nat then -1 else 0) (identity 0 1).
Proof. split; intros [|[|i]] [|[|j]] Hi Hj; try lia; reflexivity. Qed.
Print Assumptions C70_inv_inverts.

(** C70: inv of a matrix that is not square is refused with an error. *)
Theorem C70_inv_shape : forall (T : Type) dev dflt getrf_lib getri_lib (r : reference T) m n A, nonempty m n -> lapack_operand r m n A -> m <> n -> exists e, inv dev dflt getrf_lib getri_lib r = Err e.
Proof. exact l_inv_shape. Qed.
Print Assumptions C70_inv_shape.

(** C70: cholesky factorises the chosen (by default the device's) triangle of a and clears the other one, for all layouts of a; a mutable a holds the factor afterwards. *)
Theorem C70_cholesky : forall (T : Type) (zero one : T) dev dflt lib (r : reference T) u n A, nonempty n n -> lapack_operand r n n A ->
  match lib (chosen dev u) n (rows n n (triangular zero one (chosen dev u) false A)) with
  | None => exists e, cholesky zero one dev dflt lib r u = Err e
  | Some F => exists y, cholesky zero one dev dflt lib r u = Ok y /\ delivered (target_of r) y n n (triangular zero one (chosen dev u) false F)
  end.
Proof. exact l_cholesky. Qed.
Example C70_example_cholesky : cholesky 0 1 RowMajor RowMajor (fun u n A => Some (fun i j => entry_at 0 A i j + 4)) (RMut bx_c) (Some Upper) = Ok (MutRef (mkTensor [5; 9; 5; 9; 0; 9; 5; 9] (t_layout bx_c))).
Proof. reflexivity. Qed.
Print Assumptions C70_cholesky.

(** C70: if LAPACK factorises the Hermitian matrix, then what cholesky returns is triangular and its product with its conjugate transpose is that matrix. *)
Theorem C70_cholesky_factors : forall (T : Type) (zero one : T) add mul conj re dev dflt lib (r : reference T) u n A y, nonempty n n -> lapack_operand r n n A ->
  (forall F, lib (chosen dev u) n (rows n n (triangular zero one (chosen dev u) false A)) = Some F ->
    forall i j, (i < n)%nat -> (j < n)%nat -> let L := triangular zero one (chosen dev u) false F in
    match chosen dev u with Lower => product zero add mul n L (op_of conj ConjTrans L) i j | Upper => product zero add mul n (op_of conj ConjTrans L) L i j end = symmetric_from conj re true (chosen dev u) A i j) ->
  cholesky zero one dev dflt lib r u = Ok y ->
  exists L, delivered (target_of r) y n n L /\ (forall i j, (i < n)%nat -> (j < n)%nat -> in_triangle (chosen dev u) i j = false -> L i j = zero) /\
    forall i j, (i < n)%nat -> (j < n)%nat ->
    match chosen dev u with Lower => product zero add mul n L (op_of conj ConjTrans L) i j | Upper => product zero add mul n (op_of conj ConjTrans L) L i j end = symmetric_from conj re true (chosen dev u) A i j.
Proof. exact l_cholesky_factors. Qed.
Example C70_example_factors : forall i j, (i < 2)%nat -> (j < 2)%nat -> product 0 Z.add Z.mul 2 lowered (op_of (fun x => x) ConjTrans lowered) i j = symmetric_from (fun x => x) (fun x => x) true Lower (fun i j => Z.of_nat (i + j) mod 2 + Z.of_nat (i * j) * 2 + (if (i + j =? 0)%nat then 1 else 0)) i j.
Proof. intros [|[|i]] [|[|j]] Hi Hj; try lia; reflexivity. Qed.
Print Assumptions C70_cholesky_factors.

(** C70: the POTRF wrapper called directly with a mutable view in neither order does not write the factor into that view. *)
Theorem C70_potrf_refuted : exists (t b : tensor Z) lib, tensor_ok t /\ holds (t_data t) (t_layout t) 2 2 (fun i j => if (i =? j)%nat then 4 else 0) /\ potrf 0 1 RowMajor RowMajor lib (RMut t) None = Ok (ToBeCloned t b) /\ at_ b [0; 0]%nat = Some 2 /\ at_ t [0; 0]%nat = Some 4.
Proof. exact l_potrf_refuted. Qed.
Print Assumptions C70_potrf_refuted.

(** C70: GESV returns pivots counted from 0, SYSV the same pivots counted from 1. *)
Theorem C70_sysv_pivots_refuted : exists (a b : tensor Z) F p X, tensor_ok a /\ tensor_ok b /\
  (exists ya yb, gesv RowMajor RowMajor (fun _ _ _ _ => Some (F, p, X)) (Ref a) (Ref b) = Ok (ya, [0; 1], yb)) /\
  (exists ya yb, sysv 0 1 RowMajor RowMajor (fun _ _ _ _ _ _ => Some (F, p, X)) false (Ref a) (Ref b) None = Ok (ya, [1; 2], yb)).
Proof. exact l_sysv_pivots_refuted. Qed.
Print Assumptions C70_sysv_pivots_refuted.
