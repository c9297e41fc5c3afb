(** Property theorems about the pseudo-inverse (C85).  Statements use Spec.v, Spec_Blas.v, Spec_Linalg.v and the modelled entry points of M_Linalg.v only. *)
From Coq Require Import String Ring_theory QArith Qcanon.
From Verif Require Import Base Spec Spec_Matmul Spec_Tri Spec_Blas P_Index M_Layout M_Rearr M_Kernel M_Tensor M_Matmul P_Strides P_Tensor M_Fast M_Tri M_Blas Spec_BlasApi M_Reduce Q_Reduce M_Linalg Spec_Linalg Q_Linalg2.
Local Open Scope Z_scope.

(** C85: pinv returns the Moore-Penrose inverse and the rank, over every commutative ring with an involution, for every layout of the matrix: the rank is the number of leading singular values above atol + rtol * (the largest), the matrix is the Moore-Penrose inverse of the decomposition cut to that rank, and that of the matrix itself if the values cut off are zero.  Missing: rank 0, refuted below. *)
Theorem C85_pinv_partial : forall (T R : Type) (zero one : T) add mul sub opp conj scale (emb : R -> T) div radd rmul rzero rgt rmax rlow of_nat eps dev dflt gesdd_lib (t : tensor T) tols m n A F s U V,
  ring_theory zero one add mul sub opp eq -> conjugation add mul conj -> real_scalars zero mul conj scale emb div -> comm_monoid rlow rmax -> nonempty m n -> is_matrix t m n A ->
  gesdd_lib JobS m n (rows m n A) = Some (F, s, U, V) -> decomposes zero add mul scale m n (Nat.min m n) A U s V -> orthonormal_columns zero one add mul conj m (Nat.min m n) U -> orthonormal_rows zero one add mul conj (Nat.min m n) n V ->
  let cut := match tols with Some (atol, rtol) => cut_off radd rmul rmax rlow (Nat.min m n) s atol rtol | None => cut_off radd rmul rmax rlow (Nat.min m n) s rzero (rmul (of_nat (Nat.max m n)) eps) end in
  (forall l, (l < Nat.min m n)%nat -> rgt (s l) cut = true -> emb (s l) <> zero) -> rgt (s 0%nat) cut = true ->
  exists p r B, pinv_f zero one dev dflt gesdd_lib mul radd rmul rzero add conj div rgt rmax rlow of_nat eps t tols = Ok (p, r) /\ is_matrix p n m B /\ numerical_rank rgt (Nat.min m n) s cut r /\
    penrose zero add mul conj m n (product zero add mul r (fun i l => scale (U i l) (s l)) V) B /\
    ((forall l, (r <= l < Nat.min m n)%nat -> emb (s l) = zero) -> penrose zero add mul conj m n A B).
Proof. exact l_pinv_partial. Qed.
(** rational numbers; singular values are natural numbers; the matrix [[0; 2]; [3; 0]] *)
Definition px_emb (n : nat) : Qc := Q2Qc (inject_Z (Z.of_nat n)).
Definition px_div (x : Qc) (n : nat) : Qc := (x / px_emb n)%Qc.
Definition px_q (z : Z) : Qc := Q2Qc (inject_Z z).
Definition px_matrix (a b c d : Z) (i j : nat) : Qc := px_q (match i, j with O, O => a | O, _ => b | _, O => c | _, _ => d end).
Definition px_s (i : nat) : nat := match i with O => 3 | _ => 2 end.
Definition px_lib (j : job) (m n : nat) (A : list (list Qc)) : option ((nat -> nat -> Qc) * (nat -> nat) * (nat -> nat -> Qc) * (nat -> nat -> Qc)) := Some (px_matrix 0 0 0 0, px_s, px_matrix 0 1 1 0, px_matrix 1 0 0 1).
Definition px_t : tensor Qc := mkTensor [px_q 9; px_q 0; px_q 2; px_q 9; px_q 3; px_q 0] (mkLayout [2; 2]%nat [3; 1] 1).
Ltac px := intros [|[|i]] [|[|j]] Hi Hj; try lia; apply Qc_is_canon; vm_compute; reflexivity.
Lemma px_scalars : real_scalars (px_q 0) Qcmult (fun x => x) (fun x n => (x * px_emb n)%Qc) px_emb px_div.
Proof. split; [reflexivity|]. split; [reflexivity|]. intros x r N. unfold px_div, Qcdiv. rewrite <- Qcmult_assoc, (Qcmult_comm (/ _)), Qcmult_inv_r by exact N. apply Qcmult_1_r. Qed.
Example C85_example : ring_theory (px_q 0) (px_q 1) Qcplus Qcmult Qcminus Qcopp eq /\ conjugation Qcplus Qcmult (fun x => x) /\ real_scalars (px_q 0) Qcmult (fun x => x) (fun x n => (x * px_emb n)%Qc) px_emb px_div /\ comm_monoid 0%nat Nat.max /\
  is_matrix px_t 2 2 (px_matrix 0 2 3 0) /\ decomposes (px_q 0) Qcplus Qcmult (fun x n => (x * px_emb n)%Qc) 2 2 2 (px_matrix 0 2 3 0) (px_matrix 0 1 1 0) px_s (px_matrix 1 0 0 1) /\
  orthonormal_columns (px_q 0) (px_q 1) Qcplus Qcmult (fun x => x) 2 2 (px_matrix 0 1 1 0) /\ orthonormal_rows (px_q 0) (px_q 1) Qcplus Qcmult (fun x => x) 2 2 (px_matrix 1 0 0 1) /\ px_emb 3 <> px_q 0 /\ px_emb 2 <> px_q 0 /\
  exists p, pinv_f (px_q 0) (px_q 1) RowMajor RowMajor px_lib Qcmult Nat.add Nat.mul 0%nat Qcplus (fun x => x) px_div (fun x y => (y <? x)%nat) Nat.max 0%nat (fun n => n) 0%nat px_t None = Ok (p, 2%nat) /\
    map this (t_data p) = [(0 # 1)%Q; (1 # 2)%Q; (1 # 3)%Q; (0 # 1)%Q] /\ l_stride (t_layout p) = [1; 2].
Proof. split; [exact Qcrt|]. split; [repeat split; reflexivity|]. split; [apply px_scalars|]. split; [split; [intros; lia|]; split; intros; lia|].
  split; [split; [unfold px_t; concrete_tensor|]; split; [reflexivity|]; intros [|[|i]] [|[|j]] Hi Hj; try lia; reflexivity|]. split; [px|]. split; [px|]. split; [px|].
  split; [intro E; apply (f_equal this) in E; discriminate|]. split; [intro E; apply (f_equal this) in E; discriminate|]. eexists. split; [vm_compute; reflexivity|]. split; reflexivity. Qed.
Print Assumptions C85_pinv_partial.

(** C85: tensors that are not matrices are refused; a failure of LAPACK is an error. *)
Theorem C85_pinv_fails : forall (T R : Type) (zero one : T) add mul sub opp conj div radd rmul rzero rgt rmax rlow of_nat eps dev dflt gesdd_lib (t : tensor T) (tols : option (R * R)) m n A,
  ring_theory zero one add mul sub opp eq -> comm_monoid rlow rmax ->
  (length (t_shape t) <> 2%nat -> pinv_f zero one dev dflt gesdd_lib mul radd rmul rzero add conj div rgt rmax rlow of_nat eps t tols = Err InvalidLayout) /\
  (nonempty m n -> is_matrix t m n A -> gesdd_lib JobS m n (rows m n A) = None -> pinv_f zero one dev dflt gesdd_lib mul radd rmul rzero add conj div rgt rmax rlow of_nat eps t tols = Err Miscellaneous).
Proof. exact l_pinv_fails. Qed.
Print Assumptions C85_pinv_fails.

(** C85: pinv of the zero matrix (rank 0) ends the program on a column-major device instead of returning zero and rank 0: GEMM of an n by 0 and a 0 by m matrix is called with a leading extent that is too small. *)
Theorem C85_pinv_zero_refuted : exists (t : tensor Z) F s U V, is_matrix t 2 2 (fun _ _ => 0) /\ zero_lib JobS 2 2 (rows 2 2 (fun _ _ => 0)) = Some (F, s, U, V) /\ decomposes 0 Z.add Z.mul Z.mul 2 2 2 (fun _ _ => 0) U s V /\
  orthonormal_columns 0 1 Z.add Z.mul (fun x => x) 2 2 U /\ orthonormal_rows 0 1 Z.add Z.mul (fun x => x) 2 2 V /\
  pinv_f 0 1 ColMajor RowMajor zero_lib Z.mul Z.add Z.mul 0 Z.add (fun x => x) Z.div Z.gtb Z.max 0 Z.of_nat 0 t None = Panic.
Proof. exact l_pinv_zero_refuted. Qed.
Print Assumptions C85_pinv_zero_refuted.
