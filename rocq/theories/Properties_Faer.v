(** Property theorems about the linear algebra functions of the faer device (C86-C92).  Statements use Spec.v, Spec_Blas.v, Spec_Linalg.v, Spec_Faer.v and the modelled entry points of M_Faer.v and M_Tensor.v only. *)
From Coq Require Import String Ring_theory QArith Qcanon.
From Verif Require Import Base Spec Spec_Matmul Spec_Tri Spec_Blas P_Index M_Layout M_Indexer M_Broadcast M_Rearr M_Kernel M_Tensor M_Matmul P_Strides P_Tensor M_Fast M_Tri M_Blas Spec_BlasApi M_Reduce Q_Reduce M_Linalg Spec_Linalg M_Faer Spec_Faer P_Faer8 Q_Faer.
Local Open Scope Z_scope.

(** rational numbers, and the matrix with rows [a; b] and [c; d] *)
Definition fx_q (z : Z) : Qc := Q2Qc (inject_Z z).
Definition fx_matrix (a b c d : Z) (i j : nat) : Qc := fx_q (match i, j with O, O => a | O, _ => b | _, O => c | _, _ => d end).
Definition fx_z (a b c d : Z) (i j : nat) : Z := match i, j with O, O => a | O, _ => b | _, O => c | _, _ => d end.
Ltac fx := intros [|[|i]] [|[|j]] Hi Hj; try lia; apply Qc_is_canon; vm_compute; reflexivity.
Ltac fz := intros [|[|i]] [|[|j]] Hi Hj; try lia; vm_compute; reflexivity.
Ltac fm := split; [concrete_tensor|]; split; [reflexivity|]; intros [|[|i]] [|[|j]] Hi Hj; try lia; reflexivity.
(** a matrix in the middle of its storage with reversed rows, and a device with 3 threads *)
Definition fx_t : tensor Z := mkTensor [9; 3; 0; 9; 0; 2; 9] (mkLayout [2; 2]%nat [-3; 1] 4).
Definition fx_d : device := mkDevice 3 RowMajor.

(** C86: faer sees exactly the elements of the tensor: its view of a matrix of any layout (negative and zero strides included) has the same rows, columns and entries. *)
Theorem C86_reads : forall (T : Type) (t : tensor T) m n A, is_matrix t m n A -> fm_rows (into_faer t) = m /\ fm_cols (into_faer t) = n /\ fm_read (into_faer t) = Ok (rows m n A).
Proof. exact l_faer_reads. Qed.
Example C86_example : is_matrix fx_t 2 2 (fx_z 0 2 3 0) /\ injective (t_layout fx_t) /\ fm_read (into_faer fx_t) = Ok [[0; 2]; [3; 0]].
Proof. split; [unfold fx_t; fm|]. split; [|reflexivity]. unfold fx_t. cbn [t_layout]. intros i j Vi Vj E. inversion Vi as [|a ? ? ? Ha Va]; subst. inversion Va as [|b ? ? ? Hb Vb]; subst. inversion Vb; subst. inversion Vj as [|c ? ? ? Hc Vc]; subst. inversion Vc as [|d ? ? ? Hd Vd]; subst. inversion Vd; subst. unfold addr in E. cbn [l_stride l_offset dot] in E. assert (a = c /\ b = d) by lia. destruct H as (-> & ->). reflexivity. Qed.
Print Assumptions C86_reads.

(** C86: what faer writes through its mutable view of a tensor with distinct addresses arrives in exactly the elements of that tensor; every other element of the storage keeps its value. *)
Theorem C86_writes : forall (T : Type) (t : tensor T) m n A X, is_matrix t m n A -> injective (t_layout t) ->
  exists f, fm_write (into_faer t) X = Ok f /\ is_matrix (mkTensor (fm_data f) (t_layout t)) m n X /\ untouched_outside (t_layout t) (t_data t) (fm_data f).
Proof. exact l_faer_writes. Qed.
Print Assumptions C86_writes.

(** C86: the tensor made from a matrix that faer allocated (with any padding between its columns) has its entries. *)
Theorem C86_owned : forall (T : Type) (cap : nat -> nat) (pad : nat -> T) m n X, (forall k, (k <= cap k)%nat) -> exists t, into_rstsr (fm_new cap pad m n X) = Ok t /\ is_matrix t m n X.
Proof. exact l_faer_owned. Qed.
Example C86_owned_example : (forall k, (k <= S k)%nat) /\ into_rstsr (fm_new S (fun _ => 7) 2 2 (fx_z 0 2 3 0)) = Ok (mkTensor [0; 3; 7; 2; 0] (mkLayout [2; 2]%nat [1; 3] 0)).
Proof. split; [intros; lia|reflexivity]. Qed.
Print Assumptions C86_owned.

(** C86: a tensor view made from the faer view of a tensor has the same entries and strides, for strides that are not negative.  Missing: negative strides, refuted below; empty matrices. *)
Theorem C86_round_partial : forall (T : Type) (t : tensor T) m n A, is_matrix t m n A -> nonempty m n -> Forall (fun s => 0 <= s) (l_stride (t_layout t)) ->
  exists t', into_rstsr (into_faer t) = Ok t' /\ is_matrix t' m n A /\ l_stride (t_layout t') = l_stride (t_layout t).
Proof. exact l_faer_round_partial. Qed.
Print Assumptions C86_round_partial.

(** C86: a tensor view with a negative stride cannot come back from faer: the conversion panics, since it starts its storage at the first element. *)
Theorem C86_round_refuted : exists t : tensor Z, is_matrix t 2 2 (fun i j => match i, j with O, O => 3 | O, _ => 4 | _, O => 1 | _, _ => 2 end) /\ fm_read (into_faer t) = Ok [[3; 4]; [1; 2]] /\ into_rstsr (into_faer t) = Panic.
Proof. exact l_faer_round_refuted. Qed.
Print Assumptions C86_round_refuted.

(** C87: svd on the faer device hands the matrix to faer and returns what faer returns, U, s and the transpose of V, of the documented shapes for full and thin factors, with the parallel degree of the device; an error of faer is returned as an error. *)
Theorem C87_svd : forall (T R : Type) (rp : T -> R) dflt cores cap pad svd_lib pool (a : placed T) (full : bool) m n A g, (forall k, (k <= cap k)%nat) -> is_matrix (p_tensor a) m n A ->
  outcome (svd_lib (active pool g) full m n (rows m n A)) pool g (faer_svd_f rp dflt cores cap pad svd_lib pool a full)
    (fun x y => let '(U, s, V) := x in let '(u, sv, vt) := y in
      is_matrix (p_tensor u) m (if full then m else Nat.min m n) U /\ is_vector (p_tensor sv) (Nat.min m n) (fun i => rp (s i)) /\ is_matrix (p_tensor vt) (if full then n else Nat.min m n) n (fun i j => V j i)).
Proof. exact l_faer_svd. Qed.
Print Assumptions C87_svd.

(** C87: for real numbers the returned factors are the singular value decomposition A = U diag(s) Vh.  Missing: complex numbers, refuted below. *)
Theorem C87_svd_partial : forall (T R : Type) (zero one : T) add mul conj scale (rp : T -> R) dflt cores cap pad svd_lib pool (a : placed T) (full : bool) m n A g u sv vt g', (forall k, (k <= cap k)%nat) -> is_matrix (p_tensor a) m n A ->
  (forall x, conj x = x) ->
  (forall U s V, svd_lib (active pool g) full m n (rows m n A) = Ok (U, s, V) -> decomposes zero add mul scale m n (Nat.min m n) A U (fun l => rp (s l)) (op_of conj ConjTrans V) /\
     orthonormal_columns zero one add mul conj m (if full then m else Nat.min m n) U /\ orthonormal_rows zero one add mul conj (if full then n else Nat.min m n) n (op_of conj ConjTrans V)) ->
  faer_svd_f rp dflt cores cap pad svd_lib pool a full g = (Ok (u, sv, vt), g') ->
  exists U s V, is_matrix (p_tensor u) m (if full then m else Nat.min m n) U /\ is_vector (p_tensor sv) (Nat.min m n) s /\ is_matrix (p_tensor vt) (if full then n else Nat.min m n) n V /\
    decomposes zero add mul scale m n (Nat.min m n) A U s V /\ orthonormal_columns zero one add mul conj m (if full then m else Nat.min m n) U /\ orthonormal_rows zero one add mul conj (if full then n else Nat.min m n) n V.
Proof. exact l_faer_svd_partial. Qed.
Definition fx_svd (_ : par) (_ : bool) (_ _ : nat) (_ : list (list Z)) : res ((nat -> nat -> Z) * (nat -> Z) * (nat -> nat -> Z)) := Ok (fx_z 0 1 1 0, (fun i => match i with O => 3 | _ => 2 end), fx_z 1 0 0 1).
Example C87_example : is_matrix fx_t 2 2 (fx_z 0 2 3 0) /\ decomposes 0 Z.add Z.mul Z.mul 2 2 2 (fx_z 0 2 3 0) (fx_z 0 1 1 0) (fun i => match i with O => 3 | _ => 2 end) (fx_z 1 0 0 1) /\
  orthonormal_columns 0 1 Z.add Z.mul (fun x => x) 2 2 (fx_z 0 1 1 0) /\ orthonormal_rows 0 1 Z.add Z.mul (fun x => x) 2 2 (fx_z 1 0 0 1) /\
  exists y, faer_svd_f (fun x => x) RowMajor 4 S (fun _ => 7) fx_svd (Some 3%nat) (mkPlaced fx_t fx_d) false ParSeq = (Ok y, ParSeq).
Proof. split; [unfold fx_t; fm|]. split; [fz|]. split; [fz|]. split; [fz|]. eexists. vm_compute. reflexivity. Qed.
Print Assumptions C87_svd_partial.

(** C87: for complex numbers svd is not a decomposition: it returns the transpose of V without conjugation. *)
Theorem C87_svd_complex_refuted : exists (a : placed gz) u sv vt, is_matrix (p_tensor a) 1 1 (fun _ _ => (0, 1)) /\
  (forall g U s V, i_svd g false 1 1 [[(0, 1)]] = Ok (U, s, V) -> decomposes (0, 0) gadd gmul gscale 1 1 1 (fun _ _ => (0, 1)) U (fun l => fst (s l)) (op_of gconj ConjTrans V) /\
     orthonormal_columns (0, 0) (1, 0) gadd gmul gconj 1 1 U /\ orthonormal_rows (0, 0) (1, 0) gadd gmul gconj 1 1 (op_of gconj ConjTrans V)) /\
  faer_svd_f fst RowMajor 4 (fun k => k) (fun _ => (0, 0)) i_svd (Some 4%nat) a false ParSeq = (Ok (u, sv, vt), ParSeq) /\
  forall U s V, is_matrix (p_tensor u) 1 1 U -> is_vector (p_tensor sv) 1 s -> is_matrix (p_tensor vt) 1 1 V -> ~ decomposes (0, 0) gadd gmul gscale 1 1 1 (fun _ _ => (0, 1)) U s V.
Proof. exact l_faer_svd_complex_refuted. Qed.
Print Assumptions C87_svd_complex_refuted.

(** C87: svdvals returns the values that faer returns, in the same order. *)
Theorem C87_svdvals : forall (T R : Type) svdvals_lib pool (a : placed T) m n A g, is_matrix (p_tensor a) m n A ->
  outcome (svdvals_lib (active pool g) m n (rows m n A)) pool g (faer_svdvals svdvals_lib pool a)
    (fun l y => forall f : nat -> R, (forall i, (i < length l)%nat -> nth_error l i = Some (f i)) -> is_vector (p_tensor y) (length l) f).
Proof. exact l_faer_svdvals. Qed.
Print Assumptions C87_svdvals.

(** C87: pinv on the faer device returns the Moore-Penrose inverse and the rank, real or complex, for every layout of the matrix and every schedule of the product: the rank is the number of leading singular values above atol + rtol * (the largest), the matrix is the Moore-Penrose inverse of the decomposition cut to that rank, and that of the matrix itself if the values cut off are zero.  Rank 0 included.  Missing: empty matrices, refuted below. *)
Theorem C87_pinv_partial : forall (T R : Type) (zero one : T) add mul sub opp conj scale (emb : R -> T) div (rp : T -> R) dflt cores cap pad svd_lib eqb radd rmul rzero rcmp rgt of_nat eps tree tri sched junk pool (a : placed T) tols m n A U sv V g,
  ring_theory zero one add mul sub opp eq -> conjugation add mul conj -> real_scalars zero mul conj scale emb div -> (forall k, (k <= cap k)%nat) -> (forall x y, eqb x y = true <-> x = y) -> ordered rcmp ->
  (forall l, Permutation (tri l) l) -> (forall l, Permutation (sched l) l) -> nonempty m n -> is_matrix (p_tensor a) m n A ->
  let k := Nat.min m n in let s := fun l => rp (sv l) in
  svd_lib (active pool g) false m n (rows m n A) = Ok (U, sv, V) -> decomposes zero add mul scale m n k A U s (op_of conj ConjTrans V) -> orthonormal_columns zero one add mul conj m k U -> orthonormal_rows zero one add mul conj k n (op_of conj ConjTrans V) ->
  exists p r B mx, faer_pinv_f zero one conj rp dflt cores cap pad svd_lib add mul eqb div radd rmul rzero rcmp rgt of_nat eps tree tri sched junk pool a tols g = (Ok (p, r), g) /\ is_matrix (p_tensor p) n m B /\ greatest rcmp k s mx /\
    let cut := match tols with Some (atol, rtol) => radd atol (rmul rtol mx) | None => radd rzero (rmul (rmul (of_nat (Nat.max m n)) eps) mx) end in
    numerical_rank rgt k s cut r /\
    ((forall l, (l < k)%nat -> rgt (s l) cut = true -> emb (s l) <> zero) ->
     penrose zero add mul conj m n (product zero add mul r (fun i l => scale (U i l) (s l)) (op_of conj ConjTrans V)) B /\
     ((forall l, (r <= l < k)%nat -> emb (s l) = zero) -> penrose zero add mul conj m n A B)).
Proof. exact l_faer_pinv_partial. Qed.
Definition fx_emb (n : nat) : Qc := fx_q (Z.of_nat n).
Definition fx_div (x : Qc) (n : nat) : Qc := (x / fx_emb n)%Qc.
Definition fx_s (i : nat) : nat := match i with O => 3 | _ => 2 end.
Definition fx_rp (x : Qc) : nat := Z.to_nat (Qnum (this x)).
Definition fx_qsvd (_ : par) (_ : bool) (_ _ : nat) (_ : list (list Qc)) : res ((nat -> nat -> Qc) * (nat -> Qc) * (nat -> nat -> Qc)) := Ok (fx_matrix 0 1 1 0, (fun i => fx_emb (fx_s i)), fx_matrix 1 0 0 1).
Definition fx_qt : tensor Qc := mkTensor [fx_q 9; fx_q 3; fx_q 0; fx_q 9; fx_q 0; fx_q 2] (mkLayout [2; 2]%nat [-3; 1] 4).
Lemma fx_scalars : real_scalars (fx_q 0) Qcmult (fun x => x) (fun x n => (x * fx_emb n)%Qc) fx_emb fx_div.
Proof. split; [reflexivity|]. split; [reflexivity|]. intros x r N. unfold fx_div, Qcdiv. rewrite <- Qcmult_assoc, (Qcmult_comm (/ _)), Qcmult_inv_r by exact N. apply Qcmult_1_r. Qed.
Example C87_pinv_example : ring_theory (fx_q 0) (fx_q 1) Qcplus Qcmult Qcminus Qcopp eq /\ conjugation Qcplus Qcmult (fun x => x) /\ real_scalars (fx_q 0) Qcmult (fun x => x) (fun x n => (x * fx_emb n)%Qc) fx_emb fx_div /\
  (forall x y, Qc_eq_bool x y = true <-> x = y) /\ ordered (fun a b : nat => Some (a ?= b)%nat) /\ is_matrix fx_qt 2 2 (fx_matrix 0 2 3 0) /\
  decomposes (fx_q 0) Qcplus Qcmult (fun x n => (x * fx_emb n)%Qc) 2 2 2 (fx_matrix 0 2 3 0) (fx_matrix 0 1 1 0) fx_s (fx_matrix 1 0 0 1) /\
  orthonormal_columns (fx_q 0) (fx_q 1) Qcplus Qcmult (fun x => x) 2 2 (fx_matrix 0 1 1 0) /\ orthonormal_rows (fx_q 0) (fx_q 1) Qcplus Qcmult (fun x => x) 2 2 (fx_matrix 1 0 0 1) /\
  exists p, faer_pinv_f (fx_q 0) (fx_q 1) (fun x => x) fx_rp RowMajor 4 S (fun _ => fx_q 7) fx_qsvd Qcplus Qcmult Qc_eq_bool fx_div Nat.add Nat.mul 0%nat (fun a b : nat => Some (a ?= b)%nat) (fun a b => (b <? a)%nat) (fun n => n) 0%nat
      Leaf (fun l => l) (fun l => l) (fun _ => fx_q 8) (Some 3%nat) (mkPlaced fx_qt fx_d) None ParSeq = (Ok (p, 2%nat), ParSeq) /\ map this (t_data (p_tensor p)) = [(0 # 1)%Q; (1 # 3)%Q; (1 # 2)%Q; (0 # 1)%Q].
Proof. split; [exact Qcrt|]. split; [repeat split; reflexivity|]. split; [apply fx_scalars|]. split; [intros x y; split; [apply Qc_eq_bool_correct|intros ->; unfold Qc_eq_bool; destruct (Qc_eq_dec y y); congruence]|].
  split; [split; [discriminate|]; split; [intros a b H; injection H as H; apply Nat.compare_gt_iff in H; intro X; injection X as X; apply Nat.compare_gt_iff in X; lia|intros a b c H1 H2 H3; injection H3 as H3; apply Nat.compare_gt_iff in H3; destruct (Nat.compare_spec a b), (Nat.compare_spec b c); try congruence; lia]|].
  split; [unfold fx_qt; fm|]. split; [fx|]. split; [fx|]. split; [fx|]. eexists. split; [vm_compute; reflexivity|]. reflexivity. Qed.
Print Assumptions C87_pinv_partial.

(** C87: tensors that are not matrices are refused; a failure of faer is an error. *)
Theorem C87_pinv_fails : forall (T R : Type) (zero one : T) add mul conj div (rp : T -> R) dflt cores cap pad svd_lib eqb radd rmul rzero rcmp rgt of_nat eps tree tri sched junk pool (a : placed T) tols m n A g e,
  (length (t_shape (p_tensor a)) <> 2%nat -> faer_pinv_f zero one conj rp dflt cores cap pad svd_lib add mul eqb div radd rmul rzero rcmp rgt of_nat eps tree tri sched junk pool a tols g = (Err InvalidLayout, g)) /\
  (is_matrix (p_tensor a) m n A -> svd_lib (active pool g) false m n (rows m n A) = Err e -> fst (faer_pinv_f zero one conj rp dflt cores cap pad svd_lib add mul eqb div radd rmul rzero rcmp rgt of_nat eps tree tri sched junk pool a tols g) = Err FaerError).
Proof. exact l_faer_pinv_fails. Qed.
Print Assumptions C87_pinv_fails.

(** C87: pinv of an empty matrix panics instead of returning the empty inverse: it takes the maximum of no singular values. *)
Theorem C87_pinv_empty_refuted : forall (T R : Type) (zero one : T) add mul conj div (rp : T -> R) dflt cores cap pad svd_lib eqb radd rmul rzero rcmp rgt of_nat eps tree tri sched junk pool (a : placed T) tols m n A g x,
  (forall k, (k <= cap k)%nat) -> ~ nonempty m n -> is_matrix (p_tensor a) m n A -> svd_lib (active pool g) false m n (rows m n A) = Ok x ->
  fst (faer_pinv_f zero one conj rp dflt cores cap pad svd_lib add mul eqb div radd rmul rzero rcmp rgt of_nat eps tree tri sched junk pool a tols g) = Panic.
Proof. exact l_faer_pinv_empty_refuted. Qed.
Print Assumptions C87_pinv_empty_refuted.

(** C88: eigvalsh gives faer the chosen triangle only (the other triangle is never read) and returns the eigenvalues that faer returns, in the same order. *)
Theorem C88_eigvalsh : forall (T R : Type) (zero one : T) eigvals_lib pool (a : placed T) u m n A g, is_matrix (p_tensor a) m n A ->
  outcome (eigvals_lib (active pool g) (chosen (d_order (p_device a)) u) m n (rows m n (triangular zero one (chosen (d_order (p_device a)) u) false A))) pool g (faer_eigvalsh zero eigvals_lib pool a u)
    (fun l y => forall f : nat -> R, (forall i, (i < length l)%nat -> nth_error l i = Some (f i)) -> is_vector (p_tensor y) (length l) f).
Proof. exact l_faer_eigvalsh. Qed.
Print Assumptions C88_eigvalsh.

(** C88: eigh gives faer the chosen triangle only and returns the (real parts of the) eigenvalues and the eigenvectors that faer returns. *)
Theorem C88_eigh : forall (T R : Type) (zero one : T) (rp : T -> R) dflt cores cap pad eigen_lib pool (a : placed T) u m n A g, (forall k, (k <= cap k)%nat) -> is_matrix (p_tensor a) m n A ->
  outcome (eigen_lib (active pool g) (chosen (d_order (p_device a)) u) m n (rows m n (triangular zero one (chosen (d_order (p_device a)) u) false A))) pool g (faer_eigh zero rp dflt cores cap pad eigen_lib pool a u)
    (fun x y => is_vector (p_tensor (fst y)) m (fun i => rp (fst x i)) /\ is_matrix (p_tensor (snd y)) m m (snd x)).
Proof. exact l_faer_eigh. Qed.
Print Assumptions C88_eigh.

(** C88: eigh on the faer device returns eigenvalues and orthonormal eigenvectors of the symmetric (Hermitian) matrix stored in the chosen triangle, the device's default one when none is chosen, for every layout. *)
Theorem C88_eigh_solves : forall (T R : Type) (zero one : T) add mul conj re scale hermi (rp : T -> R) dflt cores cap pad eigen_lib pool (a : placed T) u n A g ws vs g', (forall k, (k <= cap k)%nat) -> is_matrix (p_tensor a) n n A ->
  (forall w V, eigen_lib (active pool g) (chosen (d_order (p_device a)) u) n n (rows n n (triangular zero one (chosen (d_order (p_device a)) u) false A)) = Ok (w, V) ->
     eigen zero add mul scale n (symmetric_from conj re hermi (chosen (d_order (p_device a)) u) A) V (fun j => rp (w j)) /\ orthonormal_columns zero one add mul conj n n V) ->
  faer_eigh zero rp dflt cores cap pad eigen_lib pool a u g = (Ok (ws, vs), g') ->
  exists w V, is_vector (p_tensor ws) n w /\ is_matrix (p_tensor vs) n n V /\ eigen zero add mul scale n (symmetric_from conj re hermi (chosen (d_order (p_device a)) u) A) V w /\ orthonormal_columns zero one add mul conj n n V.
Proof. exact l_faer_eigh_solves. Qed.
Example C88_example : is_matrix (mkTensor [5; 9; 0; 7] (mkLayout [2; 2]%nat [2; 1] 0)) 2 2 (fx_z 5 9 0 7) /\
  eigen 0 Z.add Z.mul Z.mul 2 (symmetric_from (fun x => x) (fun x => x) true Lower (fx_z 5 9 0 7)) (identity 0 1) (fun i => fx_z 5 0 0 7 i i) /\ orthonormal_columns 0 1 Z.add Z.mul (fun x => x) 2 2 (identity 0 1) /\
  exists y, faer_eigh 0 (fun x => x) RowMajor 4 S (fun _ => 7) diag_lib (Some 3%nat) (mkPlaced (mkTensor [5; 9; 0; 7] (mkLayout [2; 2]%nat [2; 1] 0)) fx_d) (Some Lower) ParSeq = (Ok y, ParSeq) /\ t_data (p_tensor (fst y)) = [5; 7].
Proof. split; [fm|]. split; [fz|]. split; [fz|]. eexists. split; [vm_compute; reflexivity|]. reflexivity. Qed.
Print Assumptions C88_eigh_solves.

(** C88: generalised eigh (A v = w B v, A B v = w v, B A v = w v) on the faer device, over every field with a conjugation, returns solutions of the chosen problem for the matrices stored in the chosen triangles: the reductions to and from the standard problem with the Cholesky factor of B are right for every triangle and layout.  Missing: a tensor A whose elements share addresses, refuted below. *)
Theorem C88_eigh_general_partial : forall (T R : Type) (zero one : T) add mul sub opp conj (rp : T -> R) (emb : R -> T) dflt cores cap pad eigen_lib llt_lib tri_lib pool (a b : placed T) u itype n A B g,
  ring_theory zero one add mul sub opp eq -> conjugation add mul conj -> (forall r, conj (emb r) = emb r) -> (forall x, conj x = x -> emb (rp x) = x) -> (forall k, (k <= cap k)%nat) -> solves_triangles zero one add mul tri_lib ->
  is_matrix (p_tensor a) n n A -> injective (t_layout (p_tensor a)) -> is_matrix (p_tensor b) n n B -> p_device a = p_device b -> 1 <= itype <= 3 ->
  let t := chosen (d_order (p_device a)) u in let symm := symmetric_from conj (fun x => emb (rp x)) true t in
  let run := faer_eigh_general zero one conj rp emb dflt cores cap pad eigen_lib llt_lib tri_lib pool a b u itype in
  (forall L, llt_lib (active pool g) t n n (rows n n (triangular zero one t false B)) = Ok L -> cholesky_of zero add mul conj n (symm B) L) ->
  match llt_lib (active pool g) t n n (rows n n (triangular zero one t false B)) with
  | Ok L => exists C, outcome (eigen_lib (active pool g) t n n (rows n n (triangular zero one t false C))) pool g run (fun x y =>
      eigen zero add mul mul n (symm C) (snd x) (fst x) -> (forall j, (j < n)%nat -> emb (rp (fst x j)) = fst x j) ->
      exists w V, is_vector (p_tensor (fst y)) n w /\ is_matrix (p_tensor (snd y)) n n V /\ eigen_general zero add mul (fun x r => mul x (emb r)) itype n (symm A) (symm B) V w)
  | Err _ => run g = (Err FaerError, active pool g)
  | Panic => run g = (Panic, active pool g)
  end.
Proof. exact l_faer_eigh_general_partial. Qed.
Lemma fx_inverse x : x <> fx_q 0 -> (x * / x)%Qc = fx_q 1.
Proof. intro N. apply Qcmult_inv_r. exact N. Qed.
(** A = [[12; 6]; [6; 8]] and B = [[4; 2]; [2; 2]], with the other triangles spoilt *)
Definition fx_llt (_ : par) (_ : uplo) (_ _ : nat) (_ : list (list Qc)) : res (nat -> nat -> Qc) := Ok (fx_matrix 2 0 1 1).
Definition fx_eig (_ : par) (_ : uplo) (_ _ : nat) (A : list (list Qc)) : res ((nat -> Qc) * (nat -> nat -> Qc)) := Ok (fun i => nth i (nth i A []) (fx_q 0), fx_matrix 1 0 0 1).
Example C88_general_example : ring_theory (fx_q 0) (fx_q 1) Qcplus Qcmult Qcminus Qcopp eq /\ conjugation Qcplus Qcmult (fun x => x) /\ solves_triangles (fx_q 0) (fx_q 1) Qcplus Qcmult (substitution (fx_q 0) Qcplus Qcmult Qcminus Qcinv) /\
  is_matrix (mkTensor [fx_q 12; fx_q 99; fx_q 6; fx_q 8] (mkLayout [2; 2]%nat [2; 1] 0)) 2 2 (fx_matrix 12 99 6 8) /\ is_matrix (mkTensor [fx_q 4; fx_q 99; fx_q 2; fx_q 2] (mkLayout [2; 2]%nat [2; 1] 0)) 2 2 (fx_matrix 4 99 2 2) /\
  cholesky_of (fx_q 0) Qcplus Qcmult (fun x => x) 2 (symmetric_from (fun x => x) (fun x => x) true Lower (fx_matrix 4 99 2 2)) (fx_matrix 2 0 1 1) /\
  exists y, faer_eigh_general (fx_q 0) (fx_q 1) (fun x => x) (fun x => x) (fun x => x) RowMajor 4 S (fun _ => fx_q 7) fx_eig fx_llt (substitution (fx_q 0) Qcplus Qcmult Qcminus Qcinv) (Some 3%nat)
      (mkPlaced (mkTensor [fx_q 12; fx_q 99; fx_q 6; fx_q 8] (mkLayout [2; 2]%nat [2; 1] 0)) fx_d) (mkPlaced (mkTensor [fx_q 4; fx_q 99; fx_q 2; fx_q 2] (mkLayout [2; 2]%nat [2; 1] 0)) fx_d) (Some Lower) 1 ParSeq = (Ok y, ParSeq) /\
    map this (t_data (p_tensor (fst y))) = [(3 # 1)%Q; (5 # 1)%Q] /\ map this (t_data (p_tensor (snd y))) = [(1 # 2)%Q; (-1 # 2)%Q; (0 # 1)%Q; (1 # 1)%Q].
Proof. split; [exact Qcrt|]. split; [repeat split; reflexivity|]. split; [exact (substitution_ok (fx_q 0) (fx_q 1) Qcplus Qcmult Qcminus Qcopp Qcrt Qcinv fx_inverse)|]. split; [fm|]. split; [fm|].
  split; [split; [intros [|[|i]] [|[|j]] Hi Hj Hij; try lia; reflexivity|]; split; [intros [|[|i]] Hi E; try lia; apply (f_equal this) in E; discriminate|fx]|]. eexists. split; [vm_compute; reflexivity|]. split; reflexivity. Qed.
Print Assumptions C88_eigh_general_partial.

(** C88: generalised eigh refuses operands of different devices, an unknown problem type and a matrix that is not square, before it changes anything. *)
Theorem C88_eigh_general_checks : forall (T R : Type) (zero one : T) conj (rp : T -> R) emb dflt cores cap pad eigen_lib llt_lib tri_lib pool (a b : placed T) u itype g,
  let run := faer_eigh_general zero one conj rp emb dflt cores cap pad eigen_lib llt_lib tri_lib pool a b u itype in
  (p_device a <> p_device b -> run g = (Err DeviceMismatch, g)) /\
  (p_device a = p_device b -> ~ 1 <= itype <= 3 -> run g = (Err InvalidValue, g)) /\
  (forall m n A, p_device a = p_device b -> 1 <= itype <= 3 -> is_matrix (p_tensor a) m n A -> m <> n -> run g = (Err InvalidLayout, g)).
Proof. exact l_faer_eigh_general_checks. Qed.
Print Assumptions C88_eigh_general_checks.

(** C88: generalised eigh of a broadcast A whose storage happens to have as many elements as the matrix gives wrong eigenvalues, with a perfect library: the copy it symmetrises in place is not a copy of separate elements. *)
Theorem C88_eigh_broadcast_refuted : exists (a b : placed Z) ws vs, is_matrix (p_tensor a) 2 2 (fun _ j => if (j =? 1)%nat then 1 else 0) /\ is_matrix (p_tensor b) 2 2 (identity 0 1) /\
  (forall g u D w V, (forall i j, i <> j -> D i j = 0) -> diag_lib g u 2 2 (rows 2 2 D) = Ok (w, V) -> eigen 0 Z.add Z.mul Z.mul 2 D V w) /\
  (forall g u L, eye_llt g u 2 2 (rows 2 2 (identity 0 1)) = Ok L -> cholesky_of 0 Z.add Z.mul (fun x => x) 2 (identity 0 1) L) /\
  (forall g u B X, eye_tri g u 2 2 (rows 2 2 (identity 0 1)) 2 2 (rows 2 2 B) = Some X -> solves 0 Z.add Z.mul SLeft 2 2 (identity 0 1) X B) /\
  faer_eigh_general 0 1 (fun x => x) (fun x => x) (fun x => x) RowMajor 4 (fun k => k) (fun _ => 0) diag_lib eye_llt eye_tri None a b (Some Lower) 1 ParSeq = (Ok (ws, vs), ParSeq) /\
  forall w V, is_vector (p_tensor ws) 2 w -> is_matrix (p_tensor vs) 2 2 V -> ~ eigen_general 0 Z.add Z.mul Z.mul 1 2 (symmetric_from (fun x => x) (fun x => x) true Lower (fun _ j => if (j =? 1)%nat then 1 else 0)) (identity 0 1) V w.
Proof. exact l_faer_eigh_broadcast_refuted. Qed.
Print Assumptions C88_eigh_broadcast_refuted.

(** C89: cholesky returns the factor of the matrix stored in the chosen triangle: lower L with L L^H equal to it, or for the upper triangle its conjugate transpose W, upper, with W^H W equal to it. *)
Theorem C89_cholesky : forall (T : Type) (zero one : T) add mul conj dflt cores cap pad llt_lib pool (a : placed T) u n A S g, (forall k, (k <= cap k)%nat) -> is_matrix (p_tensor a) n n A ->
  (forall x, conj (conj x) = x) ->
  (forall L, llt_lib (active pool g) (chosen (d_order (p_device a)) u) n n (rows n n (triangular zero one (chosen (d_order (p_device a)) u) false A)) = Ok L -> cholesky_of zero add mul conj n S L) ->
  outcome (llt_lib (active pool g) (chosen (d_order (p_device a)) u) n n (rows n n (triangular zero one (chosen (d_order (p_device a)) u) false A))) pool g (faer_cholesky zero conj dflt cores cap pad llt_lib pool a u)
    (fun _ y => match chosen (d_order (p_device a)) u with
      | Lower => exists L, is_matrix (p_tensor y) n n L /\ cholesky_of zero add mul conj n S L
      | Upper => exists W, is_matrix (p_tensor y) n n W /\ (conj zero = zero -> upper zero n W) /\ forall i j, (i < n)%nat -> (j < n)%nat -> product zero add mul n (op_of conj ConjTrans W) W i j = S i j
      end).
Proof. exact l_faer_cholesky. Qed.
Example C89_example : is_matrix (mkTensor [4; 99; 2; 2] (mkLayout [2; 2]%nat [2; 1] 0)) 2 2 (fx_z 4 99 2 2) /\ cholesky_of 0 Z.add Z.mul (fun x => x) 2 (symmetric_from (fun x => x) (fun x => x) true Lower (fx_z 4 99 2 2)) (fx_z 2 0 1 1) /\
  exists y, faer_cholesky 0 (fun x => x) RowMajor 4 S (fun _ => 7) (fun _ _ _ _ _ => Ok (fx_z 2 0 1 1)) (Some 3%nat) (mkPlaced (mkTensor [4; 99; 2; 2] (mkLayout [2; 2]%nat [2; 1] 0)) fx_d) (Some Lower) ParSeq = (Ok y, ParSeq) /\ t_data (p_tensor y) = [2; 0; 1; 1].
Proof. split; [fm|]. split; [split; [intros [|[|i]] [|[|j]] Hi Hj Hij; try lia; reflexivity|]; split; [intros [|[|i]] Hi; try lia; discriminate|fz]|]. eexists. split; [vm_compute; reflexivity|]. reflexivity. Qed.
Print Assumptions C89_cholesky.

(** C89: inv returns an inverse of the matrix, if faer's decomposition and inverse are right; a failing decomposition is an error. *)
Theorem C89_inv : forall (T : Type) (zero one : T) add mul dflt cores cap pad svd_lib inverse_lib pool (a : placed T) n A g, (forall k, (k <= cap k)%nat) -> is_matrix (p_tensor a) n n A ->
  (forall x X, svd_lib (active pool g) true n n (rows n n A) = Ok x -> inverse_lib (active pool g) n n x = Some X -> forall i j, (i < n)%nat -> (j < n)%nat -> product zero add mul n A X i j = identity zero one i j) ->
  outcome (let* x := svd_lib (active pool g) true n n (rows n n A) in or_panic (inverse_lib (active pool g) n n x)) pool g (faer_inv dflt cores cap pad svd_lib inverse_lib pool a)
    (fun _ y => exists X, is_matrix (p_tensor y) n n X /\ forall i j, (i < n)%nat -> (j < n)%nat -> product zero add mul n A X i j = identity zero one i j).
Proof. exact l_faer_inv. Qed.
Example C89_inv_example : is_matrix fx_t 2 2 (fx_z 0 2 3 0) /\ exists y, faer_inv RowMajor 4 S (fun _ => 7) fx_svd (fun _ _ _ _ => Some (fx_z 0 1 1 0)) (Some 3%nat) (mkPlaced (mkTensor [0; 1; 1; 0] (mkLayout [2; 2]%nat [2; 1] 0)) fx_d) ParSeq = (Ok y, ParSeq) /\
  t_data (p_tensor y) = [0; 1; 1; 0] /\ (forall i j, (i < 2)%nat -> (j < 2)%nat -> product 0 Z.add Z.mul 2 (fx_z 0 1 1 0) (fx_z 0 1 1 0) i j = identity 0 1 i j).
Proof. split; [unfold fx_t; fm|]. eexists. split; [vm_compute; reflexivity|]. split; [reflexivity|fz]. Qed.
Print Assumptions C89_inv.

(** C89: det returns the determinant that faer computes of the matrix. *)
Theorem C89_det : forall (T : Type) det_lib pool (a : placed T) m n A g, is_matrix (p_tensor a) m n A -> outcome (or_panic (det_lib (active pool g) m n (rows m n A))) pool g (faer_det det_lib pool a) (fun x y => y = x).
Proof. exact l_faer_det. Qed.
Print Assumptions C89_det.

(** C89: solve_general returns a solution of A X = B in the kind of tensor it was given (owned: in place; a view: a new tensor; a mutable view: written through), if faer's decomposition and solution are right. *)
Theorem C89_solve_general : forall (T : Type) (zero : T) add mul dflt svd_lib solve_lib pool d (a : tensor T) (b : reference T) n p A B g, is_matrix a n n A -> nonempty n p -> lapack_operand b n p B ->
  (forall x X, svd_lib (active pool g) true n n (rows n n A) = Ok x -> solve_lib (active pool g) n n x n p (rows n p B) = Some X -> solves zero add mul SLeft n p A X B) ->
  outcome (let* x := svd_lib (active pool g) true n n (rows n n A) in or_panic (solve_lib (active pool g) n n x n p (rows n p B))) pool g (faer_solve_general dflt svd_lib solve_lib pool d a b)
    (fun _ y => exists X, delivered (target_of b) y n p X /\ solves zero add mul SLeft n p A X B).
Proof. exact l_faer_solve_general. Qed.
Print Assumptions C89_solve_general.

(** C89: solve_triangular with a nonzero diagonal returns a solution of the system with the chosen triangle of A; the other triangle plays no part. *)
Theorem C89_solve_triangular : forall (T : Type) (zero one : T) add mul dflt tri_lib pool da d (a : tensor T) (b : reference T) u n p A B, solves_triangles zero one add mul tri_lib -> is_matrix a n n A -> nonempty n p -> lapack_operand b n p B ->
  (forall i, (i < n)%nat -> A i i <> zero) ->
  exists y X, faer_solve_triangular zero dflt tri_lib pool da d a b u = Ok y /\ delivered (target_of b) y n p X /\ solves zero add mul SLeft n p (triangular zero one (chosen (d_order da) u) false A) X B.
Proof. exact l_faer_solve_triangular. Qed.
Example C89_solve_example : solves_triangles (fx_q 0) (fx_q 1) Qcplus Qcmult (substitution (fx_q 0) Qcplus Qcmult Qcminus Qcinv) /\ is_matrix (mkTensor [fx_q 2; fx_q 99; fx_q 1; fx_q 4] (mkLayout [2; 2]%nat [2; 1] 0)) 2 2 (fx_matrix 2 99 1 4) /\
  lapack_operand (Ref (mkTensor [fx_q 6; fx_q 11] (mkLayout [2; 1]%nat [1; 1] 0))) 2 1 (fx_matrix 6 6 11 11) /\
  exists y, faer_solve_triangular (fx_q 0) RowMajor (substitution (fx_q 0) Qcplus Qcmult Qcminus Qcinv) (Some 3%nat) fx_d fx_d (mkTensor [fx_q 2; fx_q 99; fx_q 1; fx_q 4] (mkLayout [2; 2]%nat [2; 1] 0)) (Ref (mkTensor [fx_q 6; fx_q 11] (mkLayout [2; 1]%nat [1; 1] 0))) (Some Lower) = Ok y.
Proof. split; [exact (substitution_ok (fx_q 0) (fx_q 1) Qcplus Qcmult Qcminus Qcopp Qcrt Qcinv fx_inverse)|]. split; [fm|]. split; [split; [cbn [ref_of]; concrete_tensor|split; [|exact I]; split; [reflexivity|]; intros [|[|i]] [|[|j]] Hi Hj; try lia; reflexivity]|]. eexists. vm_compute. reflexivity. Qed.
Print Assumptions C89_solve_triangular.

(** C89: tensors that are not matrices are refused by every function of one matrix, before the global degree of parallelism is touched. *)
Theorem C89_ranks : forall (T R : Type) (zero : T) conj (rp : T -> R) dflt cores cap pad svd_lib svdvals_lib eigen_lib eigvals_lib llt_lib inverse_lib det_lib pool (a : placed T) full u g, length (t_shape (p_tensor a)) <> 2%nat ->
  faer_svd_f rp dflt cores cap pad svd_lib pool a full g = (Err InvalidLayout, g) /\ faer_svdvals (R := R) svdvals_lib pool a g = (Err InvalidLayout, g) /\
  faer_eigh zero rp dflt cores cap pad eigen_lib pool a u g = (Err InvalidLayout, g) /\ faer_eigvalsh (R := R) zero eigvals_lib pool a u g = (Err InvalidLayout, g) /\
  faer_cholesky zero conj dflt cores cap pad llt_lib pool a u g = (Err InvalidLayout, g) /\ faer_inv dflt cores cap pad svd_lib inverse_lib pool a g = (Err InvalidLayout, g) /\ faer_det det_lib pool a g = (Err InvalidLayout, g).
Proof. exact l_faer_ranks. Qed.
Print Assumptions C89_ranks.

(** C90: a call of the faer device that succeeds leaves the process-wide degree of parallelism of faer as it found it, whatever the library, the operands, the pool and the degree before. *)
Theorem C90_restores : forall (T R : Type) (zero one : T) add mul conj (rp : T -> R) emb dflt cores cap pad svd_lib svdvals_lib eqb div radd rmul rzero rcmp rgt of_nat eps tree tri sched junk eigen_lib eigvals_lib llt_lib tri_lib inverse_lib solve_lib det_lib pool (a b : placed T) full tols u itype d (r : reference T),
  restores (faer_svd_f rp dflt cores cap pad svd_lib pool a full) /\ restores (faer_svdvals (R := R) svdvals_lib pool a) /\
  restores (faer_pinv_f zero one conj rp dflt cores cap pad svd_lib add mul eqb div radd rmul rzero rcmp rgt of_nat eps tree tri sched junk pool a tols) /\
  restores (faer_eigh zero rp dflt cores cap pad eigen_lib pool a u) /\ restores (faer_eigvalsh (R := R) zero eigvals_lib pool a u) /\
  restores (faer_eigh_general zero one conj rp emb dflt cores cap pad eigen_lib llt_lib tri_lib pool a b u itype) /\
  restores (faer_cholesky zero conj dflt cores cap pad llt_lib pool a u) /\ restores (faer_inv dflt cores cap pad svd_lib inverse_lib pool a) /\ restores (faer_det det_lib pool a) /\
  restores (faer_solve_general dflt svd_lib solve_lib pool d (p_tensor a) r).
Proof. exact l_faer_restores. Qed.
Print Assumptions C90_restores.

(** C90: a call that fails does not: whenever faer reports an error for the operand, the process-wide degree stays that of the device's pool. *)
Theorem C90_degree_lost_refuted : forall (T R : Type) (zero one : T) conj (rp : T -> R) dflt cores cap pad svd_lib svdvals_lib eigen_lib eigvals_lib llt_lib inverse_lib k (a : placed T) full u m n A e,
  (forall k, (k <= cap k)%nat) -> is_matrix (p_tensor a) m n A ->
  (svd_lib (ParRayon k) full m n (rows m n A) = Err e -> ~ always_restores (faer_svd_f rp dflt cores cap pad svd_lib (Some k) a full)) /\
  (svdvals_lib (ParRayon k) m n (rows m n A) = Err e -> ~ always_restores (faer_svdvals (R := R) svdvals_lib (Some k) a)) /\
  (svd_lib (ParRayon k) true m n (rows m n A) = Err e -> ~ always_restores (faer_inv dflt cores cap pad svd_lib inverse_lib (Some k) a)) /\
  (forall t, t = chosen (d_order (p_device a)) u ->
   (llt_lib (ParRayon k) t m n (rows m n (triangular zero one t false A)) = Err e -> ~ always_restores (faer_cholesky zero conj dflt cores cap pad llt_lib (Some k) a u)) /\
   (eigen_lib (ParRayon k) t m n (rows m n (triangular zero one t false A)) = Err e -> ~ always_restores (faer_eigh zero rp dflt cores cap pad eigen_lib (Some k) a u)) /\
   (eigvals_lib (ParRayon k) t m n (rows m n (triangular zero one t false A)) = Err e -> ~ always_restores (faer_eigvalsh (R := R) zero eigvals_lib (Some k) a u))).
Proof. exact l_faer_degree_lost_refuted. Qed.
Example C90_example : is_matrix fx_t 2 2 (fx_z 0 2 3 0) /\ faer_svdvals (R := Z) (fun _ _ _ _ => Err FaerError) (Some 3%nat) (mkPlaced fx_t fx_d) ParSeq = (Err FaerError, ParRayon 3).
Proof. split; [unfold fx_t; fm|reflexivity]. Qed.
Print Assumptions C90_degree_lost_refuted.

(** C91: svdvals and eigvalsh return tensors of the operand's device.  Missing: the other functions, refuted below. *)
Theorem C91_values_device_partial : forall (T R : Type) (zero one : T) svdvals_lib eigvals_lib pool (a : placed T) u m n A g (y : placed R) g', is_matrix (p_tensor a) m n A ->
  (faer_svdvals svdvals_lib pool a g = (Ok y, g') -> p_device y = p_device a) /\ (faer_eigvalsh zero eigvals_lib pool a u g = (Ok y, g') -> p_device y = p_device a).
Proof. exact l_faer_values_device_partial. Qed.
Print Assumptions C91_values_device_partial.

(** C91: svd, eigh, inv and cholesky return tensors of the default device: with an operand of a device with another number of threads or another order their results do not work together with the operand; giving both to generalised eigh is an error. *)
Theorem C91_device_refuted : forall (T R : Type) (zero one : T) conj (rp : T -> R) emb dflt cores cap pad svd_lib eigen_lib llt_lib tri_lib inverse_lib pool (a : placed T) full u itype m n A g g',
  (forall k, (k <= cap k)%nat) -> is_matrix (p_tensor a) m n A -> p_device a <> default_device dflt cores ->
  (forall x s v, faer_svd_f rp dflt cores cap pad svd_lib pool a full g = (Ok (x, s, v), g') -> p_device a <> p_device x /\ p_device a <> p_device s /\ p_device a <> p_device v) /\
  (forall w v, faer_eigh zero rp dflt cores cap pad eigen_lib pool a u g = (Ok (w, v), g') -> p_device a <> p_device w /\ p_device a <> p_device v) /\
  (forall x, faer_inv dflt cores cap pad svd_lib inverse_lib pool a g = (Ok x, g') -> p_device a <> p_device x) /\
  (forall x, faer_cholesky zero conj dflt cores cap pad llt_lib pool a u g = (Ok x, g') -> p_device a <> p_device x /\
     faer_eigh_general zero one conj rp emb dflt cores cap pad eigen_lib llt_lib tri_lib pool a x u itype g = (Err DeviceMismatch, g)).
Proof. exact l_faer_device_refuted. Qed.
Example C91_example : fx_d <> default_device RowMajor 4 /\ is_matrix fx_t 2 2 (fx_z 0 2 3 0). Proof. split; [discriminate|unfold fx_t; fm]. Qed.
Print Assumptions C91_device_refuted.

(** C92: into_owned and to_owned return a tensor with the same elements, each with an address of its own, if those of the operand have.  Missing: operands with repeated addresses, refuted below. *)
Theorem C92_owned_partial : forall (T : Type) k dflt (t : tensor T), tensor_ok t -> injective (t_layout t) -> exists c, into_owned k dflt t = Ok c /\ tensor_ok c /\ t_shape c = t_shape t /\ (forall ix, valid (t_shape t) ix -> at_ c ix = at_ t ix) /\ injective (t_layout c).
Proof. exact l_owned_independent_partial. Qed.
Example C92_example : tensor_ok fx_t /\ injective (t_layout fx_t) /\ exists c, into_owned Dyn RowMajor fx_t = Ok c /\ t_data c = [0; 2; 3; 0].
Proof. split; [unfold fx_t; concrete_tensor|]. split; [apply C86_example|]. eexists. split; [vm_compute; reflexivity|]. reflexivity. Qed.
Print Assumptions C92_owned_partial.

(** C92: the owned copy of a broadcast view whose storage happens to have as many elements as the view still shares addresses: writing one element of the owned tensor changes another. *)
Theorem C92_owned_alias_refuted : exists (t c : tensor Z) s v, tensor_ok t /\ dim_slice (mkLayout [4%nat] [1] 0) [ISlice s] = Ok v /\ into_broadcast v [2; 2]%nat RowMajor = Ok (t_layout t) /\ into_owned Dyn RowMajor t = Ok c /\ at_ c [0; 1]%nat = Some 1 /\ at_ c [1; 1]%nat = Some 1 /\
  exists d, zset (t_data c) (addr (t_layout c) [0; 1]%nat) 5 = Ok d /\ elem d (t_layout c) [1; 1]%nat = Some 5.
Proof. exact l_owned_alias_refuted. Qed.
Print Assumptions C92_owned_alias_refuted.
