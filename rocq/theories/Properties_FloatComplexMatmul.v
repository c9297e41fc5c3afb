(** Property theorems about products of matrices of complex floating-point numbers (C118).  Statements use Spec_Matmul.v, Spec_Float.v,
    Spec_FloatMatmul.v, Spec_FloatComplex.v, Spec_FloatComplexMatmul.v and the modelled entry points of M_FloatComplexMatmul.v only. *)
From Coq Require Import ZArith Reals List Lra Lia.
From Flocq Require Import Core BinarySingleNaN.
From Verif Require Import Base Spec P_Tensor Spec_Matmul M_Layout M_Tensor M_Reduce M_Matmul M_Float Spec_Float Spec_FloatReduce Spec_FloatMatmul M_FloatComplex Spec_FloatComplex M_FloatComplexMatmul Spec_FloatComplexMatmul P_FloatOps Q_FloatComplexMatmul Q_FloatComplexExact Properties_FloatComplex.
Import ListNotations.
Local Open Scope R_scope.

(** C118: a matmul b (a % b) for tensors of Complex<f32> or Complex<f64> on the serial device, all shapes with batch axes and broadcasting: it succeeds exactly for shapes that fit (and batch axes of equal number), and each entry whose factors are finite and far from overflow has finite parts, each within ((1 + u)^(K + 1) - 1) times the sum of the magnitudes of its 2K real products, and an underflow term, of that part of the exact sum of the K products (nothing is conjugated) -- if the uninitialised memory that the result is allocated in holds finite numbers. *)
Theorem C118_matmul : forall t k o junk (a b : tensor (complex t)), tensor_ok a -> tensor_ok b -> anchored (t_layout a) -> anchored (t_layout b) -> (forall i, cfinite (junk i)) ->
  match cmatmul k o junk a b with
  | Ok r => product_shape o (t_shape a) (t_shape b) (t_shape r) /\ same_batch_rank (t_shape a) (t_shape b) /\ tensor_ok r /\
      forall cx, valid (t_shape r) cx -> exists ts ps v, contracts o (t_shape a) (t_shape b) cx ts /\ factors (t_data a) (t_layout a) (t_data b) (t_layout b) ts ps /\ at_ r cx = Some v /\
        (cfinite_pairs ps -> cproduct_no_overflow ps -> cproducts_to ps v)
  | Err _ => (forall s, ~ product_shape o (t_shape a) (t_shape b) s) \/ ~ same_batch_rank (t_shape a) (t_shape b)
  | Panic => False
  end.
Proof. exact l_cmatmul. Qed.
(** the square of [[1 + 2i, 3 - i], [2, i]], stored by columns, is [[3 + 2i, 6 + 8i], [2 + 6i, 5 - 2i]] *)
Definition mx_ps : list (complex F64 * complex F64) := [(cz 1 2, cz 1 2); (cz 3 (-1), cz 2 0)].
Lemma mx_pairs : cfinite_pairs mx_ps /\ re_product mx_ps = 3 /\ im_product mx_ps = 2 /\ cproduct_no_overflow mx_ps.
Proof. split; [repeat constructor; apply cx_int; discriminate|]. destruct (cx_int 1) as [A1 _]; [discriminate|]. destruct (cx_int 2) as [B1 _]; [discriminate|]. destruct (cx_int 0) as [C1 _]; [discriminate|]. destruct (cx_int 3) as [D1 _]; [discriminate|]. destruct (cx_int (-1)) as [E1 _]; [discriminate|].
  assert (M1 : re_magnitude mx_ps = 11). { unfold re_magnitude, dot_magnitude, parts, mx_ps, rsum, cz. cbn [map fold_right fst snd]. rewrite A1, B1, C1, D1, E1. rewrite Rmult_0_r, !Rabs_pos_eq by lra. lra. }
  assert (M2 : im_magnitude mx_ps = 6). { unfold im_magnitude, dot_magnitude, parts, mx_ps, rsum, cz. cbn [map fold_right fst snd]. rewrite A1, B1, C1, D1, E1. rewrite Rmult_0_r, (Rabs_left (-1 * 2)), !Rabs_pos_eq by lra. lra. }
  split; [unfold re_product, exact_dot, parts, mx_ps, rsum, cz; cbn [map fold_right fst snd]; rewrite A1, B1, C1, D1, E1; lra|]. split; [unfold im_product, exact_dot, parts, mx_ps, rsum, cz; cbn [map fold_right fst snd]; rewrite A1, B1, C1, D1, E1; lra|].
  unfold cproduct_no_overflow, part_no_overflow, cdot_underflow. rewrite M1, M2. cbn [length mx_ps Nat.add]. pose proof (cx_rounded 3) as G3. pose proof (cx_rounded 2) as G2. pose proof cx_small as S0. pose proof cx_big as B. cbn [pow] in G3, G2. replace (INR 2) with 2 by (cbn; lra).
  assert (2 * 2 * rounded F64 2 * smallest F64 <= 16 * 1) by (apply Rmult_le_compat; lra). split; lra. Qed.
Example C118_example : tensor_ok cx_m /\ anchored (t_layout cx_m) /\ (forall i : nat, cfinite (cz 9 9)) /\ product_shape RowMajor (t_shape cx_m) (t_shape cx_m) [2; 2]%nat /\ same_batch_rank (t_shape cx_m) (t_shape cx_m) /\
  contracts RowMajor (t_shape cx_m) (t_shape cx_m) [0; 0]%nat [([0; 0], [0; 0]); ([0; 1], [1; 0])]%nat /\ factors (t_data cx_m) (t_layout cx_m) (t_data cx_m) (t_layout cx_m) [([0; 0], [0; 0]); ([0; 1], [1; 0])]%nat mx_ps /\
  cfinite_pairs mx_ps /\ cproduct_no_overflow mx_ps /\ cx_all (cmatmul Fixed RowMajor (fun _ => cz 9 9) cx_m cx_m) [cz 3 2; cz 6 8; cz 2 6; cz 5 (-2)] = true.
Proof. destruct mx_pairs as (P1 & _ & _ & P2). split; [exact cx_ok|]. split; [intro H; discriminate H|]. split; [intros _; split; now apply cx_int|]. split. { apply (ps_matmat RowMajor [] [] [] 2 2 2). split; [reflexivity|]. intro k. cbn. destruct k; auto. }
  split; [intros H _; cbn in H; lia|]. split; [apply (ct_matmat RowMajor [] [] 2 2 2 [] 0 0)|]. split; [repeat constructor|]. split; [exact P1|]. split; [exact P2|]. vm_compute. reflexivity. Qed.
Print Assumptions C118_matmul.

(** C118: if the parts of the elements of the factors are multiples of 2^j and of 2^k (for j = k = 0: Gaussian integers) and the magnitudes of the real products of each part add up to at most 2^(j + k + 24) or 2^(j + k + 53), the entry is exact. *)
Theorem C118_matmul_exact : forall t j k dim o junk (a b : tensor (complex t)) r, (3 - emax t - prec t <= j + k)%Z -> (j + k + prec t < emax t)%Z ->
  tensor_ok a -> tensor_ok b -> anchored (t_layout a) -> anchored (t_layout b) -> (forall i, cfinite (junk i)) -> cmatmul dim o junk a b = Ok r ->
  forall cx, valid (t_shape r) cx -> exists ts ps v, contracts o (t_shape a) (t_shape b) cx ts /\ factors (t_data a) (t_layout a) (t_data b) (t_layout b) ts ps /\ at_ r cx = Some v /\
    (cmultiple_pairs j k ps -> re_magnitude ps <= two (j + k + prec t) -> im_magnitude ps <= two (j + k + prec t) -> cfinite v /\ val (fst v) = re_product ps /\ val (snd v) = im_product ps).
Proof. exact l_cmatmul_exact. Qed.
Example C118_exact_example : (3 - emax F64 - prec F64 <= 0 + 0)%Z /\ (0 + 0 + prec F64 < emax F64)%Z /\ cmultiple_pairs 0 0 mx_ps /\ re_magnitude mx_ps <= two (0 + 0 + prec F64) /\ im_magnitude mx_ps <= two (0 + 0 + prec F64).
Proof. split; [cbn; lia|]. split; [cbn; lia|].
  assert (M : forall r i, (Z.abs r <= 2 ^ 53)%Z -> (Z.abs i <= 2 ^ 53)%Z -> cmultiple 0 (cz r i)). { intros r i Hr Hi. destruct (cx_int r Hr) as [V1 F1]. destruct (cx_int i Hi) as [V2 F2]. split; [split; assumption|]. split; [exists r|exists i]; cbn [cz fst snd]; [rewrite V1|rewrite V2]; change (two 0) with 1; ring. }
  split; [repeat constructor; apply M; discriminate|]. destruct (cx_int 1) as [A1 _]; [discriminate|]. destruct (cx_int 2) as [B1 _]; [discriminate|]. destruct (cx_int 0) as [C1 _]; [discriminate|]. destruct (cx_int 3) as [D1 _]; [discriminate|]. destruct (cx_int (-1)) as [E1 _]; [discriminate|].
  assert (T : 128 <= two (0 + 0 + prec F64)) by (change 128 with (two 7); apply bpow_le; cbn; discriminate).
  unfold re_magnitude, im_magnitude, dot_magnitude, parts, mx_ps, rsum, cz. cbn [map fold_right fst snd]. rewrite A1, B1, C1, D1, E1. rewrite Rmult_0_r, !(Rabs_left (-1 * 2)), !Rabs_pos_eq by lra. split; lra. Qed.
Print Assumptions C118_matmul_exact.

(** C118: the parallel kernel for two matrices with alpha = 1 and beta = 0, which adds up the products first, for every order in which the threads work on the cells. *)
Theorem C118_gemm_rayon : forall t (c a b : tensor (complex t)) M K N r, tensor_ok a -> tensor_ok b -> tensor_ok c -> injective (t_layout c) -> t_shape a = [M; K] -> t_shape b = [K; N] -> t_shape c = [M; N] ->
  cgemm_rayon (t_data c) (t_layout c) (t_data a) (t_layout a) (t_data b) (t_layout b) r ->
  exists c', r = Ok c' /\ untouched_outside (t_layout c) (t_data c) c' /\
    forall cx, valid (t_shape c) cx -> exists ts ps z v, contracts RowMajor (t_shape a) (t_shape b) cx ts /\ factors (t_data a) (t_layout a) (t_data b) (t_layout b) ts ps /\
      at_ c cx = Some z /\ elem c' (t_layout c) cx = Some v /\ (cfinite z -> cfinite_pairs ps -> cproduct_no_overflow ps -> cproducts_to ps v).
Proof. exact l_cgemm_rayon. Qed.
Example C118_rayon_example : t_shape cx_m = [2; 2]%nat /\ injective (t_layout cx_m) /\
  exists r, cgemm_rayon (t_data cx_m) (t_layout cx_m) (t_data cx_m) (t_layout cx_m) (t_data cx_m) (t_layout cx_m) r /\ cx_all (let* d := r in Ok (mkTensor d (t_layout cx_m))) [cz 3 2; cz 2 6; cz 6 8; cz 5 (-2)] = true.
Proof. split; [reflexivity|]. split; [apply cx_injective|]. eexists. split; [exists (list_prod (seq 0 2) (seq 0 2)); split; [apply Permutation.Permutation_refl|reflexivity]|]. vm_compute. reflexivity. Qed.
Print Assumptions C118_gemm_rayon.

(** C118: the parallel kernel for two vectors, which conjugates nothing, for every way the scheduler splits them. *)
Theorem C118_inner_dot_rayon : forall t tr (c a b : tensor (complex t)) K, tensor_ok a -> tensor_ok b -> tensor_ok c -> t_shape a = [K] -> t_shape b = [K] -> t_shape c = [] ->
  exists c', cinner_dot_rayon tr (t_data c) (t_layout c) (t_data a) (t_layout a) (t_data b) (t_layout b) = Ok c' /\ untouched_outside (t_layout c) (t_data c) c' /\
    exists ts ps z v, contracts RowMajor (t_shape a) (t_shape b) [] ts /\ factors (t_data a) (t_layout a) (t_data b) (t_layout b) ts ps /\ at_ c [] = Some z /\ elem c' (t_layout c) [] = Some v /\
      (cfinite z -> cfinite_pairs ps -> cproduct_no_overflow ps -> cproducts_to ps v).
Proof. exact l_cinner_dot_rayon. Qed.
Definition mx_c : tensor (complex F64) := mkTensor [cz 7 7] (mkLayout [] [] 0).
Example C118_inner_example : tensor_ok cx_b /\ tensor_ok mx_c /\ t_shape cx_b = [2]%nat /\ t_shape mx_c = [] /\
  cx_all (let* d := cinner_dot_rayon (Node 1 Leaf Leaf) (t_data mx_c) (t_layout mx_c) (t_data cx_b) (t_layout cx_b) (t_data cx_b) (t_layout cx_b) in Ok (mkTensor d (t_layout mx_c))) [cz (-4) 2] = true.
Proof. split; [concrete_tensor|]. split; [concrete_tensor|]. split; [reflexivity|]. split; [reflexivity|]. vm_compute. reflexivity. Qed.
Print Assumptions C118_inner_dot_rayon.

(** C118: the condition that both parts stay away from overflow cannot be split: the kernel multiplies by alpha = 1 + 0i, so an imaginary part that overflows makes the real part NaN, although the real part of the product of the two numbers is 0. *)
Theorem C118_parts_refuted : exists (x y : complex F64) r v, let a := mkTensor [x] (mkLayout [1; 1]%nat [1; 1]%Z 0) in let b := mkTensor [y] (mkLayout [1; 1]%nat [1; 1]%Z 0) in
  cfinite x /\ cfinite y /\ re_magnitude [(x, y)] = 0 /\ fst (cmul x y) = fzero /\
  cmatmul Fixed RowMajor (fun _ => czero) a b = Ok r /\ at_ r [0; 0]%nat = Some v /\ is_nan (fst v) = true.
Proof. exact l_cmatmul_parts_refuted. Qed.
Print Assumptions C118_parts_refuted.
