(** Property theorems about tables of distances of floating-point numbers (C113).  Statements use Spec_Blas.v, Spec_Dist.v, Spec_Float.v,
    Spec_FloatReduce.v, Spec_FloatMatmul.v, Spec_FloatDist.v and the modelled entry points of M_FloatDist.v only. *)
From Coq Require Import ZArith Reals List Lra Lia Permutation.
From Flocq Require Import Core BinarySingleNaN.
From Verif Require Import Base Spec Spec_Blas Spec_Dist M_Layout M_Tensor P_Tensor Q_Tensor M_Dist M_Float Spec_Float Spec_FloatReduce Spec_FloatMatmul Spec_FloatDist M_FloatReduce M_FloatClose M_FloatDist P_FloatOps P_FloatDist Q_FloatDist.
Import ListNotations.
Local Open Scope R_scope.

(** C113: city block distances of f32 or f64 numbers, for every order in which the cells are computed: if the entries of the two rows are finite and the exact distance is away from overflow, the computed distance is finite, within ((1 + u)^n - 1) times the exact distance of it, and zero exactly if all corresponding entries are equal. *)
Theorem C113_city_block : forall t sigma dev (a b : tensor (float t)) m n k A B, given (of_int 1 : float t) a b None m n k A B (repeat (of_int 1) k) -> schedule sigma ->
  exists D, gives (fcdist fcity_block sigma dev a b) dev m n D /\
    forall i j, (i < m)%nat -> (j < n)%nat -> let ps := row_pairs k A B i j in finite_pairs ps -> city_no_overflow ps -> city_to ps (D i j) /\ (val (D i j) = 0 <-> same_values ps).
Proof. exact l_fcity. Qed.
(** the rows [1, 2] and [3, 4] stored by columns, and the row [1, 5] *)
Definition fx_a : tensor (float F64) := mkTensor [of_int 1; of_int 3; of_int 2; of_int 4] (mkLayout [2; 2]%nat [1; 2]%Z 0).
Definition fx_b : tensor (float F64) := mkTensor [of_int 1; of_int 5] (mkLayout [1; 2]%nat [2; 1]%Z 0).
Definition fx_A (i j : nat) : float F64 := of_int (Z.of_nat (2 * i + j + 1)).
Definition fx_B (i j : nat) : float F64 := of_int (if (j =? 0)%nat then 1 else 5).
Lemma fx_given : given (of_int 1 : float F64) fx_a fx_b None 2 1 2 fx_A fx_B (repeat (of_int 1) 2).
Proof. split; [unfold fx_a; concrete_tensor|]. split; [unfold fx_b; concrete_tensor|]. split; [split; [reflexivity|]; intros [|[|i]] [|[|j]] Hi Hj; try lia; reflexivity|]. split; [split; [reflexivity|]; intros [|i] [|[|j]] Hi Hj; try lia; reflexivity|]. split; [lia|reflexivity]. Qed.
Lemma fx_reverse : schedule (@rev (nat * nat)). Proof. intro cells. symmetry. apply Permutation_rev. Qed.
Lemma fx_int z : (Z.abs z <= 2 ^ 53)%Z -> val (of_int z : float F64) = IZR z /\ finite (of_int z : float F64). Proof. apply (int_val F64). Qed.
Lemma fx_unit : 0 <= unit_roundoff F64 <= 1. Proof. unfold unit_roundoff. split; [apply bpow_ge_0|]. change 1 with (two 0). apply bpow_le. cbn. discriminate. Qed.
Lemma fx_small : 0 <= smallest F64 <= 1. Proof. unfold smallest. split; [apply bpow_ge_0|]. change 1 with (two 0). apply bpow_le. cbn. discriminate. Qed.
Lemma fx_rounded k : 0 <= rounded F64 k <= 2 ^ k. Proof. unfold rounded. pose proof fx_unit. split; [apply pow_le; lra|apply pow_incr; lra]. Qed.
Lemma fx_big : 1024 <= two (emax F64). Proof. change 1024 with (two 10). apply bpow_le. cbn. discriminate. Qed.
(** the second row against the only row of b *)
Definition fx_ps : list (float F64 * float F64) := row_pairs 2 fx_A fx_B 1 0.
Lemma fx_gaps : finite_pairs fx_ps /\ map gap fx_ps = [2; 1].
Proof. change fx_ps with [(of_int 3 : float F64, of_int 1 : float F64); (of_int 4, of_int 5)]. destruct (fx_int 1) as [A1 A2]; [discriminate|]. destruct (fx_int 3) as [B1 B2]; [discriminate|]. destruct (fx_int 4) as [C1 C2]; [discriminate|]. destruct (fx_int 5) as [D1 D2]; [discriminate|].
  split; [repeat constructor; assumption|]. unfold gap. cbn [map fst snd]. rewrite A1, B1, C1, D1. f_equal; [rewrite Rabs_pos_eq; lra|]. f_equal. rewrite Rabs_left; lra. Qed.
Lemma fx_city : exact_city fx_ps = 3. Proof. unfold exact_city, rsum. rewrite (proj2 fx_gaps). cbn. lra. Qed.
Example C113_example : given (of_int 1 : float F64) fx_a fx_b None 2 1 2 fx_A fx_B (repeat (of_int 1) 2) /\ schedule (@rev (nat * nat)) /\ finite_pairs fx_ps /\ city_no_overflow fx_ps /\
  match fcdist fcity_block (@rev (nat * nat)) RowMajor fx_a fx_b with Ok q => match t_data q with [x; y] => feq x (of_int 3) && feq y (of_int 3) | _ => false end | _ => false end%bool = true.
Proof. split; [exact fx_given|]. split; [exact fx_reverse|]. split; [apply fx_gaps|]. split; [|vm_compute; reflexivity]. unfold city_no_overflow. rewrite fx_city. change (length fx_ps) with 2%nat. pose proof (fx_rounded 2) as G. cbn [pow] in G. pose proof fx_big. lra. Qed.
Print Assumptions C113_city_block.

(** C113: squared Euclidean and Euclidean distances: if the entries are finite and the exact squared distance is away from overflow, both are finite; the squared one is within ((1 + u)^(n + 2) - 1) times the exact one and an underflow term of it, the root within ((1 + u)^(n + 3) - 1) times the exact distance and a term of the order of the root of the smallest positive number. *)
Theorem C113_euclidean : forall t sigma dev (a b : tensor (float t)) m n k A B, given (of_int 1 : float t) a b None m n k A B (repeat (of_int 1) k) -> schedule sigma ->
  exists D E, gives (fcdist fsq_euclidean sigma dev a b) dev m n D /\ gives (fcdist feuclidean sigma dev a b) dev m n E /\
    forall i j, (i < m)%nat -> (j < n)%nat -> let ps := row_pairs k A B i j in finite_pairs ps -> sq_no_overflow ps -> sq_to ps (D i j) /\ euclid_to ps (E i j).
Proof. exact l_feuclid. Qed.
Lemma fx_sq : exact_sq fx_ps = 5. Proof. unfold exact_sq, rsum. replace (map (fun p => gap p * gap p) fx_ps) with (map (fun g => g * g) (map gap fx_ps)) by apply map_map. rewrite (proj2 fx_gaps). cbn. lra. Qed.
Example C113_euclidean_example : finite_pairs fx_ps /\ sq_no_overflow fx_ps /\ exact_euclid fx_ps = sqrt 5 /\
  match fcdist feuclidean (@rev (nat * nat)) RowMajor fx_a fx_b with Ok q => match t_data q with [x; y] => feq x (of_int 3) && flt (of_int 2) y && flt y (of_int 3) | _ => false end | _ => false end%bool = true.
Proof. split; [apply fx_gaps|]. split; [|split; [unfold exact_euclid; now rewrite fx_sq|vm_compute; reflexivity]]. unfold sq_no_overflow. rewrite fx_sq. change (length fx_ps) with 2%nat. unfold dot_underflow. cbn [Nat.sub Nat.add]. pose proof (fx_rounded 4) as G. pose proof (fx_rounded 1) as G1. cbn [pow] in G, G1. pose proof fx_big. pose proof fx_small. replace (INR 2) with 2 by (cbn; lra). assert (2 * rounded F64 1 * smallest F64 <= 4 * 1) by (apply Rmult_le_compat; lra). lra. Qed.
Print Assumptions C113_euclidean.

(** C113: Chebyshev distances: within one rounding of the greatest difference, and zero exactly if all corresponding entries are equal. *)
Theorem C113_chebyshev : forall t sigma dev (a b : tensor (float t)) m n k A B, given (of_int 1 : float t) a b None m n k A B (repeat (of_int 1) k) -> schedule sigma ->
  exists D, gives (fcdist fchebyshev sigma dev a b) dev m n D /\
    forall i j, (i < m)%nat -> (j < n)%nat -> let ps := row_pairs k A B i j in finite_pairs ps -> chebyshev_no_overflow ps -> chebyshev_to ps (D i j) /\ (val (D i j) = 0 <-> same_values ps).
Proof. exact l_fchebyshev. Qed.
Example C113_chebyshev_example : finite_pairs fx_ps /\ chebyshev_no_overflow fx_ps /\ exact_chebyshev fx_ps = 2 /\
  match fcdist fchebyshev (@rev (nat * nat)) RowMajor fx_a fx_b with Ok q => match t_data q with [x; y] => feq x (of_int 3) && feq y (of_int 2) | _ => false end | _ => false end%bool = true.
Proof. assert (E : exact_chebyshev fx_ps = 2). { unfold exact_chebyshev. rewrite (proj2 fx_gaps). cbn. rewrite (Rmax_left 1), Rmax_left by lra. reflexivity. } split; [apply fx_gaps|]. split; [|split; [exact E|vm_compute; reflexivity]]. unfold chebyshev_no_overflow. rewrite E. pose proof (fx_rounded 1) as G. cbn [pow] in G. pose proof fx_big. lra. Qed.
Print Assumptions C113_chebyshev.

(** C113: rows of finite numbers with equal entries have distance exactly zero in all four metrics, whatever their magnitude. *)
Theorem C113_same : forall t sigma dev (a b : tensor (float t)) m n k A B M, given (of_int 1 : float t) a b None m n k A B (repeat (of_int 1) k) -> schedule sigma -> In M [feuclidean; fsq_euclidean; fcity_block; fchebyshev] ->
  exists D, gives (fcdist M sigma dev a b) dev m n D /\
    forall i j, (i < m)%nat -> (j < n)%nat -> let ps := row_pairs k A B i j in finite_pairs ps -> same_values ps -> finite (D i j) /\ val (D i j) = 0.
Proof. exact l_fdist_same. Qed.
Example C113_same_example : given (of_int 1 : float F64) fx_b fx_b None 1 1 2 fx_B fx_B (repeat (of_int 1) 2) /\ finite_pairs (row_pairs 2 fx_B fx_B 0 0) /\ same_values (row_pairs 2 fx_B fx_B 0 0).
Proof. destruct fx_given as (_ & T & _ & H & K & _). split; [repeat (split; [assumption|]); reflexivity|]. destruct (fx_int 1) as [_ A2]; [discriminate|]. destruct (fx_int 5) as [_ D2]; [discriminate|]. split; [repeat constructor; assumption|repeat constructor]. Qed.
Print Assumptions C113_same.

(** C113: exchanging the operands transposes the table, bit for bit, for all floating-point numbers (infinities and NaN included), whatever the two orders of computation. *)
Theorem C113_symmetric : forall t sigma sigma' dev (a b : tensor (float t)) m n k A B M, given (of_int 1 : float t) a b None m n k A B (repeat (of_int 1) k) -> schedule sigma -> schedule sigma' -> In M [feuclidean; fsq_euclidean; fcity_block; fchebyshev] ->
  exists D, gives (fcdist M sigma dev a b) dev m n D /\ gives (fcdist M sigma' dev b a) dev n m (fun j i => D i j).
Proof. exact l_fdist_symmetric. Qed.
Example C113_symmetric_example : match fcdist fsq_euclidean (@rev (nat * nat)) RowMajor fx_b fx_a with Ok q => match t_data q with [x; y] => feq x (of_int 9) && feq y (of_int 5) | _ => false end | _ => false end%bool = true.
Proof. vm_compute. reflexivity. Qed.
Print Assumptions C113_symmetric.

(** C113: Hamming distances (in f64, whatever the entries are): between 0 and 1, within one rounding of the part of the entries that differ, and zero exactly if none differs; for up to 2^53 columns.  NaN differs from everything, itself included. *)
Theorem C113_hamming : forall t sigma dev (a b : tensor (float t)) m n k A B, given (of_int 1 : float F64) a b None m n k A B (repeat (of_int 1) k) -> schedule sigma -> (Z.of_nat k <= 2 ^ 53)%Z ->
  exists D, gives (fcdist_hamming sigma dev a b) dev m n D /\ forall i j, (i < m)%nat -> (j < n)%nat -> hamming_to (row_pairs k A B i j) (D i j).
Proof. exact l_fhamming. Qed.
Example C113_hamming_example : given (of_int 1 : float F64) fx_a fx_b None 2 1 2 fx_A fx_B (repeat (of_int 1) 2) /\ (Z.of_nat 2 <= 2 ^ 53)%Z /\ differing (row_pairs 2 fx_A fx_B 0 0) = 1%nat /\
  match fcdist_hamming (@rev (nat * nat)) RowMajor fx_a fx_b with Ok q => match t_data q with [x; y] => feq x (fdiv (of_int 1) (of_int 2)) && feq y (of_int 1) | _ => false end | _ => false end%bool = true.
Proof. split; [exact fx_given|]. split; [discriminate|]. split; vm_compute; reflexivity. Qed.
Print Assumptions C113_hamming.

(** C113: Euclidean and squared Euclidean distances of different numbers can be zero: 2^-600 and 0, whose squared difference underflows. *)
Theorem C113_euclidean_zero_refuted : let x : float F64 := fdiv (of_int 1) (of_int (2 ^ 600)) in let y : float F64 := fzero in finite x /\ feq x y = false /\ tensor_ok (one_cell x) /\ tensor_ok (one_cell y) /\
  forall M, In M [feuclidean; fsq_euclidean] -> exists d, is_cell (fcdist M (fun l => l) RowMajor (one_cell x) (one_cell y)) d /\ feq d fzero = true.
Proof. exact l_feuclid_zero_refuted. Qed.
Print Assumptions C113_euclidean_zero_refuted.

(** C113: computed distances need not satisfy the triangle inequality: -1, 2^-53 and 1 + 3 * 2^-52, in one dimension. *)
Theorem C113_triangle_refuted : let x : float F64 := of_int (-1) in let y : float F64 := fdiv (of_int 1) (of_int (2 ^ 53)) in let z : float F64 := fadd (of_int 1) (fdiv (of_int 3) (of_int (2 ^ 52))) in
  finite x /\ finite y /\ finite z /\ forall M, In M [fcity_block; fchebyshev; feuclidean] -> exists dxy dyz dxz, is_cell (fcdist M (fun l => l) RowMajor (one_cell x) (one_cell y)) dxy /\ is_cell (fcdist M (fun l => l) RowMajor (one_cell y) (one_cell z)) dyz /\ is_cell (fcdist M (fun l => l) RowMajor (one_cell x) (one_cell z)) dxz /\
    feq dxy (of_int 1) = true /\ feq dyz (fadd (of_int 1) (fdiv (of_int 2) (of_int (2 ^ 52)))) = true /\ feq dxz (fadd (of_int 2) (fdiv (of_int 4) (of_int (2 ^ 52)))) = true /\ flt (fadd dxy dyz) dxz = true.
Proof. exact l_fcity_triangle_refuted. Qed.
Print Assumptions C113_triangle_refuted.
