(** Property theorems about variances and standard deviations of floating-point tensors (C112).  Statements use Spec_Stats.v, Spec_Float.v,
    Spec_FloatReduce.v, Spec_FloatMatmul.v, Spec_FloatProd.v, Spec_FloatVar.v and the modelled entry points of M_FloatVar.v and
    M_FloatReduce.v only. *)
From Coq Require Import ZArith Reals List Lra Lia.
From Flocq Require Import Core BinarySingleNaN.
From Verif Require Import Base Spec Spec_Stats M_Layout M_Tensor M_Reduce M_Stats P_Tensor Q_Tensor Q_Stats M_Float Spec_Float Spec_FloatReduce Spec_FloatMatmul Spec_FloatProd Spec_FloatVar M_FloatReduce M_FloatVar P_FloatOps Q_FloatReduce Q_FloatProd P_FloatVar Q_FloatVar.
Import ListNotations.
Local Open Scope R_scope.

(** C112: the variance of all elements of a tensor of f32 or f64, on both devices and for every schedule: if the elements are finite, there is at least one and at most 2^24 or 2^53, and the sums are away from overflow, it is finite and within 2 ((1 + u)^(2n + 2) - 1) times the mean of the squares, and an underflow term, of the exact variance (the mean of the squared distances from the mean). *)
Theorem C112_var : forall t dev k (a : tensor (float t)) xs, works dev -> tensor_ok a -> elements (t_data a) (t_layout a) (row_major (t_shape a)) xs ->
  exists v, fvar_all dev k a = Ok v /\ (xs <> [] -> (Z.of_nat (length xs) <= 2 ^ prec t)%Z -> Forall finite xs -> var_no_overflow xs -> varies_by xs v).
Proof. exact l_fvar. Qed.
(** the matrix [[1, 2], [3, 4]], stored by columns *)
Definition vx_v : list (float F64) := [of_int 1; of_int 2; of_int 3; of_int 4].
Definition vx_m : tensor (float F64) := mkTensor [of_int 1; of_int 3; of_int 2; of_int 4] (mkLayout [2; 2]%nat [1; 2]%Z 0).
Lemma vx_ok : tensor_ok vx_m. Proof. concrete_tensor. Qed.
Lemma vx_int z : (Z.abs z <= 2 ^ 53)%Z -> val (of_int z : float F64) = IZR z /\ finite (of_int z : float F64). Proof. apply (int_val F64). Qed.
Lemma vx_unit : 0 <= unit_roundoff F64 <= / 1048576. Proof. unfold unit_roundoff. split; [apply bpow_ge_0|]. change (/ 1048576) with (two (-20)). apply bpow_le. cbn. discriminate. Qed.
Lemma vx_small : 0 <= smallest F64 <= / 1048576. Proof. unfold smallest. split; [apply bpow_ge_0|]. change (/ 1048576) with (two (-20)). apply bpow_le. cbn. discriminate. Qed.
Lemma vx_pow u k : 0 <= u <= 1 -> 1 <= (1 + u) ^ k <= 1 + (2 ^ k - 1) * u.
Proof. intro U. induction k as [|k [A B]]; cbn [pow]; [lra|]. assert (1 <= 2 ^ k) by (apply pow_R1_Rle; lra). split; [nra|]. assert ((1 + u) * (1 + u) ^ k <= (1 + u) * (1 + (2 ^ k - 1) * u)) by (apply Rmult_le_compat_l; lra). assert (u * ((2 ^ k - 1) * u) <= 1 * ((2 ^ k - 1) * u)) by (apply Rmult_le_compat_r; [apply Rmult_le_pos|]; lra). lra. Qed.
Lemma vx_rounded k : 1 <= rounded F64 k <= 1 + (2 ^ k - 1) * / 1048576.
Proof. unfold rounded. pose proof vx_unit. destruct (vx_pow (unit_roundoff F64) k) as [A B]; [lra|]. split; [exact A|]. eapply Rle_trans; [exact B|]. assert (1 <= 2 ^ k) by (apply pow_R1_Rle; lra). apply Rplus_le_compat_l, Rmult_le_compat_l; lra. Qed.
Lemma vx_big : 1024 <= two (emax F64). Proof. change 1024 with (two 10). apply bpow_le. cbn. discriminate. Qed.
Lemma vx_values : Forall finite vx_v /\ mean_square vx_v = 15 / 2 /\ exact_var vx_v = 5 / 4 /\ magnitude vx_v = 10.
Proof. destruct (vx_int 1) as [A1 A2]; [discriminate|]. destruct (vx_int 2) as [B1 B2]; [discriminate|]. destruct (vx_int 3) as [C1 C2]; [discriminate|]. destruct (vx_int 4) as [D1 D2]; [discriminate|].
  split; [repeat constructor; auto|]. split; [|split].
  - unfold mean_square, exact_dot, rsum, squares, vx_v. cbn [map fold_right fst snd length INR]. rewrite A1, B1, C1, D1. lra.
  - unfold exact_var, exact_mean, exact_sum, rsum, vx_v. cbn [map fold_right length INR]. rewrite A1, B1, C1, D1. lra.
  - unfold magnitude, rsum, vx_v. cbn [map fold_right]. rewrite A1, B1, C1, D1. rewrite !Rabs_pos_eq by lra. lra. Qed.
Lemma vx_bound : 0 <= var_bound vx_v <= 1.
Proof. destruct vx_values as (_ & W & _ & _). unfold var_bound. rewrite W. cbn [length vx_v Nat.mul Nat.add]. pose proof (vx_rounded 10) as G1. pose proof (vx_rounded 6) as G2. cbn [pow] in G1, G2. pose proof vx_small as S0. pose proof (sqrt_pos (15 / 2)) as Q0.
  assert (Q1 : sqrt (15 / 2) <= 3). { replace 3 with (sqrt (3 * 3)) by (apply sqrt_square; lra). apply sqrt_le_1_alt. lra. }
  assert (X : 0 <= rounded F64 6 * (4 + 2 * sqrt (15 / 2)) <= 2 * 10) by (split; [apply Rmult_le_pos; lra|apply Rmult_le_compat; lra]). assert (Y : 0 <= rounded F64 6 * (4 + 2 * sqrt (15 / 2)) * smallest F64 <= 2 * 10 * / 1048576) by (split; [apply Rmult_le_pos; lra|apply Rmult_le_compat; lra]). lra. Qed.
Lemma vx_away : var_no_overflow vx_v.
Proof. destruct vx_values as (_ & W & _ & M). pose proof vx_big as B. pose proof vx_bound as VB. assert (E : exact_dot (squares vx_v) = 30). { unfold mean_square in W. cbn [length vx_v INR] in W. fold vx_v in W. lra. }
  split; [|split]; [| |rewrite W; lra].
  - unfold no_overflow. rewrite M. cbn [length vx_v Nat.sub]. pose proof (vx_rounded 3) as G. pose proof (vx_rounded 4) as G4. cbn [pow] in G, G4. lra.
  - unfold dot_no_overflow. rewrite squares_magnitude, E. cbn [length squares map vx_v]. unfold dot_underflow. cbn [Nat.sub]. pose proof (vx_rounded 4) as G2. pose proof (vx_rounded 3) as G1. pose proof vx_small as S0. cbn [pow] in G2, G1. replace (INR 4) with 4 by (cbn; lra).
    assert (4 * rounded F64 3 * smallest F64 <= 32 * 1) by (apply Rmult_le_compat; lra). lra. Qed.
Example C112_example : works AllSerial /\ works (AllRayon 1024 Leaf (fun _ => Leaf)) /\ tensor_ok vx_m /\ elements (t_data vx_m) (t_layout vx_m) (row_major (t_shape vx_m)) vx_v /\ Forall finite vx_v /\ var_no_overflow vx_v /\ (Z.of_nat (length vx_v) <= 2 ^ prec F64)%Z /\
  ok_and (fun s => feq (fmul s (of_int 4)) (of_int 5)) (fvar_all AllSerial Fixed vx_m) = true.
Proof. split; [exact I|]. split; [discriminate|]. split; [exact vx_ok|]. split; [repeat constructor|]. split; [apply vx_values|]. split; [exact vx_away|]. split; [discriminate|]. vm_compute. reflexivity. Qed.
Print Assumptions C112_var.

(** C112: variances over axes, at every remaining index.  Missing: empty tensors and broadcast inputs, where reductions over axes themselves are wrong (C32). *)
Theorem C112_var_axes_partial : forall t dev adev dflt k (a : tensor (float t)) axes ax r, works dev -> tensor_ok a -> reducible a ax -> names (ndim (t_layout a)) axes ax -> stat_axes_f (fvar_all dev k a) (fvar_axes adev dflt a) axes r ->
  exists t', r = Ok t' /\ tables_as a ax (fun xs v => xs <> [] -> (Z.of_nat (length xs) <= 2 ^ prec t)%Z -> Forall finite xs -> var_no_overflow xs -> varies_by xs v) t'.
Proof. exact l_fvar_axes. Qed.
Lemma vx_reducible : reducible vx_m (Some [0]%nat) /\ names (ndim (t_layout vx_m)) (AxVal (-2)) (Some [0]%nat).
Proof. split; [|cbn; repeat constructor; cbn; lia]. right. split; [vm_compute; discriminate|]. intros k Hk _. cbn in Hk. destruct k as [|[|k]]; cbn; lia. Qed.
Example C112_axes_example : tensor_ok vx_m /\ reducible vx_m (Some [0]%nat) /\ names (ndim (t_layout vx_m)) (AxVal (-2)) (Some [0]%nat) /\ exists r, stat_axes_f (fvar_all AllSerial Fixed vx_m) (fvar_axes AxesSerial RowMajor vx_m) (AxVal (-2)) r /\ ok_and (fun q => match t_data q with [x; y] => feq x (of_int 1) && feq y (of_int 1) | _ => false end)%bool r = true.
Proof. destruct vx_reducible as [R N]. split; [exact vx_ok|]. split; [exact R|]. split; [exact N|]. eexists. split; [eexists; split; [reflexivity|reflexivity]|]. vm_compute. reflexivity. Qed.
Print Assumptions C112_var_axes_partial.

(** C112: the standard deviation of all elements, on both devices and for every schedule: if moreover the exact variance is positive and at least as large as the error bound of the variance, it is finite -- not NaN -- and within the propagated bound of the exact one.  (Without this condition: C105_variance_refuted.) *)
Theorem C112_std : forall t dev k (a : tensor (float t)) xs, works dev -> tensor_ok a -> elements (t_data a) (t_layout a) (row_major (t_shape a)) xs ->
  exists d, fstd_all dev k a = Ok d /\ (xs <> [] -> (Z.of_nat (length xs) <= 2 ^ prec t)%Z -> Forall finite xs -> var_no_overflow xs -> var_bound xs <= exact_var xs -> 0 < exact_var xs -> deviates_by xs d).
Proof. exact l_fstd. Qed.
Example C112_std_example : Forall finite vx_v /\ var_no_overflow vx_v /\ var_bound vx_v <= exact_var vx_v /\ 0 < exact_var vx_v /\ ok_and (fun s => flt (of_int 1) s && flt s (of_int 2))%bool (fstd_all AllSerial Fixed vx_m) = true.
Proof. pose proof vx_bound as B. split; [apply vx_values|]. split; [exact vx_away|]. destruct vx_values as (_ & _ & -> & _). split; [lra|]. split; [lra|]. vm_compute. reflexivity. Qed.
Print Assumptions C112_std.

(** C112: standard deviations over axes, at every remaining index.  Missing: empty tensors and broadcast inputs, as above. *)
Theorem C112_std_axes_partial : forall t dev adev dflt k (a : tensor (float t)) axes ax r, works dev -> tensor_ok a -> reducible a ax -> names (ndim (t_layout a)) axes ax -> stat_axes_f (fstd_all dev k a) (fstd_axes adev dflt a) axes r ->
  exists t', r = Ok t' /\ tables_as a ax (fun xs d => xs <> [] -> (Z.of_nat (length xs) <= 2 ^ prec t)%Z -> Forall finite xs -> var_no_overflow xs -> var_bound xs <= exact_var xs -> 0 < exact_var xs -> deviates_by xs d) t'.
Proof. exact l_fstd_axes. Qed.
Example C112_std_axes_example : reducible vx_m (Some [0]%nat) /\ names (ndim (t_layout vx_m)) (AxVal (-2)) (Some [0]%nat) /\ exists r, stat_axes_f (fstd_all AllSerial Fixed vx_m) (fstd_axes AxesSerial RowMajor vx_m) (AxVal (-2)) r /\ ok_and (fun q => match t_data q with [x; y] => feq x (of_int 1) && feq y (of_int 1) | _ => false end)%bool r = true.
Proof. destruct vx_reducible as [R N]. split; [exact R|]. split; [exact N|]. eexists. split; [eexists; split; [reflexivity|reflexivity]|]. vm_compute. reflexivity. Qed.
Print Assumptions C112_std_axes_partial.

(** C112: no bound relative to the variance itself holds: the variance of 100000000 and 100000001 is 1/4, the computed one 0. *)
Theorem C112_var_accuracy_refuted : let xs := [of_int 100000000; of_int 100000001] : list (float F64) in let a := row xs in tensor_ok a /\ Forall finite xs /\ exact_var xs = 1 / 4 /\ exists v, fvar_all AllSerial Fixed a = Ok v /\ val v = 0.
Proof. exact l_fvar_accuracy_refuted. Qed.
Print Assumptions C112_var_accuracy_refuted.
