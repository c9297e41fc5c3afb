(** Property theorems about products and norms of floating-point tensors (C111).  Statements use Spec_Stats.v, Spec_Float.v,
    Spec_FloatReduce.v, Spec_FloatMatmul.v, Spec_FloatProd.v and the modelled entry points of M_FloatProd.v and M_FloatReduce.v only. *)
From Coq Require Import ZArith Reals List Lra Lia.
From Flocq Require Import Core BinarySingleNaN.
From Verif Require Import Base Spec Spec_Stats M_Layout M_Tensor M_Reduce M_Stats P_Tensor Q_Tensor Q_Stats M_Float Spec_Float Spec_FloatReduce Spec_FloatMatmul Spec_FloatProd M_FloatReduce M_FloatProd P_FloatOps Q_FloatReduce Q_FloatProd.
Import ListNotations.
Local Open Scope R_scope.

(** C111: the product of all elements of a tensor of f32 or f64, on both devices and for every schedule: if the elements are finite and no product of some of them comes near overflow, it is finite and within ((1 + u)^(n - 1) - 1) times the magnitude of the exact product, and an underflow term, of the exact product; a zero among the elements gives exactly zero; no elements give 1. *)
Theorem C111_prod : forall t dev k (a : tensor (float t)) xs, works dev -> tensor_ok a -> elements (t_data a) (t_layout a) (row_major (t_shape a)) xs ->
  exists p, fprod_all dev k a = Ok p /\ (Forall finite xs -> prod_no_overflow xs -> multiplies_to xs p).
Proof. exact l_fprod. Qed.
(** the matrix [[1, 2], [3, 4]], stored by columns *)
Definition px_v : list (float F64) := [of_int 1; of_int 2; of_int 3; of_int 4].
Definition px_m : tensor (float F64) := mkTensor [of_int 1; of_int 3; of_int 2; of_int 4] (mkLayout [2; 2]%nat [1; 2]%Z 0).
Lemma px_ok : tensor_ok px_m. Proof. concrete_tensor. Qed.
Lemma px_int z : (Z.abs z <= 2 ^ 53)%Z -> val (of_int z : float F64) = IZR z /\ finite (of_int z : float F64). Proof. apply (int_val F64). Qed.
Lemma px_unit : 0 <= unit_roundoff F64 <= 1. Proof. unfold unit_roundoff. split; [apply bpow_ge_0|]. change 1 with (two 0). apply bpow_le. cbn. discriminate. Qed.
Lemma px_small : 0 <= smallest F64 <= 1. Proof. unfold smallest. split; [apply bpow_ge_0|]. change 1 with (two 0). apply bpow_le. cbn. discriminate. Qed.
Lemma px_rounded k : 0 <= rounded F64 k <= 2 ^ k.
Proof. unfold rounded. pose proof px_unit. split; [apply pow_le; lra|apply pow_incr; lra]. Qed.
Lemma px_big : 1024 <= two (emax F64). Proof. change 1024 with (two 10). apply bpow_le. cbn. discriminate. Qed.
Lemma px_finite : Forall finite px_v /\ exact_prod px_v = 24 /\ growth px_v = 24 /\ prod_no_overflow px_v.
Proof. destruct (px_int 1) as [A1 A2]; [discriminate|]. destruct (px_int 2) as [B1 B2]; [discriminate|]. destruct (px_int 3) as [C1 C2]; [discriminate|]. destruct (px_int 4) as [D1 D2]; [discriminate|].
  assert (M : growth px_v = 24). { unfold growth, rprod, px_v. cbn [map fold_right]. rewrite A1, B1, C1, D1. rewrite !Rabs_pos_eq by lra. rewrite !Rmax_right by lra. lra. }
  split; [repeat constructor; auto|]. split; [unfold exact_prod, rprod, px_v; cbn [map fold_right]; rewrite A1, B1, C1, D1; lra|]. split; [exact M|]. unfold prod_no_overflow. rewrite M. cbn [length px_v Nat.sub]. pose proof (px_rounded 3) as G. cbn [pow] in G. pose proof px_big. lra. Qed.
Example C111_example : works AllSerial /\ works (AllRayon 1024 Leaf (fun _ => Leaf)) /\ tensor_ok px_m /\ elements (t_data px_m) (t_layout px_m) (row_major (t_shape px_m)) px_v /\ Forall finite px_v /\ prod_no_overflow px_v /\
  ok_and (fun s => feq s (of_int 24)) (fprod_all AllSerial Fixed px_m) = true.
Proof. destruct px_finite as (F & _ & _ & N). split; [exact I|]. split; [discriminate|]. split; [exact px_ok|]. split; [repeat constructor|]. split; [exact F|]. split; [exact N|]. vm_compute. reflexivity. Qed.
Print Assumptions C111_prod.

(** C111: products over axes, at every remaining index.  Missing: empty tensors and broadcast inputs, where reductions over axes themselves are wrong (C32). *)
Theorem C111_prod_axes_partial : forall t dev adev dflt k (a : tensor (float t)) axes ax r, works dev -> tensor_ok a -> reducible a ax -> names (ndim (t_layout a)) axes ax ->
  stat_axes_f (fprod_all dev k a) (fprod_axes adev dflt a) axes r -> exists t', r = Ok t' /\ tables_as a ax (fun xs p => Forall finite xs -> prod_no_overflow xs -> multiplies_to xs p) t'.
Proof. exact l_fprod_axes. Qed.
Lemma px_reducible : reducible px_m (Some [0]%nat) /\ names (ndim (t_layout px_m)) (AxVal (-2)) (Some [0]%nat).
Proof. split; [|cbn; repeat constructor; cbn; lia]. right. split; [vm_compute; discriminate|]. intros k Hk _. cbn in Hk. destruct k as [|[|k]]; cbn; lia. Qed.
Example C111_axes_example : tensor_ok px_m /\ reducible px_m (Some [0]%nat) /\ names (ndim (t_layout px_m)) (AxVal (-2)) (Some [0]%nat) /\ exists r, stat_axes_f (fprod_all AllSerial Fixed px_m) (fprod_axes AxesSerial RowMajor px_m) (AxVal (-2)) r /\ ok_and (fun q => match t_data q with [x; y] => feq x (of_int 3) && feq y (of_int 8) | _ => false end)%bool r = true.
Proof. destruct px_reducible as [R N]. split; [exact px_ok|]. split; [exact R|]. split; [exact N|]. eexists. split; [eexists; split; [reflexivity|reflexivity]|]. vm_compute. reflexivity. Qed.
Print Assumptions C111_prod_axes_partial.

(** C111: products of integers are exact if the magnitudes multiply up to at most 2^24 or 2^53 (zeros counted as 1), so they do not depend on device, schedule or layout.  Missing: as above. *)
Theorem C111_prod_exact_partial : forall t dev adev dflt k (a : tensor (float t)) axes ax r, works dev -> tensor_ok a -> reducible a ax -> names (ndim (t_layout a)) axes ax ->
  stat_axes_f (fprod_all dev k a) (fprod_axes adev dflt a) axes r -> exists t', r = Ok t' /\ tables_as a ax (fun xs p => multiples 0 xs -> growth xs <= two (prec t) -> finite p /\ val p = exact_prod xs) t'.
Proof. exact l_fprod_exact. Qed.
Example C111_exact_example : multiples 0 px_v /\ growth px_v <= two (prec F64).
Proof. split.
  - assert (M : forall z, (Z.abs z <= 2 ^ 53)%Z -> finite (of_int z : float F64) /\ multiple_of 0 (val (of_int z : float F64))) by (intros z Hz; destruct (px_int z Hz) as [V F]; split; [exact F|]; exists z; rewrite V; change (two 0) with 1; ring).
    unfold multiples, px_v. constructor; [apply M; discriminate|]. constructor; [apply M; discriminate|]. constructor; [apply M; discriminate|]. constructor; [apply M; discriminate|]. constructor.
  - destruct px_finite as (_ & _ & -> & _). apply Rle_trans with (two 7); [change (two 7) with 128; lra|apply bpow_le; cbn; discriminate]. Qed.
Print Assumptions C111_prod_exact_partial.

(** C111: without the condition about overflow the product depends on the schedule: 2^600 * 2^600 * 2^-600 overflows on the serial device, and is 2^600 if the parallel device multiplies the last two first. *)
Theorem C111_prod_schedule_refuted : let a := row big_small in tensor_ok a /\
  exists s p, fprod_all AllSerial Fixed a = Ok s /\ fprod_all (AllRayon 1024 Leaf (fun _ => Node 1 Leaf Leaf)) Fixed a = Ok p /\ feq s (B754_infinity false) = true /\ feq p (of_int (2 ^ 600)) = true.
Proof. exact l_fprod_schedule_refuted. Qed.
Print Assumptions C111_prod_schedule_refuted.

(** C111: the norm (l2_norm) of all elements, on both devices and for every schedule: if the elements are finite and the sum of the squares is away from overflow, the norm is finite -- never NaN -- and within ((1 + u)^(n + 1) - 1) times the exact norm, and an underflow term of the order of the root of the smallest positive number, of the exact norm.  (Without the condition: C105_norm_refuted.) *)
Theorem C111_norm : forall t dev k (a : tensor (float t)) xs, works dev -> tensor_ok a -> elements (t_data a) (t_layout a) (row_major (t_shape a)) xs ->
  exists s, fnorm_all dev k a = Ok s /\ (Forall finite xs -> dot_no_overflow (squares xs) -> norms_to xs s).
Proof. exact l_fnorm. Qed.
Lemma px_squares : exact_dot (squares px_v) = 30 /\ dot_no_overflow (squares px_v).
Proof. destruct (px_int 1) as [A1 A2]; [discriminate|]. destruct (px_int 2) as [B1 B2]; [discriminate|]. destruct (px_int 3) as [C1 C2]; [discriminate|]. destruct (px_int 4) as [D1 D2]; [discriminate|].
  assert (E : exact_dot (squares px_v) = 30). { unfold exact_dot, rsum, squares, px_v. cbn [map fold_right fst snd]. rewrite A1, B1, C1, D1. lra. } split; [exact E|].
  unfold dot_no_overflow. rewrite squares_magnitude, E. cbn [length squares map px_v]. unfold dot_underflow. cbn [Nat.sub]. pose proof (px_rounded 4) as G2. pose proof (px_rounded 3) as G1. pose proof px_small as S0. pose proof px_big as B. cbn [pow] in G2, G1. replace (INR 4) with 4 by (cbn; lra).
  assert (4 * rounded F64 3 * smallest F64 <= 32 * 1) by (apply Rmult_le_compat; lra). lra. Qed.
Example C111_norm_example : works AllSerial /\ elements (t_data px_m) (t_layout px_m) (row_major (t_shape px_m)) px_v /\ Forall finite px_v /\ dot_no_overflow (squares px_v) /\ ok_and (fun s => flt (of_int 5) s && flt s (of_int 6))%bool (fnorm_all AllSerial Fixed px_m) = true.
Proof. split; [exact I|]. split; [repeat constructor|]. split; [apply px_finite|]. split; [apply px_squares|]. vm_compute. reflexivity. Qed.
Print Assumptions C111_norm.

(** C111: norms over axes, at every remaining index.  Missing: empty tensors and broadcast inputs, as above. *)
Theorem C111_norm_axes_partial : forall t dev adev dflt k (a : tensor (float t)) axes ax r, works dev -> tensor_ok a -> reducible a ax -> names (ndim (t_layout a)) axes ax ->
  stat_axes_f (fnorm_all dev k a) (fnorm_axes adev dflt a) axes r -> exists t', r = Ok t' /\ tables_as a ax (fun xs s => Forall finite xs -> dot_no_overflow (squares xs) -> norms_to xs s) t'.
Proof. exact l_fnorm_axes. Qed.
Example C111_norm_axes_example : reducible px_m (Some [0]%nat) /\ names (ndim (t_layout px_m)) (AxVal (-2)) (Some [0]%nat) /\ exists r, stat_axes_f (fnorm_all AllSerial Fixed px_m) (fnorm_axes AxesSerial RowMajor px_m) (AxVal (-2)) r /\ ok_and (fun q => match t_data q with [x; y] => flt (of_int 3) x && flt (of_int 4) y | _ => false end)%bool r = true.
Proof. destruct px_reducible as [R N]. split; [exact R|]. split; [exact N|]. eexists. split; [eexists; split; [reflexivity|reflexivity]|]. vm_compute. reflexivity. Qed.
Print Assumptions C111_norm_axes_partial.
