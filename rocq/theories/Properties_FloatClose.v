(** Property theorems about the closeness of floating-point numbers and unsigned integers (C108).  Statements use Spec.v, Spec_Float.v,
    Spec_FloatClose.v and the modelled entry points of M_FloatClose.v only. *)
From Coq Require Import ZArith Reals List Lra Lia.
From Flocq Require Import Core BinarySingleNaN.
From Verif Require Import Base Spec P_Tensor M_Layout M_Tensor M_Reduce M_Binary M_Float Spec_Float Spec_FloatClose M_FloatClose P_FloatOps Q_FloatClose.
Import ListNotations.
Local Open Scope R_scope.

(** C108: isclose of two finite numbers of type f32 or f64 (also one of each), whose difference can be represented, is |a - b| <= atol + rtol * |b| on the true values, up to a few roundings: true whenever the distance is below the tolerance by a relative amount of 5 u (u = 2^-24 or 2^-53) and 4 times the smallest positive number, false whenever it is above by that much. *)
Theorem C108_isclose : forall s t (a : float s) (b : float t) rtol atol equal_nan, finite a -> finite b -> tolerance rtol -> tolerance atol -> difference_fits (wider s t) (val a) (val b) ->
  close_up_to (unit_roundoff (wider s t)) rtol atol (val a) (val b) (fisclose rtol atol equal_nan a b).
Proof. exact l_isclose. Qed.
Lemma hx_int t z : (Z.abs z <= 2 ^ 8)%Z -> val (of_int z : float t) = IZR z /\ finite (of_int z : float t).
Proof. intro H. apply int_val. assert (2 ^ 8 <= 2 ^ prec t)%Z by (apply Z.pow_le_mono_r; destruct t; cbn; lia). lia. Qed.
Lemma hx_tol z : (0 <= z <= 2 ^ 8)%Z -> tolerance (of_int z).
Proof. intro H. destruct (hx_int F64 z) as [V F]; [lia|]. split; [exact F|]. rewrite V. apply IZR_le. lia. Qed.
Lemma hx_unit t : 0 <= unit_roundoff t <= / 8. Proof. unfold unit_roundoff. split; [apply bpow_ge_0|]. change (/ 8) with (two (-3)). apply bpow_le. destruct t; cbn; discriminate. Qed.
Lemma hx_small : 0 <= smallest F64 <= / 8. Proof. unfold smallest. split; [apply bpow_ge_0|]. change (/ 8) with (two (-3)). apply bpow_le. cbn. discriminate. Qed.
Lemma hx_fits t a b : Rabs (a - b) <= 4 -> difference_fits t a b.
Proof. intro H. unfold difference_fits. pose proof (hx_unit t) as U. pose proof (Rabs_pos (a - b)). assert (16 <= two (emax t)) by (change 16 with (two 4); apply bpow_le; destruct t; cbn; discriminate).
  assert ((1 + unit_roundoff t) * Rabs (a - b) <= 2 * 4) by (apply Rmult_le_compat; lra). lra. Qed.
(** 100 (f32) and 99 (f64), tolerances 4 and 0, and 1/2 and 0 *)
Definition hx_half : float F64 := fdiv (of_int 1) (of_int 2).
Example C108_example : finite (of_int 100 : float F32) /\ finite (of_int 99 : float F64) /\ tolerance (of_int 4) /\ tolerance (of_int 0) /\ difference_fits F64 (val (of_int 100 : float F32)) (val (of_int 99 : float F64)) /\
  Rabs (val (of_int 100 : float F32) - val (of_int 99 : float F64)) <= (1 - 5 * unit_roundoff F64) * allowed (of_int 0) (of_int 4) (val (of_int 99 : float F64)) - 4 * smallest F64 /\
  fisclose (of_int 0) (of_int 4) false (of_int 100 : float F32) (of_int 99 : float F64) = true /\ fisclose (of_int 0) hx_half false (of_int 100 : float F32) (of_int 99 : float F64) = false.
Proof. destruct (hx_int F32 100) as [A1 A2]; [lia|]. destruct (hx_int F64 99) as [B1 B2]; [lia|]. destruct (hx_int F64 4) as [C1 C2]; [lia|]. destruct (hx_int F64 0) as [D1 D2]; [lia|].
  split; [exact A2|]. split; [exact B2|]. split; [apply hx_tol; lia|]. split; [apply hx_tol; lia|]. rewrite A1, B1. assert (E : Rabs (100 - 99) = 1) by (rewrite Rabs_pos_eq; lra). split; [apply hx_fits; lra|].
  split; [unfold allowed; rewrite C1, D1, E; pose proof (hx_unit F64); pose proof hx_small; lra|]. split; vm_compute; reflexivity. Qed.
Print Assumptions C108_isclose.

(** C108: the same for unsigned integers of up to 128 bits, of any distance, with the rounding of f64. *)
Theorem C108_isclose_unsigned : forall (a b : Z) rtol atol, (0 <= a < 2 ^ 128)%Z -> (0 <= b < 2 ^ 128)%Z -> tolerance rtol -> tolerance atol ->
  close_up_to (unit_roundoff F64) rtol atol (IZR a) (IZR b) (uisclose rtol atol a b).
Proof. exact l_uisclose. Qed.
Example C108_unsigned_example : (0 <= 2 ^ 128 - 1 < 2 ^ 128)%Z /\ tolerance (of_int 1) /\ uisclose (of_int 0) (of_int 1) 0 (2 ^ 128 - 1) = false /\ uisclose (of_int 0) (of_int 1) 7 8 = true.
Proof. split; [lia|]. split; [apply hx_tol; lia|]. split; vm_compute; reflexivity. Qed.
Print Assumptions C108_isclose_unsigned.

(** C108: equal finite numbers are close, whatever the tolerances, without any other condition (the tolerance may overflow, and the numbers may be of different types). *)
Theorem C108_isclose_equal : forall s t (a : float s) (b : float t) rtol atol equal_nan, finite a -> finite b -> val a = val b -> tolerance rtol -> tolerance atol -> fisclose rtol atol equal_nan a b = true.
Proof. exact l_isclose_self. Qed.
Example C108_equal_example : val (of_int 5 : float F32) = val (of_int 5 : float F64) /\ fisclose (of_int 0) (of_int 0) false (of_int 5 : float F32) (of_int 5 : float F64) = true.
Proof. destruct (hx_int F32 5) as [A1 _]; [lia|]. destruct (hx_int F64 5) as [B1 _]; [lia|]. split; [congruence|]. vm_compute. reflexivity. Qed.
Print Assumptions C108_isclose_equal.

(** C108: with tolerances 0, isclose of finite numbers is their equality: no difference is lost, however small. *)
Theorem C108_isclose_exact : forall s t (a : float s) (b : float t) rtol atol equal_nan, finite a -> finite b -> finite rtol -> finite atol -> val rtol = 0 -> val atol = 0 ->
  (fisclose rtol atol equal_nan a b = true <-> val a = val b).
Proof. exact l_isclose_exact. Qed.
(** the two smallest positive numbers of f64 differ, and are not close *)
Definition hx_tiny (m : Z) : float F64 := @binary_normalize _ _ (prec_ok F64) (emax_ok F64) mode_NE m (-1074) false.
Example C108_exact_example : finite (hx_tiny 1) /\ finite (hx_tiny 2) /\ fisclose (of_int 0) (of_int 0) false (hx_tiny 1) (hx_tiny 2) = false.
Proof. split; [reflexivity|]. split; [reflexivity|]. vm_compute. reflexivity. Qed.
Print Assumptions C108_isclose_exact.

(** C108: numbers that are close (finite, infinite or NaN) stay close when the tolerances grow. *)
Theorem C108_isclose_monotone : forall s t (a : float s) (b : float t) rtol atol rtol' atol' equal_nan, tolerance rtol -> tolerance atol -> tolerance rtol' -> tolerance atol' -> val rtol <= val rtol' -> val atol <= val atol' ->
  fisclose rtol atol equal_nan a b = true -> fisclose rtol' atol' equal_nan a b = true.
Proof. exact l_isclose_mono. Qed.
Example C108_monotone_example : tolerance (of_int 1) /\ tolerance (of_int 2) /\ val (of_int 1 : float F64) <= val (of_int 2 : float F64) /\ fisclose (of_int 0) (of_int 1) false (of_int 5 : float F64) (of_int 6 : float F64) = true.
Proof. destruct (hx_int F64 1) as [A1 _]; [lia|]. destruct (hx_int F64 2) as [B1 _]; [lia|]. split; [apply hx_tol; lia|]. split; [apply hx_tol; lia|]. split; [rewrite A1, B1; lra|]. vm_compute. reflexivity. Qed.
Print Assumptions C108_isclose_monotone.

(** C108: without a relative tolerance isclose is symmetric on finite numbers, also when the difference overflows. *)
Theorem C108_isclose_symmetric : forall s (a b : float s) rtol atol equal_nan, finite a -> finite b -> finite rtol -> val rtol = 0 -> tolerance atol ->
  fisclose rtol atol equal_nan a b = fisclose rtol atol equal_nan b a.
Proof. exact l_isclose_sym. Qed.
Example C108_symmetric_example : finite (of_int 0 : float F64) /\ val (of_int 0 : float F64) = 0 /\ tolerance (of_int 1) /\ fisclose (of_int 0) (of_int 1) false (of_int 6 : float F64) (of_int 5 : float F64) = true.
Proof. destruct (hx_int F64 0) as [A1 A2]; [lia|]. split; [exact A2|]. split; [exact A1|]. split; [apply hx_tol; lia|]. vm_compute. reflexivity. Qed.
Print Assumptions C108_isclose_symmetric.

(** C108: a NaN is close to nothing, except to another NaN if equal_nan is set. *)
Theorem C108_isclose_nan : forall s t (a : float s) (b : float t) rtol atol equal_nan, is_nan a = true \/ is_nan b = true ->
  fisclose rtol atol equal_nan a b = equal_nan && is_nan a && is_nan b.
Proof. exact l_isclose_nan. Qed.
Example C108_nan_example : fisclose (of_int 0) (of_int 1) true (B754_nan : float F32) (B754_nan : float F64) = true /\ fisclose (of_int 0) (of_int 1) true (of_int 0 : float F32) (B754_nan : float F64) = false.
Proof. split; vm_compute; reflexivity. Qed.
Print Assumptions C108_isclose_nan.

(** C108: allclose of tensors of floats whose shapes have a common shape that is not empty: true if all pairs of elements are clearly within the tolerance, false if one pair is clearly outside, or has one NaN. *)
Theorem C108_allclose : forall s t o (a : tensor (float s)) (b : tensor (float t)) rtol atol equal_nan sh, tensor_ok a -> tensor_ok b -> tolerance rtol -> tolerance atol ->
  broadcasts o (t_shape a) (t_shape b) sh -> size sh <> 0%nat ->
  exists r, fallclose o rtol atol equal_nan a b = Ok r /\
    ((forall jx, valid sh jx -> exists x y, at_ a (source_index o (t_shape a) jx) = Some x /\ at_ b (source_index o (t_shape b) jx) = Some y /\ finite x /\ finite y /\ difference_fits (wider s t) (val x) (val y) /\
        Rabs (val x - val y) <= (1 - 5 * unit_roundoff (wider s t)) * allowed rtol atol (val y) - 4 * smallest F64) -> r = true) /\
    (forall jx x y, valid sh jx -> at_ a (source_index o (t_shape a) jx) = Some x -> at_ b (source_index o (t_shape b) jx) = Some y -> finite x -> finite y -> difference_fits (wider s t) (val x) (val y) ->
        (1 + 5 * unit_roundoff (wider s t)) * allowed rtol atol (val y) + 4 * smallest F64 < Rabs (val x - val y) -> r = false) /\
    (forall jx x y, valid sh jx -> at_ a (source_index o (t_shape a) jx) = Some x -> at_ b (source_index o (t_shape b) jx) = Some y -> is_nan x <> is_nan y -> r = false).
Proof. exact l_fallclose. Qed.
Definition hx_a : tensor (float F32) := mkTensor [of_int 1; of_int 5; of_int 2] (mkLayout [2]%nat [2]%Z 0).
Definition hx_b : tensor (float F64) := mkTensor [of_int 2] (mkLayout [1]%nat [1]%Z 0).
Example C108_allclose_example : tensor_ok hx_a /\ tensor_ok hx_b /\ broadcasts RowMajor (t_shape hx_a) (t_shape hx_b) [2]%nat /\ size [2]%nat <> 0%nat /\
  fallclose RowMajor (of_int 0) (of_int 1) false hx_a hx_b = Ok true /\ fallclose RowMajor (of_int 0) hx_half false hx_a hx_b = Ok false.
Proof. split; [concrete_tensor|]. split; [concrete_tensor|]. split. { split; [reflexivity|]. intro k. destruct k as [|[|k]]; cbn; auto. } split; [discriminate|]. split; vm_compute; reflexivity. Qed.
Print Assumptions C108_allclose.

(** C108: a tensor that is not empty and whose elements are finite (or NaN, if equal_nan is set) is allclose to itself. *)
Theorem C108_allclose_self : forall t o (a : tensor (float t)) rtol atol equal_nan, tensor_ok a -> size (t_shape a) <> 0%nat -> tolerance rtol -> tolerance atol ->
  (forall ix x, valid (t_shape a) ix -> at_ a ix = Some x -> finite x \/ (equal_nan = true /\ is_nan x = true)) -> fallclose o rtol atol equal_nan a a = Ok true.
Proof. exact l_fallclose_self. Qed.
Example C108_self_example : tensor_ok hx_a /\ size (t_shape hx_a) <> 0%nat /\ fallclose RowMajor (of_int 0) (of_int 0) false hx_a hx_a = Ok true.
Proof. split; [concrete_tensor|]. split; [discriminate|]. vm_compute. reflexivity. Qed.
Print Assumptions C108_allclose_self.

(** C108: the parallel device gives the same verdict as the serial one, for every schedule. *)
Theorem C108_allclose_rayon : forall s t chunk tr ti o (a : tensor (float s)) (b : tensor (float t)) rtol atol equal_nan, chunk <> 0%nat -> tensor_ok a -> tensor_ok b ->
  fallclose_rayon chunk tr ti o rtol atol equal_nan a b = fallclose o rtol atol equal_nan a b.
Proof. exact l_fallclose_rayon. Qed.
Print Assumptions C108_allclose_rayon.

(** C108 refuted: differences that overflow.  Two f32 whose distance is at most half of the tolerance, which is an f64, are reported not close, because their difference is computed in f32 and is infinite there; two f64 whose distance exceeds the tolerance by a third are reported close, because both the difference and the tolerance overflow. *)
Theorem C108_overflow_refuted : 
  (exists (a b : float F32) atol, finite a /\ finite b /\ tolerance atol /\ Rabs (val a - val b) <= / 2 * allowed fzero atol (val b) /\ fisclose fzero atol false a b = false) /\
  (exists (a b rtol : float F64), finite a /\ finite b /\ tolerance rtol /\ 4 / 3 * allowed rtol fzero (val b) <= Rabs (val a - val b) /\ 0 < Rabs (val a - val b) /\ fisclose rtol fzero false a b = true).
Proof. exact l_isclose_overflow. Qed.
Print Assumptions C108_overflow_refuted.
