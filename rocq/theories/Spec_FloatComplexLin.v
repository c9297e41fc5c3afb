(** Specification of linspace for complex floating-point numbers: each part is evenly spaced, up to rounding *)
From Coq Require Import Reals ZArith.
From Verif Require Import Base M_Float Spec_Float.
Local Open Scope R_scope.

(** error of one step of the serial linspace(a, b, n) in one part, which adds the step again and again *)
Definition part_drift (t : float_type) (a b : R) : R := 13 * unit_roundoff t * larger a b + 8 * smallest t.
(** error of the value number i of the parallel linspace(a, b, n) in one part, which multiplies *)
Definition part_tol (t : float_type) (a b : R) (i : nat) : R :=
  match i with O => 0 | _ => 16 * unit_roundoff t * larger a b + (INR i + 8) * smallest t end.
(** the ends of a part are both zero, or n times the larger of them is far from overflow and it is well above n times the error of a step *)
Definition part_sensible (t : float_type) (a b : R) (n : nat) : Prop :=
  (a = 0 /\ b = 0) \/ (INR n * larger a b <= two (emax t - 3) /\ 4 * INR n * part_drift t a b <= larger a b).
