(** Vocabulary for statements about variances of floating-point numbers: independent of the model. *)
From Coq Require Import ZArith Reals List.
From Flocq Require Import Core BinarySingleNaN.
From Verif Require Import Base Spec M_Float Spec_Float Spec_FloatReduce Spec_FloatMatmul Spec_FloatProd.
Import ListNotations.
Local Open Scope R_scope.

(** the mean of the squares, and the exact variance: the mean of the squared distances from the mean *)
Definition mean_square {t} (xs : list (float t)) : R := exact_dot (squares xs) / INR (length xs).
Definition exact_mean {t} (xs : list (float t)) : R := exact_sum xs / INR (length xs).
Definition exact_var {t} (xs : list (float t)) : R := rsum (map (fun x => (val x - exact_mean xs) * (val x - exact_mean xs)) xs) / INR (length xs).
(** the bound on the error: it is relative to the mean of the squares, not to the variance *)
Definition var_bound {t} (xs : list (float t)) : R :=
  2 * (rounded t (2 * length xs + 2) - 1) * mean_square xs + rounded t (length xs + 2) * (4 + 2 * sqrt (mean_square xs)) * smallest t.
(** far enough from overflow *)
Definition var_no_overflow {t} (xs : list (float t)) : Prop :=
  no_overflow xs /\ dot_no_overflow (squares xs) /\ 2 * mean_square xs + var_bound xs < two (emax t).
Definition varies_by {t} (xs : list (float t)) (v : float t) : Prop := finite v /\ Rabs (val v - exact_var xs) <= var_bound xs.
(** the standard deviation, if the variance exceeds its error bound *)
Definition deviates_by {t} (xs : list (float t)) (d : float t) : Prop :=
  finite d /\ Rabs (val d - sqrt (exact_var xs)) <= rounded t 1 * (var_bound xs / sqrt (exact_var xs)) + unit_roundoff t * sqrt (exact_var xs) + smallest t.
