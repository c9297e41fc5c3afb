(** Vocabulary for statements about the closeness of floating-point numbers: independent of the model. *)
From Coq Require Import ZArith Reals List.
From Flocq Require Import Core BinarySingleNaN.
From Verif Require Import M_Float Spec_Float.
Local Open Scope R_scope.

(** tolerances: finite numbers that are not negative *)
Definition tolerance (x : float F64) : Prop := finite x /\ 0 <= val x.
(** atol + rtol * |b| *)
Definition allowed (rtol atol : float F64) (b : R) : R := val atol + val rtol * Rabs b.
(** The verdict [r] is the one of |a - b| <= atol + rtol * |b|, except for distances within a few roundings, of unit roundoff u, of the
    bound: whatever is clearly below is close, whatever is clearly above is not. *)
Definition close_up_to (u : R) (rtol atol : float F64) (a b : R) (r : bool) : Prop :=
  (Rabs (a - b) <= (1 - 5 * u) * allowed rtol atol b - 4 * smallest F64 -> r = true) /\
  ((1 + 5 * u) * allowed rtol atol b + 4 * smallest F64 < Rabs (a - b) -> r = false).
(** f64 if one of the two is *)
Definition wider (s t : float_type) : float_type := match s, t with F32, F32 => F32 | _, _ => F64 end.
(** the difference of the two can be represented *)
Definition difference_fits (t : float_type) (a b : R) : Prop := (1 + unit_roundoff t) * Rabs (a - b) < two (emax t).
