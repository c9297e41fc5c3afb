(** Vocabulary for statements about floating-point numbers: independent of the model. *)
From Coq Require Import ZArith Reals List.
From Flocq Require Import Core BinarySingleNaN.
From Verif Require Import M_Float.
Import ListNotations.
Local Open Scope R_scope.

(** the real number a float stands for (for finite ones) *)
Definition val {t} (x : float t) : R := B2R x.
Definition finite {t} (x : float t) : Prop := is_finite x = true.
(** 2^k *)
Definition two (k : Z) : R := bpow radix2 k.
(** half the distance from 1 to the next number: 2^-24 and 2^-53; the smallest positive number: 2^-149 and 2^-1074 *)
Definition unit_roundoff (t : float_type) : R := two (- prec t).
Definition smallest (t : float_type) : R := two (3 - emax t - prec t).
(** the larger magnitude of two numbers *)
Definition larger (a b : R) : R := Rmax (Rabs a) (Rabs b).
(** far from overflow *)
Definition moderate (t : float_type) (a : R) : Prop := Rabs a <= two (emax t - 3).

(** The values v are those of the half-open interval from a to b (b not included) in steps of h > 0, up to an error tol in each of
    them, and up to one value within tol of the end: each is in the interval and within tol of its place, they increase strictly, the
    first is a, and the next place is no longer below b by more than tol. *)
Definition half_open_steps (a b h tol : R) (v : list R) : Prop :=
  (forall i x, nth_error v i = Some x -> a <= x < b /\ Rabs (x - (a + INR i * h)) <= tol) /\
  (forall i x y, nth_error v i = Some x -> nth_error v (S i) = Some y -> x < y) /\
  nth_error v 0 = Some a /\
  b <= a + INR (length v) * h + tol.

(** The values v are n values evenly spaced from a on in steps of (b - a) / m, up to an error tol i in the value number i. *)
Definition evenly_spaced (a b : R) (m n : nat) (tol : nat -> R) (v : list R) : Prop :=
  length v = n /\ forall i x, nth_error v i = Some x -> Rabs (x - (a + INR i * ((b - a) / INR m))) <= tol i.

(** error of a value of arange(a, b, h): a few units in the last place of the larger end *)
Definition arange_tol (t : float_type) (a b : R) : R := 8 * unit_roundoff t * larger a b + 2 * smallest t.
(** steps that are not lost in the rounding errors, nor so long that the number of steps underflows *)
Definition sensible_step (t : float_type) (a b h : R) : Prop := 4 * arange_tol t a b <= Rabs h /\ two (-1000) * Rabs h <= Rabs (b - a).
(** error of one step of the serial linspace(a, b, n), which adds the step again and again *)
Definition linspace_drift (t : float_type) (a b : R) : R := 8 * unit_roundoff t * larger a b + 4 * smallest t.
(** error of the value number i of the parallel linspace(a, b, n), which multiplies *)
Definition linspace_tol (t : float_type) (a b : R) (i : nat) : R :=
  match i with O => 0 | _ => 12 * unit_roundoff t * larger a b + (INR i + 4) * smallest t end.
(** n values can be told apart from the rounding errors *)
Definition sensible_count (t : float_type) (a b : R) (n : nat) : Prop := 4 * INR n * linspace_drift t a b <= larger a b.
