(** Vocabulary for statements about products and norms of floating-point numbers: independent of the model. *)
From Coq Require Import ZArith Reals List.
From Flocq Require Import Core BinarySingleNaN.
From Verif Require Import Base Spec M_Float Spec_Float Spec_FloatReduce Spec_FloatMatmul.
Import ListNotations.
Local Open Scope R_scope.

(** product of real numbers *)
Definition rprod (xs : list R) : R := fold_right Rmult 1 xs.
(** the exact product of floats, and the product of their magnitudes where those are at least 1: no product of some of the factors is
    greater in magnitude *)
Definition exact_prod {t} (xs : list (float t)) : R := rprod (map val xs).
Definition growth {t} (xs : list (float t)) : R := rprod (map (fun x => Rmax 1 (Rabs (val x))) xs).
(** far enough from overflow *)
Definition prod_no_overflow {t} (xs : list (float t)) : Prop := rounded t (length xs - 1) * growth xs < two (emax t).
(** what n - 1 underflows may add *)
Definition prod_underflow {t} (xs : list (float t)) : R := INR (length xs - 1) * rounded t (length xs - 1) * growth xs * smallest t.
(** p is the product of n floats up to n - 1 roundings; it is zero if a factor is *)
Definition multiplies_to {t} (xs : list (float t)) (p : float t) : Prop :=
  finite p /\ Rabs (val p - exact_prod xs) <= (rounded t (length xs - 1) - 1) * Rabs (exact_prod xs) + prod_underflow xs /\
  (Exists (fun x : float t => val x = 0) xs -> val p = 0).
(** the numbers paired with themselves; the exact norm: the root of the sum of the squares *)
Definition squares {t} (xs : list (float t)) : list (float t * float t) := map (fun x => (x, x)) xs.
Definition exact_norm {t} (xs : list (float t)) : R := sqrt (exact_dot (squares xs)).
(** s is the norm of n floats up to n + 1 roundings and underflows *)
Definition norms_to {t} (xs : list (float t)) (s : float t) : Prop :=
  finite s /\ Rabs (val s - exact_norm xs) <= (rounded t (length xs + 1) - 1) * exact_norm xs + rounded t 1 * sqrt (dot_underflow t (length xs)) + smallest t.
