(** Vocabulary for statements about products of matrices of floating-point numbers: independent of the model. *)
From Coq Require Import ZArith Reals List.
From Flocq Require Import Core BinarySingleNaN.
From Verif Require Import Base Spec M_Layout M_Tensor M_Float Spec_Float Spec_FloatReduce.
Import ListNotations.
Local Open Scope R_scope.

(** [ps] are the pairs of elements a[ax], b[bx] of the listed pairs of indices. *)
Definition factors {T} (a : list T) (la : layout) (b : list T) (lb : layout) (ts : list (list nat * list nat)) (ps : list (T * T)) : Prop :=
  Forall2 (fun t p => elem a la (fst t) = Some (fst p) /\ elem b lb (snd t) = Some (snd p)) ts ps.
Definition finite_pairs {t} (ps : list (float t * float t)) : Prop := Forall (fun p => finite (fst p) /\ finite (snd p)) ps.
(** the exact sum of the products, and the exact sum of their magnitudes *)
Definition exact_dot {t} (ps : list (float t * float t)) : R := rsum (map (fun p => val (fst p) * val (snd p)) ps).
Definition dot_magnitude {t} (ps : list (float t * float t)) : R := rsum (map (fun p => Rabs (val (fst p) * val (snd p))) ps).
(** underflow: each of the n products may be off by the smallest number, and the later roundings enlarge that a little *)
Definition dot_underflow (t : float_type) (n : nat) : R := INR n * rounded t (n - 1) * smallest t.
(** far enough from overflow *)
Definition dot_no_overflow {t} (ps : list (float t * float t)) : Prop :=
  rounded t (length ps) * dot_magnitude ps + dot_underflow t (length ps) < two (emax t).
(** v is the sum of n products up to n roundings, and underflow *)
Definition dots_to {t} (ps : list (float t * float t)) (v : float t) : Prop :=
  finite v /\ Rabs (val v - exact_dot ps) <= (rounded t (length ps) - 1) * dot_magnitude ps + dot_underflow t (length ps).

(** the same for beta z + alpha (sum of products) *)
Definition scaled_magnitude {t} (alpha beta z : float t) (ps : list (float t * float t)) : R :=
  Rabs (val beta * val z) + Rabs (val alpha) * dot_magnitude ps.
Definition scaled_underflow {t} (alpha : float t) (n : nat) : R :=
  INR (n + 1) * rounded t n * (1 + rounded t 1 * Rabs (val alpha)) * smallest t.
Definition scaled_no_overflow {t} (alpha beta z : float t) (ps : list (float t * float t)) : Prop :=
  rounded t (length ps + 2) * scaled_magnitude alpha beta z ps + scaled_underflow alpha (length ps) < two (emax t) /\
  Forall (fun p => rounded t 1 * Rabs (val (fst p) * val (snd p)) + smallest t < two (emax t)) ps.
Definition accumulates_to {t} (alpha beta z : float t) (ps : list (float t * float t)) (v : float t) : Prop :=
  finite v /\ Rabs (val v - (val beta * val z + val alpha * exact_dot ps)) <=
    (rounded t (length ps + 2) - 1) * scaled_magnitude alpha beta z ps + scaled_underflow alpha (length ps).

(** the factors are finite multiples of 2^j and of 2^k *)
Definition multiple_pairs {t} (j k : Z) (ps : list (float t * float t)) : Prop :=
  Forall (fun p => (finite (fst p) /\ multiple_of j (val (fst p))) /\ finite (snd p) /\ multiple_of k (val (snd p))) ps.
