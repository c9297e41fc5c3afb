(** Vocabulary for statements about distances of vectors of floating-point numbers: independent of the model. *)
From Coq Require Import ZArith Reals List.
From Flocq Require Import Core BinarySingleNaN.
From Verif Require Import Base Spec M_Layout M_Tensor M_Float Spec_Float Spec_FloatReduce Spec_FloatMatmul Spec_Dist.
Import ListNotations.
Local Open Scope R_scope.

(** the pairs of corresponding entries of row i of A and row j of B *)
Definition row_pairs {T} (k : nat) (A B : nat -> nat -> T) (i j : nat) : list (T * T) := combine (row k A i) (row k B j).
(** the exact difference of a pair, and the exact distances *)
Definition gap {t} (p : float t * float t) : R := Rabs (val (fst p) - val (snd p)).
Definition exact_city {t} (ps : list (float t * float t)) : R := rsum (map gap ps).
Definition exact_sq {t} (ps : list (float t * float t)) : R := rsum (map (fun p => gap p * gap p) ps).
Definition exact_euclid {t} (ps : list (float t * float t)) : R := sqrt (exact_sq ps).
Definition exact_chebyshev {t} (ps : list (float t * float t)) : R := fold_right Rmax 0 (map gap ps).
(** far enough from overflow *)
Definition city_no_overflow {t} (ps : list (float t * float t)) : Prop := rounded t (length ps) * exact_city ps < two (emax t).
Definition sq_no_overflow {t} (ps : list (float t * float t)) : Prop := rounded t (length ps + 2) * exact_sq ps + dot_underflow t (length ps) < two (emax t).
Definition chebyshev_no_overflow {t} (ps : list (float t * float t)) : Prop := rounded t 1 * exact_chebyshev ps < two (emax t).
(** the distances up to n, n + 2, n + 3 and one roundings, and underflow of the squares *)
Definition city_to {t} (ps : list (float t * float t)) (d : float t) : Prop :=
  finite d /\ Rabs (val d - exact_city ps) <= (rounded t (length ps) - 1) * exact_city ps.
Definition sq_to {t} (ps : list (float t * float t)) (d : float t) : Prop :=
  finite d /\ Rabs (val d - exact_sq ps) <= (rounded t (length ps + 2) - 1) * exact_sq ps + dot_underflow t (length ps).
Definition euclid_to {t} (ps : list (float t * float t)) (d : float t) : Prop :=
  finite d /\ Rabs (val d - exact_euclid ps) <= (rounded t (length ps + 3) - 1) * exact_euclid ps + rounded t 1 * sqrt (dot_underflow t (length ps)) + smallest t.
Definition chebyshev_to {t} (ps : list (float t * float t)) (d : float t) : Prop :=
  finite d /\ Rabs (val d - exact_chebyshev ps) <= unit_roundoff t * exact_chebyshev ps.
(** all corresponding entries are equal (zeros of both signs are) *)
Definition same_values {t} (ps : list (float t * float t)) : Prop := Forall (fun p => val (fst p) = val (snd p)) ps.
(** the number of pairs of different entries; NaN differs from everything *)
Definition differing {t} (ps : list (float t * float t)) : nat := length (filter (fun p => negb (feq (fst p) (snd p))) ps).
(** d is the part of the k pairs that differ, up to one rounding *)
Definition hamming_to {t} (ps : list (float t * float t)) (d : float F64) : Prop :=
  let q := INR (differing ps) / INR (length ps) in finite d /\ 0 <= val d <= 1 /\ Rabs (val d - q) <= unit_roundoff F64 * q /\ (val d = 0 <-> differing ps = 0%nat).
(** the 1 by 1 matrix with entry x, and the only entry of a table *)
Definition one_cell {T} (x : T) : tensor T := mkTensor [x] (mkLayout [1; 1]%nat [1; 1]%Z 0).
Definition is_cell {T} (r : res (tensor T)) (x : T) : Prop := exists q, r = Ok q /\ t_data q = [x].
