(** Vocabulary for statements about tensors of complex floating-point numbers: independent of the model. *)
From Coq Require Import ZArith Reals List.
From Flocq Require Import Core BinarySingleNaN.
From Verif Require Import Base Spec Spec_Tensordot Spec_Vecdot M_Layout M_Tensor P_Tensor M_Float M_FloatComplex Spec_Float Spec_FloatReduce Spec_FloatMatmul Spec_FloatProd.
Import ListNotations.
Local Open Scope R_scope.

(** the real and the imaginary parts of numbers; numbers with finite parts *)
Definition reals {t} (xs : list (complex t)) : list (float t) := map fst xs.
Definition imags {t} (xs : list (complex t)) : list (float t) := map snd xs.
Definition cfinite {t} (x : complex t) : Prop := finite (fst x) /\ finite (snd x).

(** each part of [z] is the sum of the parts of the numbers up to n - 1 roundings, if these are finite and far enough from overflow *)
Definition csums_to {t} (xs : list (complex t)) (z : complex t) : Prop :=
  (Forall finite (reals xs) -> no_overflow (reals xs) -> sums_to (reals xs) (fst z)) /\ (Forall finite (imags xs) -> no_overflow (imags xs) -> sums_to (imags xs) (snd z)).
(** m is a part of the mean of n complex numbers, up to n + 3 roundings of the summands and the smallest positive number *)
Definition part_averages_to {t} (xs : list (float t)) (m : float t) : Prop :=
  finite m /\ Rabs (val m - exact_sum xs / INR (length xs)) <= (rounded t (length xs + 3) - 1) * (magnitude xs / INR (length xs)) + smallest t.
(** far enough from overflow: n times the sum, not only the sum *)
Definition mean_no_overflow {t} (xs : list (float t)) : Prop := rounded t (length xs) * (INR (length xs) * magnitude xs) < two (emax t).

(** both parts of the mean [m] of a group of at least one and at most 2^prec numbers *)
Definition caverages_to {t} (xs : list (complex t)) (m : complex t) : Prop :=
  Forall cfinite xs -> no_overflow (reals xs) -> no_overflow (imags xs) -> xs <> [] -> (Z.of_nat (length xs) <= 2 ^ prec t)%Z ->
  (mean_no_overflow (reals xs) -> part_averages_to (reals xs) (fst m)) /\ (mean_no_overflow (imags xs) -> part_averages_to (imags xs) (snd m)).

(** the pairs of chosen parts of pairs of complex numbers *)
Definition parts {t} (f g : complex t -> float t) (ps : list (complex t * complex t)) : list (float t * float t) := map (fun p => (f (fst p), g (snd p))) ps.
(** real and imaginary part of the exact sum of the products conj(x) y, and the sums of the magnitudes of the real products in them *)
Definition re_dot {t} (ps : list (complex t * complex t)) : R := exact_dot (parts fst fst ps) + exact_dot (parts snd snd ps).
Definition im_dot {t} (ps : list (complex t * complex t)) : R := exact_dot (parts fst snd ps) - exact_dot (parts snd fst ps).
Definition re_magnitude {t} (ps : list (complex t * complex t)) : R := dot_magnitude (parts fst fst ps) + dot_magnitude (parts snd snd ps).
Definition im_magnitude {t} (ps : list (complex t * complex t)) : R := dot_magnitude (parts fst snd ps) + dot_magnitude (parts snd fst ps).
Definition cfinite_pairs {t} (ps : list (complex t * complex t)) : Prop := Forall (fun p => cfinite (fst p) /\ cfinite (snd p)) ps.
(** what the underflows of the 2n products may add *)
Definition cdot_underflow (t : float_type) (n : nat) : R := 2 * INR n * rounded t n * smallest t.
(** a part of a sum of n products that is [e] exactly, where the magnitudes add up to [m]: far enough from overflow; up to n + 1 roundings *)
Definition part_no_overflow (t : float_type) (n : nat) (m : R) : Prop := rounded t (n + 1) * m + cdot_underflow t n < two (emax t).
Definition part_to {t} (n : nat) (e m : R) (v : float t) : Prop :=
  finite v /\ Rabs (val v - e) <= (rounded t (n + 1) - 1) * m + cdot_underflow t n.
(** both parts of a dot product *)
Definition cdots_to {t} (ps : list (complex t * complex t)) (v : complex t) : Prop :=
  (part_no_overflow t (length ps) (re_magnitude ps) -> part_to (length ps) (re_dot ps) (re_magnitude ps) (fst v)) /\
  (part_no_overflow t (length ps) (im_magnitude ps) -> part_to (length ps) (im_dot ps) (im_magnitude ps) (snd v)).

(** the exact sum of the squared absolute values, and its root *)
Definition exact_abs2 {t} (xs : list (complex t)) : R := exact_dot (squares (reals xs)) + exact_dot (squares (imags xs)).
(** s is the norm of n complex numbers up to n + 2 roundings and underflows *)
Definition cnorms_to {t} (xs : list (complex t)) (s : float t) : Prop :=
  let e := sqrt (exact_abs2 xs) in
  finite s /\ Rabs (val s - e) <= (rounded t (length xs + 2) - 1) * e + rounded t 1 * sqrt (cdot_underflow t (length xs)) + smallest t.

(** the pairs of elements of a and b that are multiplied for the entry [mx] of the result of a dot product: along the axes [pa] of a and
    [pb] of b, at the position that mx gives on the axes left *)
Definition multiplied {A B} (o : order) (a : tensor A) (b : tensor B) (pa pb mx : list nat) (ps : list (A * B)) : Prop :=
  exists xs ys, elements (t_data a) (t_layout a) (fibre (t_shape a) pa (source_index o (rest_of (t_shape a) pa) mx)) xs /\
    elements (t_data b) (t_layout b) (fibre (t_shape b) pb (source_index o (rest_of (t_shape b) pb) mx)) ys /\ ps = combine xs ys.
