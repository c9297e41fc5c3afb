(** Vocabulary for statements about products of complex matrices: independent of the model. *)
From Coq Require Import ZArith Reals List.
From Flocq Require Import Core BinarySingleNaN.
From Verif Require Import Base Spec M_Float M_FloatComplex Spec_Float Spec_FloatReduce Spec_FloatMatmul Spec_FloatComplex.
Import ListNotations.
Local Open Scope R_scope.

(** real and imaginary part of the exact sum of the products x y *)
Definition re_product {t} (ps : list (complex t * complex t)) : R := exact_dot (parts fst fst ps) - exact_dot (parts snd snd ps).
Definition im_product {t} (ps : list (complex t * complex t)) : R := exact_dot (parts fst snd ps) + exact_dot (parts snd fst ps).
(** both parts far enough from overflow *)
Definition cproduct_no_overflow {t} (ps : list (complex t * complex t)) : Prop :=
  part_no_overflow t (length ps) (re_magnitude ps) /\ part_no_overflow t (length ps) (im_magnitude ps).
(** both parts of [v] are within n + 1 roundings of those of the exact sum of the n products *)
Definition cproducts_to {t} (ps : list (complex t * complex t)) (v : complex t) : Prop :=
  part_to (length ps) (re_product ps) (re_magnitude ps) (fst v) /\ part_to (length ps) (im_product ps) (im_magnitude ps) (snd v).
(** both parts are finite multiples of 2^k *)
Definition cmultiple {t} (k : Z) (x : complex t) : Prop := cfinite x /\ multiple_of k (val (fst x)) /\ multiple_of k (val (snd x)).
Definition cmultiple_pairs {t} (j k : Z) (ps : list (complex t * complex t)) : Prop := Forall (fun p => cmultiple j (fst p) /\ cmultiple k (snd p)) ps.
