(** Vocabulary for statements about reductions of floating-point numbers: independent of the model. *)
From Coq Require Import ZArith Reals List.
From Flocq Require Import Core BinarySingleNaN.
From Verif Require Import Base Spec M_Layout M_Tensor M_Float Spec_Float.
Import ListNotations.
Local Open Scope R_scope.

(** The tensor t' has at every remaining index (or at its only one, if no axes are named) a value that is in relation [P] to the list
    of elements of t that go into it. *)
Definition tables_as {T O} (t : tensor T) (ax : option (list nat)) (P : list T -> O -> Prop) (t' : tensor O) : Prop :=
  match ax with
  | None => tensor_ok t' /\ t_shape t' = [] /\ forall xs, elements (t_data t) (t_layout t) (row_major (t_shape t)) xs -> exists y, at_ t' [] = Some y /\ P xs y
  | Some ax => tensor_ok t' /\ t_shape t' = pick (axes_except (ndim (t_layout t)) ax) 0%nat (t_shape t) /\
      forall mx xs, valid (t_shape t') mx -> elements (t_data t) (t_layout t) (group (t_shape t) ax mx) xs -> exists y, at_ t' mx = Some y /\ P xs y
  end.

(** sum of real numbers *)
Definition rsum (xs : list R) : R := fold_right Rplus 0 xs.
(** the exact sum of floats, and the exact sum of their magnitudes *)
Definition exact_sum {t} (xs : list (float t)) : R := rsum (map val xs).
Definition magnitude {t} (xs : list (float t)) : R := rsum (map (fun x => Rabs (val x)) xs).
(** (1 + u)^k, with u = 2^-24 or 2^-53: k roundings after one another change a number by at most this factor *)
Definition rounded (t : float_type) (k : nat) : R := (1 + unit_roundoff t) ^ k.
(** far enough from overflow *)
Definition no_overflow {t} (xs : list (float t)) : Prop := rounded t (length xs - 1) * magnitude xs < two (emax t).
(** s is the sum of n floats up to n - 1 roundings of the summands *)
Definition sums_to {t} (xs : list (float t)) (s : float t) : Prop :=
  finite s /\ Rabs (val s - exact_sum xs) <= (rounded t (length xs - 1) - 1) * magnitude xs.
(** x is a multiple of 2^k *)
Definition multiple_of (k : Z) (x : R) : Prop := exists m : Z, x = IZR m * two k.
(** m is the mean of n floats up to n roundings of the summands, and the smallest positive number *)
Definition averages_to {t} (xs : list (float t)) (m : float t) : Prop :=
  finite m /\ Rabs (val m - exact_sum xs / INR (length xs)) <= (rounded t (length xs) - 1) * (magnitude xs / INR (length xs)) + smallest t.
(** finite multiples of 2^k *)
Definition multiples {t} (k : Z) (xs : list (float t)) : Prop := Forall (fun x : float t => finite x /\ multiple_of k (val x)) xs.
(** m is the least (greatest) of those xs that are not NaN *)
Definition extremum_of {t} (greatest : bool) (xs : list (float t)) (m : float t) : Prop :=
  is_nan m = false /\ (exists x, In x xs /\ feq m x = true) /\ forall x, In x xs -> is_nan x = false -> (if greatest then fle x m else fle m x) = true.
(** a NaN, or the infinity on the far side: +inf for the least, -inf for the greatest number *)
Definition far {t} (greatest : bool) (x : float t) : Prop := is_nan x = true \/ x = B754_infinity greatest.
