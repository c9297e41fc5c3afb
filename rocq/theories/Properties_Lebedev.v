(** Property theorems about Lebedev quadrature (C93-C95).  Statements use Spec_Lebedev.v and the order tables of M_Lebedev.v only.  They are about real numbers: the axioms listed by Print Assumptions are those of the standard library's Reals. *)
From Coq Require Import Reals Lra.
From Verif Require Import Base Spec M_Layout M_Tensor M_Lebedev Spec_Lebedev Q_Lebedev.
Local Open Scope Z_scope.

(** C93: order to number of points and number of points to order are inverse to each other, as partial functions. *)
Theorem C93_orders : forall n m, order_to_degree n = Ok m <-> degree_to_order m = Ok n.
Proof. exact l_leb_orders. Qed.
Example C93_orders_example : order_to_degree 41 = Ok 590 /\ degree_to_order 590 = Ok 41 /\ order_to_degree 33 = Err InvalidValue. Proof. repeat split; reflexivity. Qed.
Print Assumptions C93_orders.

(** C93: the rule exists for exactly the documented orders: an (m, 3) tensor and an (m,) tensor, in which every element was written; any other order is InvalidValue, never a panic. *)
Theorem C93_succeeds : forall n, if existsb (fun e => fst e =? n) documented then exists g, gives n g else exact_rule n = Err InvalidValue.
Proof. exact l_leb_succeeds. Qed.
Example C93_succeeds_example : (exists g, gives 41 g) /\ exact_rule 33 = Err InvalidValue.
Proof. split; [exact (C93_succeeds 41)|exact (C93_succeeds 33)]. Qed.
Print Assumptions C93_succeeds.

(** C93: the number of points is the documented one.  Missing: order 131, refuted below. *)
Theorem C93_points_partial : forall n m g, In (n, m) documented -> n <> 131 -> gives n g -> Z.of_nat (length g) = m.
Proof. exact l_leb_points_partial. Qed.
Example C93_points_example : In (41, 590) documented /\ exists g, gives 41 g. Proof. split; [repeat first [left; reflexivity|right]|exact (C93_succeeds 41)]. Qed.
Print Assumptions C93_points_partial.

(** C93: the documentation gives the rule of order 131 5802 points; it has 5810, and asking for 5802 points is InvalidValue. *)
Theorem C93_points_refuted : In (131, 5802) documented /\ (exists g, gives 131 g /\ Z.of_nat (length g) = 5810) /\ exact_rule_from_degree 5802 = Err InvalidValue.
Proof. exact l_leb_points_refuted. Qed.
Print Assumptions C93_points_refuted.

(** C93: asking for a number of points gives the rule with that number of points, and InvalidValue if no rule has it. *)
Theorem C93_from_degree : forall m, (forall n g, gives n g -> Z.of_nat (length g) = m -> exact_rule_from_degree m = exact_rule n) /\ ((forall n g, gives n g -> Z.of_nat (length g) <> m) -> exact_rule_from_degree m = Err InvalidValue).
Proof. exact l_leb_from_degree. Qed.
Example C93_from_degree_example : exists g, gives 131 g /\ Z.of_nat (length g) = 5810. Proof. exact (proj1 (proj2 C93_points_refuted)). Qed.
Print Assumptions C93_from_degree.

(** C94: every point of every rule lies on the unit sphere. *)
Theorem C94_sphere : forall n g x y z v, gives n g -> In (x, y, z, v) g -> (x * x + y * y + z * z = 1)%R.
Proof. exact l_leb_sphere. Qed.
Example C94_example : exists g, gives 131 g /\ g <> []. Proof. destruct (proj1 (proj2 C93_points_refuted)) as (g & G & L). exists g. split; auto. intros ->. discriminate. Qed.
Print Assumptions C94_sphere.

(** C94: every rule is invariant under the octahedral group: negating a coordinate or exchanging two neighbouring coordinates of a point gives a point of the rule with the same weight.  (These maps generate the group.) *)
Theorem C94_symmetric : forall n g x y z v, gives n g -> In (x, y, z, v) g -> (In (- x, y, z, v)%R g /\ In (y, x, z, v) g /\ In (x, z, y, v) g).
Proof. exact l_leb_symmetric. Qed.
Print Assumptions C94_symmetric.

(** C94: all weights are positive.  Missing: the rules of order 13, 25 and 27, refuted below. *)
Theorem C94_positive_partial : forall n g x y z v, gives n g -> ~ In n [13; 25; 27] -> In (x, y, z, v) g -> (0 < v)%R.
Proof. exact l_leb_positive_partial. Qed.
Example C94_positive_example : ~ In 41 [13; 25; 27] /\ exists g, gives 41 g. Proof. split; [intros [H|[H|[H|[]]]]; discriminate|exact (C93_succeeds 41)]. Qed.
Print Assumptions C94_positive_partial.

(** C94: the rules of order 13, 25 and 27 have negative weights. *)
Theorem C94_positive_refuted : forall n, In n [13; 25; 27] -> exists g x y z v, gives n g /\ In (x, y, z, v) g /\ (v < 0)%R.
Proof. exact l_leb_positive_refuted. Qed.
Print Assumptions C94_positive_refuted.

(** C95: every rule integrates a monomial with an odd exponent to exactly 0, which is its mean over the sphere. *)
Theorem C95_odd : forall n g p q r, gives n g -> Nat.even p && Nat.even q && Nat.even r = false -> quadrature g (fun x y z => x ^ p * y ^ q * z ^ r)%R = 0%R.
Proof. exact l_leb_odd. Qed.
Example C95_odd_example : Nat.even 2 && Nat.even 5 && Nat.even 4 = false. Proof. reflexivity. Qed.
Print Assumptions C95_odd.

(** C95: every rule integrates the monomials of degree at most 3 (so also the constant 1) with a relative error of at most 10^-14, caused by the rounding of the table. *)
Theorem C95_low : forall n g p q r, gives n g -> (p + q + r <= 3)%nat -> (Rabs (quadrature g (fun x y z => x ^ p * y ^ q * z ^ r) - sphere_mean p q r) <= sphere_mean p q r / 10 ^ 14)%R.
Proof. exact l_leb_low. Qed.
Example C95_low_example : sphere_mean 0 0 0 = 1%R /\ sphere_mean 2 0 0 = (1 / 3)%R /\ exists g, gives 131 g. Proof. split; [|split]; [unfold sphere_mean; cbn; lra|unfold sphere_mean; cbn; lra|exact (C93_succeeds 131)]. Qed.
Print Assumptions C95_low.

(** C95: the rule of order n integrates every monomial of degree at most n with a relative error of at most 10^-14.  Missing: the rules of order above 47. *)
Theorem C95_accuracy_partial : forall n g p q r, gives n g -> n <= 47 -> Z.of_nat (p + q + r) <= n -> (Rabs (quadrature g (fun x y z => x ^ p * y ^ q * z ^ r) - sphere_mean p q r) <= sphere_mean p q r / 10 ^ 14)%R.
Proof. exact l_leb_accuracy_partial. Qed.
Example C95_accuracy_example : sphere_mean 4 2 0 = (1 / 35)%R /\ sphere_mean 30 10 6 = (IZR (double_factorial 29 * double_factorial 9 * double_factorial 5) / IZR (double_factorial 47))%R /\ exists g, gives 47 g. Proof. split; [|split]; [unfold sphere_mean; cbn; lra|reflexivity|exact (C93_succeeds 47)]. Qed.
Print Assumptions C95_accuracy_partial.

(** C95: the rule of order n integrates every polynomial of degree at most n with an error of at most 10^-14 times the mean of the polynomial with the absolute values of its coefficients.  Missing: the rules of order above 47. *)
Theorem C95_polynomial_partial : forall n g f, gives n g -> n <= 47 -> degree_at_most (Z.to_nat n) f -> (Rabs (quadrature g (value f) - polynomial_mean f) <= polynomial_size f / 10 ^ 14)%R.
Proof. exact l_leb_polynomial_partial. Qed.
Example C95_polynomial_example : degree_at_most (Z.to_nat 47) [(3%R, (30, 10, 6)); ((-2)%R, (1, 0, 46))]%nat. Proof. intros c p q r [H|[H|[]]]; injection H as <- <- <- <-; apply Nat.leb_le; reflexivity. Qed.
Print Assumptions C95_polynomial_partial.
