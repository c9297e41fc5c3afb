(** What the Lebedev rules of lebedev.rs are for, in exact real arithmetic. *)
From Coq Require Import Reals.
From Verif Require Import Base Spec M_Layout M_Tensor M_Lebedev.
Local Open Scope R_scope.

(** the rules of the code, computed with real numbers instead of f64: [sqrt] is the real square root, the two constants are
    sqrt (1/2) and sqrt (1/3), and the decimal numbers of the tables stand for themselves *)
Definition decimal22 (n : Z) : R := IZR n / 10 ^ 22.
Definition exact_rule (n : Z) : res (tensor R * tensor R) :=
  lebedev_rule 0 1 Rplus Rmult Rminus Ropp sqrt (sqrt (1 / 2)) (sqrt (1 / 3)) decimal22 n.
Definition exact_rule_from_degree (m : Z) : res (tensor R * tensor R) :=
  lebedev_rule_from_degree 0 1 Rplus Rmult Rminus Ropp sqrt (sqrt (1 / 2)) (sqrt (1 / 3)) decimal22 m.

(** a grid: points (x, y, z) and their weights; [holds_grid q w g]: row i of the (m, 3) tensor [q] is the i-th point of [g] and
    entry i of the (m,) tensor [w] its weight *)
Definition node : Type := (R * R * R * R)%type.
Definition holds_grid (q w : tensor R) (g : list node) : Prop :=
  t_shape q = [length g; 3%nat] /\ t_shape w = [length g] /\
  forall i x y z v, nth_error g i = Some (x, y, z, v) ->
    at_ q [i; 0%nat] = Some x /\ at_ q [i; 1%nat] = Some y /\ at_ q [i; 2%nat] = Some z /\ at_ w [i] = Some v.
(** the rule of order [n] succeeds with the grid [g] *)
Definition gives (n : Z) (g : list node) : Prop := exists q w, exact_rule n = Ok (q, w) /\ holds_grid q w g.

(** the quadrature sum of [f] *)
Fixpoint quadrature (g : list node) (f : R -> R -> R -> R) : R :=
  match g with
  | [] => 0
  | (x, y, z, v) :: g => v * f x y z + quadrature g f
  end.

(** n!! *)
Fixpoint double_factorial (n : nat) : Z :=
  match n with
  | S (S m) => (Z.of_nat n * double_factorial m)%Z
  | _ => 1%Z
  end.
(** the mean of x^p y^q z^r over the unit sphere: (p-1)!! (q-1)!! (r-1)!! / (p+q+r+1)!! when all exponents are even, else 0 *)
Definition sphere_mean (p q r : nat) : R :=
  if Nat.even p && Nat.even q && Nat.even r
  then IZR (double_factorial (p - 1) * double_factorial (q - 1) * double_factorial (r - 1)) / IZR (double_factorial (p + q + r + 1))
  else 0.
(** a polynomial in three variables: terms (c, (p, q, r)) for c x^p y^q z^r *)
Definition polynomial : Type := list (R * (nat * nat * nat)).
Definition degree_at_most (n : nat) (f : polynomial) : Prop := forall c p q r, In (c, (p, q, r)) f -> (p + q + r <= n)%nat.
Fixpoint value (f : polynomial) (x y z : R) : R :=
  match f with
  | [] => 0
  | (c, (p, q, r)) :: f => c * (x ^ p * y ^ q * z ^ r) + value f x y z
  end.
Fixpoint polynomial_mean (f : polynomial) : R :=
  match f with
  | [] => 0
  | (c, (p, q, r)) :: f => c * sphere_mean p q r + polynomial_mean f
  end.
(** the mean of the polynomial whose terms have coefficient |c| *)
Fixpoint polynomial_size (f : polynomial) : R :=
  match f with
  | [] => 0
  | (c, (p, q, r)) :: f => Rabs c * sphere_mean p q r + polynomial_size f
  end.

(** the table in the documentation of lebedev_rule, lebedev.rs:41-75: order, number of points *)
Definition documented : list (Z * Z) :=
  [(3, 6); (5, 14); (7, 26); (9, 38); (11, 50); (13, 74); (15, 86); (17, 110); (19, 146); (21, 170); (23, 194); (25, 230); (27, 266); (29, 302); (31, 350); (35, 434);
   (41, 590); (47, 770); (53, 974); (59, 1202); (65, 1454); (71, 1730); (77, 2030); (83, 2354); (89, 2702); (95, 3074); (101, 3470); (107, 3890); (113, 4334);
   (119, 4802); (125, 5294); (131, 5802)]%Z.
