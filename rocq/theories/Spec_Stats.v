(** Independent specification of statistics over a whole tensor or over some of its axes *)
From Coq Require Import Ring_theory.
From Verif Require Import Base Spec M_Layout M_Tensor.

(** The axes a caller names: none (that is, all), or distinct axes, negative ones counted from the end. *)
Definition names (n : nat) (axes : axes_index) (ax : option (list nat)) : Prop :=
  match axes, ax with
  | AxNone, None => True
  | AxVal a, Some ax => Forall2 (axis_denotes n) [a] ax
  | AxVec v, Some ax => Forall2 (axis_denotes n) v ax /\ NoDup ax
  | _, _ => False
  end.
(** [t'] tables the statistic [g]: of all elements, or at every index of the remaining axes of the elements with that index. *)
Definition tables {T O} (t : tensor T) (ax : option (list nat)) (g : list T -> O) (t' : tensor O) : Prop :=
  match ax with
  | None => tensor_ok t' /\ t_shape t' = [] /\ forall xs, elements (t_data t) (t_layout t) (row_major (t_shape t)) xs -> at_ t' [] = Some (g xs)
  | Some ax => tensor_ok t' /\ t_shape t' = pick (axes_except (ndim (t_layout t)) ax) 0 (t_shape t) /\
      forall mx xs, valid (t_shape t') mx -> elements (t_data t) (t_layout t) (group (t_shape t) ax mx) xs -> at_ t' mx = Some (g xs)
  end.
(** Where statistics over axes are right: something to sum, no axis repeated by broadcasting.  Over everything they always are. *)
Definition reducible {T} (t : tensor T) (ax : option (list nat)) : Prop := ax = None \/ size (t_shape t) <> 0 /\ no_broadcast (t_layout t).

(** [m] is the least of [xs], where [mn a b] is the lesser of two values. *)
Definition extremal {T} (mn : T -> T -> T) (xs : list T) (m : T) : Prop := In m xs /\ forall x, In x xs -> mn m x = m.

Section Spread.
  Context {T R : Type} (zero : T) (add mul : T -> T -> T) (conj : T -> T) (re : T -> R) (div : T -> nat -> T).
  Context (rzero : R) (radd rsub : R -> R -> R) (rdiv : R -> nat -> R).
  (** square of the absolute value, mean, sum of squares, and mean of squares minus square of the mean *)
  Definition square (x : T) : R := re (mul x (conj x)).
  Definition mean_of (xs : list T) : T := div (total zero add xs) (length xs).
  Definition squares (xs : list T) : R := total rzero radd (map square xs).
  Definition variance (xs : list T) : R := rsub (rdiv (squares xs) (length xs)) (square (mean_of xs)).
End Spread.
(** Numbers with exact arithmetic: [T] and [R] are commutative rings, [n] times [x / n] is [x]; conj and re are additive, |x|^2 comes from a symmetric
    form, and re keeps multiples.  (Real types: conj and re are the identity.) *)
Definition multiple {T} (zero : T) (add : T -> T -> T) (n : nat) (x : T) : T := total zero add (repeat x n).
Record exact {T R} (zero : T) (add mul sub : T -> T -> T) (opp : T -> T) (conj : T -> T) (re : T -> R) (div : T -> nat -> T)
  (rzero rone : R) (radd rmul rsub : R -> R -> R) (ropp : R -> R) (rdiv : R -> nat -> R) : Prop := {
  ex_monoid : comm_monoid zero add;
  ex_sub : forall x y, sub x y = add x (opp y);
  ex_opp : forall x, add x (opp x) = zero;
  ex_left : forall x y z, mul (add x y) z = add (mul x z) (mul y z);
  ex_right : forall x y z, mul x (add y z) = add (mul x y) (mul x z);
  ex_conj : forall x y, conj (add x y) = add (conj x) (conj y);
  ex_re : forall x y, re (add x y) = radd (re x) (re y);
  ex_sym : forall x y, re (mul x (conj y)) = re (mul y (conj x));
  ex_ring : ring_theory rzero rone radd rmul rsub ropp eq;
  ex_div : forall x n, n <> 0 -> multiple zero add n (div x n) = x;
  ex_rdiv : forall x n, n <> 0 -> multiple rzero radd n (rdiv x n) = x
}.
