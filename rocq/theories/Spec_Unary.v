(** Independent specification of the unary operators - and ! on integers *)
From Verif Require Import Base Spec.
Local Open Scope Z_scope.

(** the integer types of [w] bits *)
Inductive int_kind := Signed (w : Z) | Unsigned (w : Z).
Definition width (t : int_kind) : Z := match t with Signed w | Unsigned w => w end.
Definition is_int (t : int_kind) (x : Z) : Prop :=
  match t with
  | Signed w => - 2 ^ (w - 1) <= x < 2 ^ (w - 1)
  | Unsigned w => 0 <= x < 2 ^ w
  end.
(** the only signed number without a negative of its type *)
Definition lowest (w : Z) : Z := - 2 ^ (w - 1).
(** [y] is the negative of [x] in arithmetic modulo 2 ^ w *)
Definition negative_of (w x y : Z) : Prop := is_int (Signed w) y /\ (x + y) mod 2 ^ w = 0.
(** [y] has the opposite of every bit of [x] *)
Definition complement_of (t : int_kind) (x y : Z) : Prop := is_int t y /\ forall i, 0 <= i < width t -> Z.testbit y i = negb (Z.testbit x i).
