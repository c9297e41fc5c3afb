(** The 16-bit floating-point formats, as IEEE 754 describes them: a sign bit, an exponent of [ew] bits and a mantissa of [mw] bits,
    ew + mw = 15.  Independent of the model. *)
From Coq Require Import ZArith.
Local Open Scope Z_scope.

Inductive half_type := F16 | BF16.
(** width of the mantissa *)
Definition mant_bits (t : half_type) : Z := match t with F16 => 10 | BF16 => 7 end.
(** the bit patterns *)
Definition pattern (b : Z) : Prop := 0 <= b < 2 ^ 16.
Definition negative (b : Z) : bool := 2 ^ 15 <=? b.
Definition exponent (t : half_type) (b : Z) : Z := b mod 2 ^ 15 / 2 ^ mant_bits t.
Definition mantissa (t : half_type) (b : Z) : Z := b mod 2 ^ mant_bits t.
(** the largest exponent is for infinities (mantissa 0) and NaNs *)
Definition top_exponent (t : half_type) : Z := 2 ^ (15 - mant_bits t) - 1.
Definition nan (t : half_type) (b : Z) : Prop := exponent t b = top_exponent t /\ mantissa t b <> 0.
(** The number that a pattern stands for, in units of the smallest positive number: the mantissa if the exponent is 0, and otherwise
    1.mantissa times a power of two.  (Infinities get the number that would follow the largest finite one: they are beyond all of them.) *)
Definition units (t : half_type) (b : Z) : Z :=
  let m := if exponent t b =? 0 then mantissa t b else (2 ^ mant_bits t + mantissa t b) * 2 ^ (exponent t b - 1) in
  if negative b then - m else m.
(** [r] is the number next to [x] in the direction of [y] *)
Definition next_towards (t : half_type) (x y r : Z) : Prop :=
  pattern r /\ ~ nan t r /\
  (units t x < units t y -> units t x < units t r <= units t y /\ forall z, pattern z -> ~ nan t z -> units t x < units t z -> units t r <= units t z) /\
  (units t y < units t x -> units t y <= units t r < units t x /\ forall z, pattern z -> ~ nan t z -> units t z < units t x -> units t z <= units t r) /\
  (units t x = units t y -> r = y).
(** repeating a step that may fail or give a NaN ([None]) *)
From Verif Require Import Base.
Fixpoint repeated (n : nat) (f : Z -> res (option Z)) (x : Z) : res (option Z) :=
  match n with O => Ok (Some x) | S n => match f x with Ok (Some r) => repeated n f r | r => r end end.
