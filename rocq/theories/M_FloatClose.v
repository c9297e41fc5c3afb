(** Model of isclose, rstsr-dtype-traits/src/isclose.rs:92-106, for operands of the types f32 and f64 (mixed or not) and of the unsigned
    integer types, with tolerances of type f64 (the type of the default tolerances), and of allclose on tensors of floats. *)
From Coq Require Import ZArith.
From Flocq Require Import Core BinarySingleNaN.
From Verif Require Import Base Spec M_Layout M_Tensor M_Reduce M_Binary M_Float.

(** the type promote_pair gives: promotion.rs:311, 320, and the type itself for two of the same *)
Definition promoted (s t : float_type) : float_type := match s, t with F32, F32 => F32 | F64, _ => F64 | _, F64 => F64 end.
(** ext_abs, ext_num.rs:156-158 *)
Definition fabs {t} (x : float t) : float t := Babs x.
(** ext_abs_diff, ext_num.rs:160-162 *)
Definition fabs_diff {t} (x y : float t) : float t := fabs (fsub x y).
(** [diff <= atol + rtol * abs_b], isclose.rs:103 *)
Definition fwithin (rtol atol diff abs_b : float F64) : bool := fle diff (fadd atol (fmul rtol abs_b)).
(** isclose, isclose.rs:92-106; convert is promote_pair and into_cast *)
Definition fisclose {s t : float_type} (rtol atol : float F64) (equal_nan : bool) (a : float s) (b : float t) : bool :=
  let p := promoted s t in
  let a := convert s p a in
  let b := convert t p b in
  let diff := convert p F64 (fabs_diff a b) in
  let abs_b := convert p F64 (fabs b) in
  let comp := fwithin rtol atol diff abs_b in
  let nan_check := equal_nan && is_nan a && is_nan b in
  comp || nan_check.
(** the same for unsigned integers: ext_abs is the number and ext_abs_diff is abs_diff, ext_num.rs:72-78; into_cast is [as f64], and no
    integer is NaN *)
Definition uisclose (rtol atol : float F64) (a b : Z) : bool :=
  let diff := (if b <? a then a - b else b - a)%Z in
  fwithin rtol atol (of_int diff) (of_int b).
(** allclose, M_Binary.v, on the serial and on the parallel device *)
Definition fallclose {s t : float_type} (o : order) (rtol atol : float F64) (equal_nan : bool) (a : tensor (float s)) (b : tensor (float t)) : res bool :=
  allclose o (fisclose rtol atol equal_nan) a b.
Definition fallclose_rayon {s t : float_type} (chunk : nat) (tr : split_tree) (ti : Z * Z -> split_tree) (o : order) (rtol atol : float F64) (equal_nan : bool) (a : tensor (float s)) (b : tensor (float t)) : res bool :=
  allclose_rayon chunk tr ti o (fisclose rtol atol equal_nan) a b.
