(** Model of nextafter for the 16-bit floating-point types: nextafter_f16 and nextafter_bf16, rstsr-dtype-traits/src/ext_float.rs:46-125,
    on bit patterns.  What force_eval computes only sets the floating-point status flags and is left out. *)
From Coq Require Import ZArith.
From Verif Require Import Base Spec_NextAfter.
Local Open Scope Z_scope.

(** the masks of the exponent, ext_float.rs:74, 113 *)
Definition exponent_mask (t : half_type) : Z := match t with F16 => 31744 | BF16 => 32640 end.
(** is_nan of the crate half: the magnitude is above that of infinity *)
Definition is_nan_bits (t : half_type) (u : Z) : bool := exponent_mask t <? Z.land u 32767.
(** u16 arithmetic: [+= 1] and [-= 1] panic on overflow (in builds with overflow checks) *)
Definition u16 (z : Z) : res Z := if (0 <=? z) && (z <? 65536) then Ok z else Panic.
(** ext_float.rs:48-84 (f16) and 87-123 (bf16).  [None]: x + y, which is a NaN. *)
Definition nextafter (t : half_type) (x y : Z) : res (option Z) :=
  if is_nan_bits t x || is_nan_bits t y then Ok None else
  if x =? y then Ok (Some y) else
  let ax := Z.land x 32767 in
  let ay := Z.land y 32767 in
  if (ax =? 0) && (ay =? 0) then Ok (Some y) else
  let* u :=
    (if ax =? 0 then Ok (Z.lor (Z.land y 32768) 1)
     else if (ay <? ax) || negb (Z.land (Z.lxor x y) 32768 =? 0) then u16 (x - 1)
     else u16 (x + 1)) in
  Ok (Some u).
