(** Model of arange for integer types: rstsr-native-impl/src/cpu_serial/creation.rs:7-105 and cpu_rayon/creation.rs:8-103 (a parallel
    map that keeps the order, hence the same function), called by arange_impl, device_cpu_serial/creation.rs:76-80 and
    feature_rayon/auto_impl/creation.rs:79-84.  The floating-point element types are not modelled.  Unlike in the rest of the
    model, the ranges of the machine integers matter here: an operation that leaves the range is [Panic], as in a debug build. *)
From Verif Require Import Base.
Local Open Scope Z_scope.

(** ** double precision numbers.  A positive finite double is m * 2^e; only what the quotient of two isize values needs is modelled
    (no overflow or underflow can happen there). *)
Record f64 := mkF64 { f_m : Z; f_e : Z }.
(** nearest integer to the quotient n / d of positive integers, ties to even *)
Definition round_even (n d : Z) : Z :=
  let q := n / d in let r := n mod d in
  if 2 * r <? d then q else if d <? 2 * r then q + 1 else if Z.even q then q else q + 1.
(** nearest double to p / q, for 0 <= p and 0 < q: 53 binary digits *)
Definition round53 (p q : Z) : f64 :=
  if p =? 0 then mkF64 0 0 else
  let e0 := Z.log2 p - Z.log2 q - 52 in
  let scaled (e : Z) := if 0 <=? e then (p, q * 2 ^ e) else (p * 2 ^ (- e), q) in
  let small := let '(n, d) := scaled e0 in n <? d * 2 ^ 52 in
  let e := if small then e0 - 1 else e0 in
  let '(n, d) := scaled e in mkF64 (round_even n d) e.
(** with a sign *)
Definition f64_ratio (p q : Z) : f64 :=
  let f := round53 (Z.abs p) (Z.abs q) in
  if (p <? 0) && (0 <? q) || (0 <? p) && (q <? 0) then mkF64 (- f_m f) (f_e f) else f.
(** [as f64] of an integer *)
Definition f64_of_Z (z : Z) : f64 := f64_ratio z 1.
(** division *)
Definition f64_div (x y : f64) : f64 :=
  let e := f_e x - f_e y in
  if 0 <=? e then f64_ratio (f_m x * 2 ^ e) (f_m y) else f64_ratio (f_m x) (f_m y * 2 ^ (- e)).
(** ceil, as an integer *)
Definition f64_ceil (x : f64) : Z := if 0 <=? f_e x then f_m x * 2 ^ f_e x else - ((- f_m x) / 2 ^ (- f_e x)).

(** ** integer types *)
Record int_type := mkInt { i_min : Z; i_max : Z; i_fast : bool }.
Definition isize_ := mkInt (- 2 ^ 63) (2 ^ 63 - 1) true.
Definition i64_ := isize_.
Definition usize_ := mkInt 0 (2 ^ 64 - 1) true.
Definition u64_ := usize_.
Definition i32_ := mkInt (- 2 ^ 31) (2 ^ 31 - 1) true.
Definition u32_ := mkInt 0 (2 ^ 32 - 1) true.
Definition i16_ := mkInt (- 2 ^ 15) (2 ^ 15 - 1) false.
Definition u16_ := mkInt 0 (2 ^ 16 - 1) false.
Definition i8_ := mkInt (- 2 ^ 7) (2 ^ 7 - 1) false.
Definition u8_ := mkInt 0 (2 ^ 8 - 1) false.
Definition i128_ := mkInt (- 2 ^ 127) (2 ^ 127 - 1) false.
Definition u128_ := mkInt 0 (2 ^ 128 - 1) false.
Definition fits (t : int_type) (z : Z) : bool := (i_min t <=? z) && (z <=? i_max t).
(** checked arithmetic, and unwrap of from_isize *)
Definition in_type (t : int_type) (z : Z) : res Z := if fits t z then Ok z else Panic.

(** arange_by_partial_ord_cpu_serial, cpu_serial/creation.rs:7-19.  [fuel] is the number of steps
    after which the loop has ended or the addition has overflowed. *)
Fixpoint count_up (fuel : nat) (t : int_type) (current stop step : Z) : res (list Z) :=
  match fuel with
  | O => Panic
  | S fuel' =>
    if current <? stop then
      let* next := in_type t (current + step) in
      let* r := count_up fuel' t next stop step in
      Ok (current :: r)
    else Ok []
  end.
Definition arange_partial_ord (t : int_type) (start stop step : Z) : res (list Z) :=
  count_up (S (S (Z.to_nat ((if 0 <? step then stop - start else start - i_min t) / Z.abs step)))) t start stop step.
(** arange_by_primitive_isize_cpu_serial, cpu_serial/creation.rs:21-46; [None] sends the caller to the fallback.  to_isize of a
    double outside the range of isize is None. *)
Definition arange_isize (t : int_type) (start stop step : Z) : res (option (list Z)) :=
  if negb (fits isize_ start && fits isize_ stop && fits isize_ step) then Ok None else
  let* d := in_type isize_ (stop - start) in
  let n := f64_ceil (f64_div (f64_of_Z d) (f64_of_Z step)) in
  if negb (fits isize_ n) then Ok None else
  let* r := map_res (fun i => let* p := in_type isize_ (Z.of_nat i * step) in
                              let* v := in_type isize_ (start + p) in in_type t v) (seq 0 (Z.to_nat n)) in
  let last := match rev r with x :: _ => Some x | [] => None end in
  let past := match last with Some x => (0 <? step) && (stop <=? x) || (step <? 0) && (x <=? stop) | None => false end in
  Ok (Some (if past then removelast r else r)).
(** arange_impl, and arange_cpu_serial, cpu_serial/creation.rs:73-105: the types that are accelerated are those with [i_fast] *)
Definition arange_f (t : int_type) (start stop step : Z) : res (list Z) :=
  let* _ := check (negb (step =? 0)) InvalidValue in
  if i_fast t then
    let* r := arange_isize t start stop step in
    match r with Some v => Ok v | None => arange_partial_ord t start stop step end
  else arange_partial_ord t start stop step.
(** the arguments arange_cpu_serial leaves to the generic loop: element types that are not in its list, and values
    to_isize rejects, cpu_serial/creation.rs:30, 101-104 *)
Definition fallback (t : int_type) (start stop step : Z) : Prop := i_fast t = false \/ fits isize_ start && fits isize_ stop && fits isize_ step = false.
