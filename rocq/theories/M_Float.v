(** Model of arange and linspace for the element types f32 and f64: rstsr-native-impl/src/cpu_serial/creation.rs:7-105,
    cpu_rayon/creation.rs:8-131, and their callers arange_impl and linspace_impl, device_cpu_serial/creation.rs:76-116 and
    feature_rayon/auto_impl/creation.rs:79-99.  Floating-point numbers are those of IEEE 754, as Flocq formalises them, with all the
    operations rounded to nearest, ties to even; the payload of a NaN is left out. *)
From Coq Require Import ZArith.
From Flocq Require Import Core BinarySingleNaN.
From Verif Require Import Base.
Local Open Scope Z_scope.

(** ** the two types, and the operations of Rust on them *)
Inductive float_type := F32 | F64.
Definition prec (t : float_type) : Z := match t with F32 => 24 | F64 => 53 end.
Definition emax (t : float_type) : Z := match t with F32 => 128 | F64 => 1024 end.
Definition prec_ok (t : float_type) : Prec_gt_0 (prec t) := match t with F32 => eq_refl | F64 => eq_refl end.
Definition emax_ok (t : float_type) : Prec_lt_emax (prec t) (emax t) := match t with F32 => eq_refl | F64 => eq_refl end.
Definition float (t : float_type) := binary_float (prec t) (emax t).
Section Ops.
  Context {t : float_type}.
  Definition fadd (x y : float t) : float t := @Bplus _ _ (prec_ok t) (emax_ok t) mode_NE x y.
  Definition fsub (x y : float t) : float t := @Bminus _ _ (prec_ok t) (emax_ok t) mode_NE x y.
  Definition fmul (x y : float t) : float t := @Bmult _ _ (prec_ok t) (emax_ok t) mode_NE x y.
  Definition fdiv (x y : float t) : float t := @Bdiv _ _ (prec_ok t) (emax_ok t) mode_NE x y.
  (** the methods ceil, and the operators <, <= and == *)
  Definition fceil (x : float t) : float t := @Bnearbyint _ _ (emax_ok t) mode_UP x.
  Definition flt (x y : float t) : bool := Bltb x y.
  Definition fle (x y : float t) : bool := Bleb x y.
  Definition feq (x y : float t) : bool := Beqb x y.
  (** integer as float *)
  Definition of_int (z : Z) : float t := @binary_normalize _ _ (prec_ok t) (emax_ok t) mode_NE z 0 false.
  Definition fzero : float t := B754_zero false.
End Ops.
(** float as float: to_f64 and from_f64 of the num crate *)
Definition convert (s t : float_type) (x : float s) : float t :=
  match x with
  | B754_zero b => B754_zero b
  | B754_infinity b => B754_infinity b
  | B754_nan => B754_nan
  | B754_finite b m e _ => @binary_normalize _ _ (prec_ok t) (emax_ok t) mode_NE (cond_Zopp b (Zpos m)) e b
  end.
(** to_usize of the num crate: the number without its fraction, if it is above -1 and below 2^64 *)
Definition to_usize (x : float F64) : option Z := if flt (of_int (-1)) x && flt x (of_int (2 ^ 64)) then Some (Btrunc x) else None.

(** ** arange *)
(** arange_by_partial_ord_cpu_serial, cpu_serial/creation.rs:7-19.  [None]: the loop is still running after [fuel] tests of its
    condition. *)
Fixpoint count_floats (fuel : nat) {t : float_type} (current stop step : float t) : option (list (float t)) :=
  match fuel with
  | O => None
  | S fuel' =>
    if flt current stop then
      match count_floats fuel' (fadd current step) stop step with Some r => Some (current :: r) | None => None end
    else Some []
  end.
(** arange_by_primitive_f64_cpu_serial, cpu_serial/creation.rs:48-66, and the parallel one, cpu_rayon/creation.rs:38-55, whose collect
    keeps the order of the indices; [None] sends the caller to the loop above.  That the memory for the elements suffices is taken
    for granted. *)
Definition arange_f64 {t : float_type} (start stop step : float t) : option (list (float t)) :=
  let start_ := convert t F64 start in let stop_ := convert t F64 stop in let step_ := convert t F64 step in
  match to_usize (fceil (fdiv (fsub stop_ start_) step_)) with
  | None => None
  | Some n =>
    let v := map (fun i => convert F64 t (fadd start_ (fmul (of_int (Z.of_nat i)) step_))) (seq 0 (Z.to_nat n)) in
    let beyond := match rev v with
                  | x :: _ => flt fzero step_ && fle stop x || flt step_ fzero && fle x stop
                  | [] => false
                  end in
    Some (if beyond then removelast v else v)
  end.
(** arange_impl, device_cpu_serial/creation.rs:76-80, and arange_cpu_serial, cpu_serial/creation.rs:73-105.  [None]: not ended yet
    after [fuel] steps of the loop. *)
Definition arange_float (fuel : nat) {t : float_type} (start stop step : float t) : option (res (list (float t))) :=
  if feq step fzero then Some (Err InvalidValue) else
  match arange_f64 start stop step with
  | Some v => Some (Ok v)
  | None => match count_floats fuel start stop step with Some v => Some (Ok v) | None => None end
  end.

(** ** linspace *)
(** the step of linspace_impl, device_cpu_serial/creation.rs:103-106, and of linspace_cpu_rayon, cpu_rayon/creation.rs:121-124 *)
Definition linspace_step {t : float_type} (start stop : float t) (n : nat) (endpoint : bool) : float t :=
  fdiv (fsub stop start) (of_int (if endpoint then Z.of_nat n - 1 else Z.of_nat n)).
(** the loop of linspace_impl, device_cpu_serial/creation.rs:107-111 *)
Fixpoint linspace_floats {t : float_type} (n : nat) (v step : float t) : list (float t) :=
  match n with O => [] | S n' => v :: linspace_floats n' (fadd v step) step end.
(** linspace_impl, device_cpu_serial/creation.rs:88-116, for real numbers (not the complex ones) *)
Definition linspace_serial {t : float_type} (start stop : float t) (n : nat) (endpoint : bool) : list (float t) :=
  match n with
  | O => []
  | S O => [start]
  | _ => linspace_floats n start (linspace_step start stop n endpoint)
  end.
(** linspace_cpu_rayon, cpu_rayon/creation.rs:108-131; the parallel collect keeps the order of the indices *)
Definition linspace_parallel {t : float_type} (start stop : float t) (n : nat) (endpoint : bool) : list (float t) :=
  match n with
  | O => []
  | S O => [start]
  | _ => let step := linspace_step start stop n endpoint in map (fun i => fadd start (fmul (of_int (Z.of_nat i)) step)) (seq 0 n)
  end.
