(** Model of linspace for the element types Complex<f32> and Complex<f64>: linspace_impl, device_cpu_serial/creation.rs:84-113, and
    linspace_cpu_rayon, rstsr-native-impl/src/cpu_rayon/creation.rs:108-129.  The arithmetic is that of num-complex (M_FloatComplex.v);
    T::from(n) is the complex number n + 0i.  Not modelled: the failure of T::from, which does not occur for these types. *)
From Coq Require Import ZArith List.
From Verif Require Import Base M_Float M_FloatComplex.
Import ListNotations.

Section Linspace.
  Context {t : float_type}.
  (** Sub for Complex of num-complex: part by part *)
  Definition csub (x y : complex t) : complex t := (fsub (fst x) (fst y), fsub (snd x) (snd y)).
  (** T::from(n) *)
  Definition cof_nat (n : nat) : complex t := (of_int (Z.of_nat n), fzero).
  (** the step, device_cpu_serial/creation.rs:103-106 and cpu_rayon/creation.rs:121-124 *)
  Definition clinspace_step (start stop : complex t) (n : nat) (endpoint : bool) : complex t :=
    cdiv (csub stop start) (cof_nat (if endpoint then n - 1 else n)).
  (** the loop, device_cpu_serial/creation.rs:107-111 *)
  Fixpoint clinspace_values (n : nat) (v step : complex t) : list (complex t) :=
    match n with O => [] | S n' => v :: clinspace_values n' (cadd v step) step end.
  (** linspace_impl, device_cpu_serial/creation.rs:88-113 *)
  Definition clinspace_serial (start stop : complex t) (n : nat) (endpoint : bool) : list (complex t) :=
    match n with
    | O => []
    | 1%nat => [start]
    | _ => clinspace_values n start (clinspace_step start stop n endpoint)
    end.
  (** linspace_cpu_rayon, cpu_rayon/creation.rs:108-129; the parallel collect keeps the order of the indices *)
  Definition clinspace_parallel (start stop : complex t) (n : nat) (endpoint : bool) : list (complex t) :=
    match n with
    | O => []
    | 1%nat => [start]
    | _ => let step := clinspace_step start stop n endpoint in map (fun i => cadd start (cmul (cof_nat i) step)) (seq 0 n)
    end.
End Linspace.
