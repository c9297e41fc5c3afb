(** Property theorems about arange on integer types (C48).  Statements use Spec_Arange.v and the modelled entry point of M_Arange.v. *)
From Coq Require Import SpecFloat.
From Verif Require Import Base Spec_Arange M_Arange Q_Arange.
Local Open Scope Z_scope.

(** The model's doubles against the standard library's executable specification of binary64, on numbers that round. *)
Definition as_spec_float (x : f64) : spec_float := binary_normalize 53 1024 (f_m x) (f_e x) false.
Definition same_quotient (p q : Z) : bool :=
  SFeqb (SFdiv 53 1024 (binary_normalize 53 1024 p 0 false) (binary_normalize 53 1024 q 0 false)) (as_spec_float (f64_div (f64_of_Z p) (f64_of_Z q))).
Example C48_doubles : forallb (fun k => same_quotient (2 ^ 53 - 20 + Z.of_nat k) 3 && same_quotient (2 ^ 62 - 123456789 * Z.of_nat k) (- 1 - Z.of_nat (k * k)) &&
  same_quotient (Z.of_nat k - 17) (2 ^ 61 + 12345678987654321 * Z.of_nat k)) (seq 0 40) = true.
Proof. vm_compute. reflexivity. Qed.

(** C48: for i32 and u32, and every start, stop and step other than 0, arange is start, start + step, ... up to and without stop. *)
Theorem C48_arange_32 : forall t start stop step, t = i32_ \/ t = u32_ -> fits t start = true -> fits t stop = true -> fits t step = true -> step <> 0 ->
  exists r, arange_f t start stop step = Ok r /\ evenly_spaced start stop step r.
Proof. exact l_arange_32. Qed.
Example C48_example_32 : arange_f i32_ 0 10 3 = Ok [0; 3; 6; 9] /\ arange_f i32_ 10 0 (-4) = Ok [10; 6; 2] /\ arange_f u32_ 5 5 1 = Ok [] /\ arange_f i32_ 3 9 (-1) = Ok [] /\ fits i32_ (-4) = true.
Proof. repeat split; vm_compute; reflexivity. Qed.
Print Assumptions C48_arange_32.

(** C48: for the accelerated types the same holds when stop - start is at most 2^53 in absolute value.  Missing: wider ranges, see C48_float_refuted and C48_isize_overflow_refuted. *)
Theorem C48_arange_fast_partial : forall t start stop step, i_fast t = true -> fits t start = true -> fits t stop = true ->
  fits isize_ start = true -> fits isize_ stop = true -> fits isize_ step = true -> step <> 0 -> Z.abs (stop - start) <= 2 ^ 53 ->
  exists r, arange_f t start stop step = Ok r /\ evenly_spaced start stop step r.
Proof. exact l_arange_fast. Qed.
Example C48_example_fast : arange_f i64_ (- 2 ^ 63) (5 - 2 ^ 63) 2 = Ok [- 2 ^ 63; 2 - 2 ^ 63; 4 - 2 ^ 63] /\ arange_f usize_ 7 100 (2 ^ 62) = Ok [7] /\ arange_f i64_ (2 ^ 53) 0 (- 2 ^ 52) = Ok [2 ^ 53; 2 ^ 52].
Proof. repeat split; vm_compute; reflexivity. Qed.
Print Assumptions C48_arange_fast_partial.

(** C48: for every step other than 0 there is exactly one list that is evenly spaced in this sense. *)
Theorem C48_spaced_unique : forall start stop step, step <> 0 -> exists r, evenly_spaced start stop step r /\ forall r', evenly_spaced start stop step r' -> r' = r.
Proof. exact l_spaced_exists. Qed.
Print Assumptions C48_spaced_unique.

(** C48: a zero step is an error. *)
Theorem C48_arange_zero : forall t start stop, arange_f t start stop 0 = Err InvalidValue.
Proof. exact l_arange_zero. Qed.
Print Assumptions C48_arange_zero.

(** C48: the generic loop with a positive step gives that list, unless the first value past the end leaves the range of the type: then it overflows.  Missing: an answer in the latter case, and negative steps. *)
Theorem C48_arange_fallback_partial : forall t start stop step r, fallback t start stop step -> fits t start = true -> 0 < step -> evenly_spaced start stop step r ->
  arange_f t start stop step = if start + Z.of_nat (length r) * step <=? i_max t then Ok r else Panic.
Proof. exact l_arange_fallback. Qed.
Example C48_example_fallback : fallback i16_ (-3) 4 2 /\ arange_f i16_ (-3) 4 2 = Ok [-3; -1; 1; 3] /\ evenly_spaced (-3) 4 2 [-3; -1; 1; 3] /\ fallback u64_ (2 ^ 64 - 7) (2 ^ 64 - 2) 2 /\ arange_f u64_ (2 ^ 64 - 7) (2 ^ 64 - 2) 2 = Ok [2 ^ 64 - 7; 2 ^ 64 - 5; 2 ^ 64 - 3].
Proof. split; [left; reflexivity|]. split; [vm_compute; reflexivity|]. split. { split; [|unfold before; cbn [length]; lia]. intros i Hi. cbn [length] in Hi. unfold before. destruct i as [|[|[|[|i]]]]; cbn [nth]; lia. } split; [right; reflexivity|vm_compute; reflexivity]. Qed.
Print Assumptions C48_arange_fallback_partial.

(** C48: for every type and all arguments, whatever arange returns starts at start and goes on in steps of step; only the length may be wrong. *)
Theorem C48_arange_values : forall t start stop step r, arange_f t start stop step = Ok r -> forall i, (i < length r)%nat -> nth i r 0 = start + Z.of_nat i * step.
Proof. exact l_arange_values. Qed.
Print Assumptions C48_arange_values.

(** C48: the generic loop is wrong for every negative step and start <> stop. *)
Theorem C48_down_refuted : forall t start stop step, fallback t start stop step -> step < 0 -> start <> stop ->
  ~ exists r, arange_f t start stop step = Ok r /\ evenly_spaced start stop step r.
Proof. exact l_arange_down_refuted. Qed.
Example C48_example_down : fallback i16_ 5 0 (-1) /\ arange_f i16_ 5 0 (-1) = Ok [] /\ arange_f i16_ 0 5 (-1) = Panic /\ arange_f i64_ 5 0 (-1) = Ok [5; 4; 3; 2; 1].
Proof. split; [left; reflexivity|]. split; [vm_compute; reflexivity|]. split; [|vm_compute; reflexivity]. rewrite l_arange_fallback_down; [reflexivity|left; reflexivity|lia]. Qed.
Print Assumptions C48_down_refuted.

(** C48: i64 ranges wider than 2^53 can lose an element, because the length is computed in double precision: arange(0, 2^60 + 1, 2^60) is [0]. *)
Theorem C48_float_refuted : exists t start stop step r, fits t start = true /\ fits t stop = true /\ fits t step = true /\ step <> 0 /\ arange_f t start stop step = Ok r /\ ~ evenly_spaced start stop step r.
Proof. exact l_arange_float_refuted. Qed.
Print Assumptions C48_float_refuted.

(** C48: arange can overflow although all the elements fit: arange(0, 250, 100) of u8. *)
Theorem C48_overflow_refuted : exists t start stop step, fits t start = true /\ fits t stop = true /\ fits t step = true /\ step <> 0 /\ arange_f t start stop step = Panic.
Proof. exact l_arange_overflow_refuted. Qed.
Print Assumptions C48_overflow_refuted.

(** C48: stop - start can overflow although all the elements fit. *)
Theorem C48_isize_overflow_refuted : arange_f i64_ (- 2 ^ 63) (2 ^ 63 - 1) (2 ^ 62) = Panic /\ evenly_spaced (- 2 ^ 63) (2 ^ 63 - 1) (2 ^ 62) [- 2 ^ 63; - 2 ^ 62; 0; 2 ^ 62].
Proof. exact l_arange_isize_overflow_refuted. Qed.
Print Assumptions C48_isize_overflow_refuted.
