(** Property theorems about linspace of complex floating-point numbers (C104).  Statements use Spec_Float.v, Spec_FloatComplex.v,
    Spec_FloatComplexLin.v and the modelled entry points of M_Float.v and M_FloatComplexLin.v only. *)
From Coq Require Import ZArith Reals List Lra Lia.
From Flocq Require Import Core BinarySingleNaN.
From Verif Require Import Base M_Float Spec_Float P_FloatOps M_FloatComplex Spec_FloatComplex M_FloatComplexLin Spec_FloatComplexLin P_FloatComplexLin Properties_Float Properties_FloatComplex.
Import ListNotations.
Local Open Scope R_scope.

(** C104: linspace(start, stop, n) for Complex<f32> and Complex<f64> on the serial device: n numbers with finite parts; each part of number i is within i times a few units in the last place of the larger end of that part of its place.  A part that is zero at both ends stays zero up to the smallest number; n times a part that is not must be far from overflow, because the division by n + 0i multiplies by n first. *)
Theorem C104_complex_serial : forall (t : float_type) (start stop : complex t) (n : nat) (endpoint : bool), finite (fst start) -> finite (snd start) -> finite (fst stop) -> finite (snd stop) ->
  (2 <= n)%nat -> (Z.of_nat n <= 2 ^ prec t)%Z -> let ar := val (fst start) in let ai := val (snd start) in let br := val (fst stop) in let bi := val (snd stop) in part_sensible t ar br n -> part_sensible t ai bi n ->
  let v := clinspace_serial start stop n endpoint in let m := (if endpoint then n - 1 else n)%nat in
  (Forall finite (reals v) /\ evenly_spaced ar br m n (fun i => INR i * part_drift t ar br) (map val (reals v))) /\
  (Forall finite (imags v) /\ evenly_spaced ai bi m n (fun i => INR i * part_drift t ai bi) (map val (imags v))).
Proof. exact l_clinspace_serial. Qed.
(** linspace(0, 10, 6) and linspace(0, 10 + 10i, 6) *)
Definition cl_same (v : list (complex F64)) (w : list (complex F64)) : bool := (length v =? length w)%nat && forallb (fun p => cx_is (fst p) (snd p)) (combine v w).
Example C104_complex_example : (Z.of_nat 6 <= 2 ^ prec F64)%Z /\ part_sensible F64 0 0 6 /\ part_sensible F64 0 10 6 /\
  cl_same (clinspace_serial (cz 0 0) (cz 10 0) 6 true) [cz 0 0; cz 2 0; cz 4 0; cz 6 0; cz 8 0; cz 10 0] = true /\
  cl_same (clinspace_serial (cz 0 0) (cz 10 10) 5 false) [cz 0 0; cz 2 2; cz 4 4; cz 6 6; cz 8 8] = true /\
  cl_same (clinspace_parallel (cz 0 0) (cz 10 (-10)) 6 true) [cz 0 0; cz 2 (-2); cz 4 (-4); cz 6 (-6); cz 8 (-8); cz 10 (-10)] = true.
Proof. split; [cbn; lia|]. split; [left; lra|]. split; [|repeat split; vm_compute; reflexivity]. right. destruct fx_small as (S1 & S2 & S3). unfold part_drift. rewrite fx_larger. split; [|cbn [INR]; lra].
  apply Rle_trans with (two 10); [change (two 10) with 1024; cbn [INR]; lra|apply bpow_le; cbn; discriminate]. Qed.
Print Assumptions C104_complex_serial.

(** C104: the same on the parallel device, where the error does not grow with i except for the smallest number; the first number is start. *)
Theorem C104_complex_parallel : forall (t : float_type) (start stop : complex t) (n : nat) (endpoint : bool), finite (fst start) -> finite (snd start) -> finite (fst stop) -> finite (snd stop) ->
  (2 <= n)%nat -> (Z.of_nat n <= 2 ^ prec t)%Z -> let ar := val (fst start) in let ai := val (snd start) in let br := val (fst stop) in let bi := val (snd stop) in part_sensible t ar br n -> part_sensible t ai bi n ->
  let v := clinspace_parallel start stop n endpoint in let m := (if endpoint then n - 1 else n)%nat in
  (Forall finite (reals v) /\ evenly_spaced ar br m n (part_tol t ar br) (map val (reals v))) /\
  (Forall finite (imags v) /\ evenly_spaced ai bi m n (part_tol t ai bi) (map val (imags v))).
Proof. exact l_clinspace_parallel. Qed.
Print Assumptions C104_complex_parallel.

(** C104: no number for n = 0, and start alone for n = 1. *)
Theorem C104_complex_short : forall (t : float_type) (start stop : complex t) (endpoint : bool), clinspace_serial start stop 0 endpoint = [] /\ clinspace_parallel start stop 0 endpoint = [] /\ clinspace_serial start stop 1 endpoint = [start] /\ clinspace_parallel start stop 1 endpoint = [start].
Proof. exact l_clinspace_short. Qed.
Print Assumptions C104_complex_short.

(** C104, refuted: for real ends the complex linspace has the values of the real one.  linspace(0, 1/5, 4) does not. *)
Theorem C104_complex_real_refuted : ~ (forall (t : float_type) (start stop : float t) n endpoint, finite start -> finite stop ->
  map val (reals (clinspace_serial (start, fzero) (stop, fzero) n endpoint)) = map val (linspace_serial start stop n endpoint)).
Proof. exact l_clinspace_real_refuted. Qed.
Print Assumptions C104_complex_real_refuted.
