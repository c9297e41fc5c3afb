(** Property theorems about arange and linspace of floating-point numbers (C103, C104).  Statements use Spec_Float.v and the modelled
    entry points of M_Float.v only. *)
From Coq Require Import ZArith Reals List Lra.
From Flocq Require Import Core BinarySingleNaN.
From Verif Require Import Base M_Float Spec_Float P_FloatOps Q_Float.
Import ListNotations.
Local Open Scope R_scope.

(** C103: arange(start, stop, step) with a positive step, start below stop, ends far from overflow and a step that is neither lost in the rounding errors nor so long that the quotient underflows: it ends, the values are finite, lie in the half-open interval from start to stop, increase strictly, begin with start, are within a few units in the last place of start + i * step, and none is missing (up to one within that error of stop). *)
Theorem C103_arange_up : forall fuel (t : float_type) (start stop step : float t), finite start -> finite stop -> finite step ->
  let a := val start in let b := val stop in let h := val step in
  moderate t a -> moderate t b -> 0 < h -> a < b -> sensible_step t a b h ->
  exists v, arange_float fuel start stop step = Some (Ok v) /\ Forall finite v /\ half_open_steps a b h (arange_tol t a b) (map val v).
Proof. exact l_arange_up. Qed.
Lemma fx_small : two (-1000) <= / 1000000 /\ unit_roundoff F64 <= / 1000000 /\ smallest F64 <= / 1000000.
Proof. assert (E : two (-20) <= / 1000000) by (cbn; lra). repeat split; (eapply Rle_trans; [apply bpow_le|exact E]); cbn; discriminate. Qed.
Lemma fx_moderate z : (Z.abs z <= 2 ^ 10)%Z -> moderate F64 (IZR z).
Proof. intro H. unfold moderate. rewrite <- abs_IZR. apply Rle_trans with (two 10); [change (two 10) with (IZR (2 ^ 10)); now apply IZR_le|apply bpow_le; cbn; discriminate]. Qed.
Definition fx_same (r : option (res (list (float F64)))) (v : list Z) : bool := match r with Some (Ok w) => (length w =? length v)%nat && forallb (fun p => feq (fst p) (snd p)) (combine w (map int v)) | _ => false end.
Lemma fx_larger : larger 0 10 = 10. Proof. unfold larger. rewrite Rabs_R0, Rabs_pos_eq by lra. apply Rmax_right. lra. Qed.
(** arange(0, 10, 3) *)
Example C103_example : finite (int 0 : float F64) /\ finite (int 10 : float F64) /\ finite (int 3 : float F64) /\ val (int 0 : float F64) = 0 /\ val (int 10 : float F64) = 10 /\ val (int 3 : float F64) = 3 /\
  moderate F64 0 /\ moderate F64 10 /\ sensible_step F64 0 10 3 /\ fx_same (arange_float 0 (int 0) (int 10) (int 3)) [0; 3; 6; 9]%Z = true.
Proof. destruct (int_ok F64 0) as [A1 A2]; [discriminate|]. destruct (int_ok F64 10) as [B1 B2]; [discriminate|]. destruct (int_ok F64 3) as [C1 C2]; [discriminate|].
  split; auto. split; auto. split; auto. split; auto. split; auto. split; auto. split; [apply (fx_moderate 0); discriminate|]. split; [apply (fx_moderate 10); discriminate|]. split; [|vm_compute; reflexivity].
  destruct fx_small as (S1 & S2 & S3). unfold sensible_step, arange_tol. rewrite fx_larger. rewrite !Rabs_pos_eq by lra. split; lra. Qed.
(** arange(0, 1, 0.1) has 10 values *)
Example C103_example_tenth : match arange_float 0 (int 0) (int 1) (fdiv (int 1) (int 10) : float F64) with Some (Ok v) => length v | _ => 0%nat end = 10%nat.
Proof. vm_compute. reflexivity. Qed.
Print Assumptions C103_arange_up.

(** C103: the same with a negative step and start above stop; in terms of the negated numbers. *)
Theorem C103_arange_down : forall fuel (t : float_type) (start stop step : float t), finite start -> finite stop -> finite step ->
  let a := val start in let b := val stop in let h := val step in
  moderate t a -> moderate t b -> h < 0 -> b < a -> sensible_step t a b h ->
  exists v, arange_float fuel start stop step = Some (Ok v) /\ Forall finite v /\ half_open_steps (- a) (- b) (- h) (arange_tol t a b) (map (fun x => - val x) v).
Proof. exact l_arange_down. Qed.
(** arange(10, 0, -3) *)
Example C103_example_down : sensible_step F64 10 0 (-3) /\ fx_same (arange_float 0 (int 10) (int 0) (int (-3))) [10; 7; 4; 1]%Z = true.
Proof. split; [|vm_compute; reflexivity]. destruct fx_small as (S1 & S2 & S3). unfold sensible_step, arange_tol. replace (larger 10 0) with 10 by (unfold larger; rewrite Rabs_R0, Rabs_pos_eq by lra; rewrite Rmax_left; lra). rewrite !Rabs_left by lra. split; lra. Qed.
Print Assumptions C103_arange_down.

(** C103: nothing from start on with a positive step if stop is not above start, and nothing between equal ends. *)
Theorem C103_arange_empty : forall fuel (t : float_type) (start stop step : float t), finite start -> finite stop -> finite step -> moderate t (val start) -> moderate t (val stop) ->
  (0 < val step /\ val stop <= val start) \/ (val step < 0 /\ val start = val stop) -> arange_float (S fuel) start stop step = Some (Ok []).
Proof. exact l_arange_empty. Qed.
Example C103_example_empty : fx_same (arange_float 1 (int 5) (int 0) (int 1)) [] = true /\ fx_same (arange_float 1 (int 5) (int 5) (int (-1))) [] = true.
Proof. split; vm_compute; reflexivity. Qed.
Print Assumptions C103_arange_empty.

(** C103: a step of zero (of either sign) is an error. *)
Theorem C103_arange_zero : forall fuel (t : float_type) (start stop step : float t), finite step -> val step = 0 -> arange_float fuel start stop step = Some (Err InvalidValue).
Proof. exact l_arange_zero. Qed.
Print Assumptions C103_arange_zero.

(** C103: with an infinite stop and a positive step the elements, if the call returns at all, are start, start + step, (start + step) + step and so on, every addition rounded, up to the last finite number.  (When the additions stop changing the sum it never returns.) *)
Theorem C103_arange_infinite : forall fuel (t : float_type) (start step : float t) v, finite start -> finite step -> 0 < val step -> arange_float fuel start (B754_infinity false) step = Some (Ok v) ->
  exists n, v = map (fun k => Nat.iter k (fun x => fadd x step) start) (seq 0 n) /\ Forall finite v /\ Nat.iter n (fun x => fadd x step) start = B754_infinity false.
Proof. exact l_arange_infinite. Qed.
Example C103_example_infinite : match arange_float 5 (int 1) (B754_infinity false) (of_int (2 ^ 127) : float F32) with Some (Ok v) => length v | _ => 0%nat end = 2%nat.
Proof. vm_compute. reflexivity. Qed.
Print Assumptions C103_arange_infinite.

(** C103: with a negative step and stop above start by at least one step arange never ends (NumPy gives an empty array).  The code leaves a negative number of steps to a loop that only tests current < stop. *)
Theorem C103_arange_forever : forall (t : float_type) (start stop step : float t), finite start -> finite stop -> finite step -> moderate t (val start) -> moderate t (val stop) ->
  val step < 0 -> val start < val stop -> - val step <= val stop - val start -> forall fuel, arange_float fuel start stop step = None.
Proof. exact l_arange_forever. Qed.
Example C103_example_forever : arange_float 100 (int 0) (int 5) (int (-1) : float F64) = None.
Proof. vm_compute. reflexivity. Qed.
Print Assumptions C103_arange_forever.

(** C103, refuted: arange ends for all finite arguments with a step that is not zero.  arange(0, 5, -1) does not. *)
Theorem C103_arange_ends_refuted : ~ (forall (t : float_type) (start stop step : float t), finite start -> finite stop -> finite step -> val step <> 0 -> exists fuel r, arange_float fuel start stop step = Some r).
Proof. exact l_arange_ends_refuted. Qed.
Print Assumptions C103_arange_ends_refuted.

(** C103, refuted: without the condition on the step, all values are below stop.  arange(2^53, 2^53 + 2, 0.25) contains stop twice after its last value has been removed. *)
Theorem C103_arange_below_refuted : ~ (forall fuel (t : float_type) (start stop step : float t) v, finite start -> finite stop -> finite step -> 0 < val step -> arange_float fuel start stop step = Some (Ok v) -> forall x, In x v -> val x < val stop).
Proof. exact l_arange_below_refuted. Qed.
Print Assumptions C103_arange_below_refuted.

(** C103, refuted: without the condition on long steps, an interval that is not empty gives at least its start.  arange(0, 2^-1074, 2) is empty. *)
Theorem C103_arange_start_refuted : ~ (forall fuel (t : float_type) (start stop step : float t) v, finite start -> finite stop -> finite step -> 0 < val step -> val start < val stop -> arange_float fuel start stop step = Some (Ok v) -> v <> []).
Proof. exact l_arange_start_refuted. Qed.
Print Assumptions C103_arange_start_refuted.

(** C104: linspace(start, stop, n) on the serial device, ends far from overflow, not too many values for the precision: n finite values, number i within i times a few units in the last place of the larger end of its place; so the first is exactly start.  The error grows with i because the step is added again and again. *)
Theorem C104_linspace_serial : forall (t : float_type) (start stop : float t) (n : nat) (endpoint : bool), finite start -> finite stop ->
  let a := val start in let b := val stop in moderate t a -> moderate t b -> (2 <= n)%nat -> sensible_count t a b n ->
  Forall finite (linspace_serial start stop n endpoint) /\ evenly_spaced a b (if endpoint then n - 1 else n) n (fun i => INR i * linspace_drift t a b) (map val (linspace_serial start stop n endpoint)).
Proof. exact l_linspace_serial. Qed.
(** linspace(0, 10, 6) *)
Example C104_example : sensible_count F64 0 10 6 /\ fx_same (Some (Ok (linspace_serial (int 0) (int 10) 6 true))) [0; 2; 4; 6; 8; 10]%Z = true /\ fx_same (Some (Ok (linspace_parallel (int 0) (int 10) 5 false))) [0; 2; 4; 6; 8]%Z = true.
Proof. split; [|split; vm_compute; reflexivity]. destruct fx_small as (S1 & S2 & S3). unfold sensible_count, linspace_drift. rewrite fx_larger. cbn [INR]. lra. Qed.
Print Assumptions C104_linspace_serial.

(** C104: the same on the parallel device, for every schedule; there the error does not grow (but for numbers near the smallest positive one). *)
Theorem C104_linspace_parallel : forall (t : float_type) (start stop : float t) (n : nat) (endpoint : bool), finite start -> finite stop ->
  let a := val start in let b := val stop in moderate t a -> moderate t b -> (2 <= n)%nat -> sensible_count t a b n ->
  Forall finite (linspace_parallel start stop n endpoint) /\ evenly_spaced a b (if endpoint then n - 1 else n) n (linspace_tol t a b) (map val (linspace_parallel start stop n endpoint)).
Proof. exact l_linspace_parallel. Qed.
Print Assumptions C104_linspace_parallel.

(** C104: no value for n = 0, start for n = 1. *)
Theorem C104_linspace_short : forall (t : float_type) (start stop : float t) (endpoint : bool), linspace_serial start stop 0 endpoint = [] /\ linspace_parallel start stop 0 endpoint = [] /\ linspace_serial start stop 1 endpoint = [start] /\ linspace_parallel start stop 1 endpoint = [start].
Proof. exact l_linspace_short. Qed.
Print Assumptions C104_linspace_short.

(** C104, refuted: with the endpoint, the last value is stop.  On the serial device linspace(0, 1, 7) ends below 1. *)
Theorem C104_linspace_end_refuted : ~ (forall (t : float_type) (start stop : float t) n, (2 <= n)%nat -> finite start -> finite stop -> val (last (linspace_serial start stop n true) start) = val stop).
Proof. exact l_linspace_end_refuted. Qed.
Print Assumptions C104_linspace_end_refuted.

(** C104, refuted: the same on the parallel device; linspace(0, 1, 50) does not end with 1. *)
Theorem C104_linspace_end_parallel_refuted : ~ (forall (t : float_type) (start stop : float t) n, (2 <= n)%nat -> finite start -> finite stop -> val (last (linspace_parallel start stop n true) start) = val stop).
Proof. exact l_linspace_end_parallel_refuted. Qed.
Print Assumptions C104_linspace_end_parallel_refuted.

(** C104, refuted: the serial and the parallel device give the same values.  linspace(0, 1, 11) does not. *)
Theorem C104_linspace_devices_refuted : ~ (forall (t : float_type) (start stop : float t) n endpoint, finite start -> finite stop -> map val (linspace_serial start stop n endpoint) = map val (linspace_parallel start stop n endpoint)).
Proof. exact l_linspace_devices_refuted. Qed.
Print Assumptions C104_linspace_devices_refuted.
