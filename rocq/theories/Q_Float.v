(** Statements about arange and linspace of floating-point numbers. *)
From Coq Require Import ZArith Reals List Lia Lra Bool.
From Flocq Require Import Core BinarySingleNaN.
From Verif Require Import Base P_ArangeFloat M_Float Spec_Float P_FloatOps P_FloatArange P_FloatLinspace.
Import ListNotations.
Local Open Scope R_scope.

Lemma larger_moderate t a b : moderate t a -> moderate t b -> larger a b <= two (emax t - 3).
Proof. intros H1 H2. now apply Rmax_lub. Qed.
Lemma l_arange_up : forall fuel (t : float_type) (start stop step : float t), finite start -> finite stop -> finite step ->
  let a := val start in let b := val stop in let h := val step in
  moderate t a -> moderate t b -> 0 < h -> a < b -> sensible_step t a b h ->
  exists v, arange_float fuel start stop step = Some (Ok v) /\ Forall finite v /\ half_open_steps a b h (arange_tol t a b) (map val v).
Proof. intros fuel t start stop step F1 F2 F3 a b h M1 M2 H L [S1 S2]. rewrite Rabs_pos_eq in S1, S2 by lra. rewrite Rabs_pos_eq in S2 by lra. unfold a, b, h in *.
  destruct (arange_steps t start stop step 1 (or_introl eq_refl) F1 F2 F3) as (v & E & Fv & P); try (rewrite ?Rmult_1_l; auto using larger_moderate; fail).
  exists v. unfold arange_float. rewrite step_nonzero by (auto; lra). rewrite E. split; auto. split; auto. rewrite !Rmult_1_l in P. rewrite (map_ext _ val) in P by (intro; apply Rmult_1_l). exact P. Qed.
Lemma l_arange_down : forall fuel (t : float_type) (start stop step : float t), finite start -> finite stop -> finite step ->
  let a := val start in let b := val stop in let h := val step in
  moderate t a -> moderate t b -> h < 0 -> b < a -> sensible_step t a b h ->
  exists v, arange_float fuel start stop step = Some (Ok v) /\ Forall finite v /\ half_open_steps (- a) (- b) (- h) (arange_tol t a b) (map (fun x => - val x) v).
Proof. intros fuel t start stop step F1 F2 F3 a b h M1 M2 H L [S1 S2]. rewrite (Rabs_left h) in S1, S2 by lra. rewrite (Rabs_left (b - a)) in S2 by lra. unfold a, b, h in *.
  assert (EM : forall x, -1 * x = - x) by (intro; ring).
  destruct (arange_steps t start stop step (-1) (or_intror eq_refl) F1 F2 F3) as (v & E & Fv & P); try (rewrite ?EM; auto using larger_moderate; lra).
  exists v. unfold arange_float. rewrite step_nonzero by (auto; lra). rewrite E. split; auto. split; auto. rewrite !EM in P. rewrite (map_ext _ (fun x => - val x)) in P by (intro; apply EM). exact P. Qed.
Lemma l_arange_empty : forall fuel (t : float_type) (start stop step : float t), finite start -> finite stop -> finite step -> moderate t (val start) -> moderate t (val stop) ->
  (0 < val step /\ val stop <= val start) \/ (val step < 0 /\ val start = val stop) -> arange_float (S fuel) start stop step = Some (Ok []).
Proof. intros. now apply arange_none. Qed.
Lemma l_arange_zero : forall fuel (t : float_type) (start stop step : float t), finite step -> val step = 0 -> arange_float fuel start stop step = Some (Err InvalidValue).
Proof. intros fuel t start stop step F E. unfold arange_float. rewrite feq_val by (auto; reflexivity). rewrite Req_bool_true; auto. Qed.
Lemma l_arange_forever : forall (t : float_type) (start stop step : float t), finite start -> finite stop -> finite step -> moderate t (val start) -> moderate t (val stop) ->
  val step < 0 -> val start < val stop -> - val step <= val stop - val start -> forall fuel, arange_float fuel start stop step = None.
Proof. intros. now apply arange_forever. Qed.

Lemma l_arange_infinite : forall fuel (t : float_type) (start step : float t) v, finite start -> finite step -> 0 < val step -> arange_float fuel start (B754_infinity false) step = Some (Ok v) ->
  exists n, v = map (fun k => Nat.iter k (fun x => fadd x step) start) (seq 0 n) /\ Forall finite v /\ Nat.iter n (fun x => fadd x step) start = B754_infinity false.
Proof. intros fuel t start step v F1 F3 P H. unfold arange_float in H. rewrite step_nonzero in H by (auto; lra). destruct (to64 t start F1) as [V1 G1], (to64 t step F3) as [V3 G3]. assert (E : arange_f64 start (B754_infinity false) step = None).
  { unfold arange_f64. cbv zeta. assert (N : to_usize (fceil (fdiv (fsub (convert t F64 (B754_infinity false)) (convert t F64 start)) (convert t F64 step))) = None); [|rewrite N; reflexivity].
    apply to_usize_inf. rewrite (proj2 (fceil_val F64 _)). unfold finite in *. cbn [convert]. rewrite <- V3 in P. unfold val in P. destruct (convert t F64 start), (convert t F64 step); try discriminate; try reflexivity; cbn in P; lra. }
  rewrite E in H. destruct (count_floats fuel start (B754_infinity false) step) as [r|] eqn:R; [|discriminate]. injection H as ->. apply (loop_infinite t step F3 P fuel start v); auto. Qed.

(** ** concrete floats *)
Lemma Rlt_bool_true_iff x y : Rlt_bool x y = true -> x < y.
Proof. destruct (Rlt_bool_spec x y); [auto|discriminate]. Qed.
Definition int {t} (z : Z) : float t := of_int z.
Lemma int_ok t z : (Z.abs z <= 2 ^ prec t)%Z -> val (int z : float t) = IZR z /\ finite (int z : float t). Proof. apply int_val. Qed.
(** the claim that arange always ends *)
Lemma l_arange_ends_refuted : ~ (forall (t : float_type) (start stop step : float t), finite start -> finite stop -> finite step -> val step <> 0 -> exists fuel r, arange_float fuel start stop step = Some r).
Proof. intro H. destruct (int_ok F64 0) as [A1 A2]; [cbn; lia|]. destruct (int_ok F64 5) as [B1 B2]; [cbn; lia|]. destruct (int_ok F64 (-1)) as [C1 C2]; [cbn; lia|].
  destruct (H F64 (int 0) (int 5) (int (-1)) A2 B2 C2) as (fuel & r & E); [rewrite C1; lra|]. assert (N : arange_float fuel (int 0 : float F64) (int 5) (int (-1)) = None); [|congruence]. clear E H. apply l_arange_forever; try assumption; try (rewrite ?A1, ?B1, ?C1; lra); unfold moderate; rewrite ?A1, ?B1.
  - rewrite Rabs_R0. apply bpow_ge_0.
  - rewrite Rabs_pos_eq by lra. apply Rle_trans with (two 3); [cbn; lra|apply bpow_le; cbn; lia]. Qed.
(** the claim without the condition that the step is not lost in the rounding errors: values stay below the end *)
Lemma l_arange_below_refuted : ~ (forall fuel (t : float_type) (start stop step : float t) v, finite start -> finite stop -> finite step -> 0 < val step -> arange_float fuel start stop step = Some (Ok v) -> forall x, In x v -> val x < val stop).
Proof. intro H. set (s := int (2 ^ 53) : float F64). set (e := int (2 ^ 53 + 2) : float F64). set (h := fdiv (int 1) (int 4) : float F64).
  assert (E : match arange_float 1 s e h with Some (Ok v) => existsb (fun x => is_finite x && fle e x) v | _ => false end = true) by (vm_compute; reflexivity).
  destruct (arange_float 1 s e h) as [[v| |]|] eqn:R; [|discriminate E|discriminate E|discriminate E]. apply existsb_exists in E. destruct E as (x & I & C). apply andb_true_iff in C. destruct C as [C1 C2].
  assert (P : 0 < val h). { apply Rlt_bool_true_iff. change 0 with (B2R (fzero : float F64)). unfold val. rewrite <- Bltb_correct by (vm_compute; reflexivity). vm_compute. reflexivity. }
  rewrite fle_val in C2 by (auto; reflexivity). assert (L := H 1%nat F64 s e h v eq_refl eq_refl eq_refl P R x I). destruct (Rle_bool_spec (val e) (val x)); [lra|discriminate C2]. Qed.
(** the claim without the condition on long steps: an interval that is not empty has its start *)
Lemma l_arange_start_refuted : ~ (forall fuel (t : float_type) (start stop step : float t) v, finite start -> finite stop -> finite step -> 0 < val step -> val start < val stop -> arange_float fuel start stop step = Some (Ok v) -> v <> []).
Proof. intro H. assert (B : SpecFloat.bounded 53 1024 1 (-1074) = true) by reflexivity. set (e := B754_finite false 1 (-1074) B : float F64). destruct (int_ok F64 2) as [C1 C2]; [cbn; lia|].
  refine (H 1%nat F64 fzero e (int 2) [] eq_refl eq_refl C2 _ _ _ eq_refl).
  - rewrite C1. lra.
  - unfold val, e. cbn. apply F2R_gt_0. reflexivity.
  - vm_compute. reflexivity. Qed.

(** ** linspace *)
Lemma l_linspace_serial : forall (t : float_type) (start stop : float t) (n : nat) (endpoint : bool), finite start -> finite stop ->
  let a := val start in let b := val stop in moderate t a -> moderate t b -> (2 <= n)%nat -> sensible_count t a b n ->
  Forall finite (linspace_serial start stop n endpoint) /\ evenly_spaced a b (if endpoint then n - 1 else n) n (fun i => INR i * linspace_drift t a b) (map val (linspace_serial start stop n endpoint)).
Proof. intros t start stop n endpoint F1 F2 a b M1 M2 N S. apply linspace_serial_ok; auto. now apply larger_moderate. Qed.
Lemma l_linspace_parallel : forall (t : float_type) (start stop : float t) (n : nat) (endpoint : bool), finite start -> finite stop ->
  let a := val start in let b := val stop in moderate t a -> moderate t b -> (2 <= n)%nat -> sensible_count t a b n ->
  Forall finite (linspace_parallel start stop n endpoint) /\ evenly_spaced a b (if endpoint then n - 1 else n) n (linspace_tol t a b) (map val (linspace_parallel start stop n endpoint)).
Proof. intros t start stop n endpoint F1 F2 a b M1 M2 N S. apply linspace_parallel_ok; auto. now apply larger_moderate. Qed.
Lemma l_linspace_short : forall (t : float_type) (start stop : float t) (endpoint : bool), linspace_serial start stop 0 endpoint = [] /\ linspace_parallel start stop 0 endpoint = [] /\ linspace_serial start stop 1 endpoint = [start] /\ linspace_parallel start stop 1 endpoint = [start].
Proof. repeat split; reflexivity. Qed.
(** the claims that the last value is the end, and that the devices agree *)
Lemma l_linspace_end_refuted : ~ (forall (t : float_type) (start stop : float t) n, (2 <= n)%nat -> finite start -> finite stop -> val (last (linspace_serial start stop n true) start) = val stop).
Proof. intro H. assert (E := H F64 (int 0) (int 1) 7%nat ltac:(lia) eq_refl eq_refl). apply Req_bool_true in E. unfold val in E. revert E. rewrite <- Beqb_correct by reflexivity. vm_compute. discriminate. Qed.
Lemma l_linspace_end_parallel_refuted : ~ (forall (t : float_type) (start stop : float t) n, (2 <= n)%nat -> finite start -> finite stop -> val (last (linspace_parallel start stop n true) start) = val stop).
Proof. intro H. assert (E := H F64 (int 0) (int 1) 50%nat ltac:(lia) eq_refl eq_refl). apply Req_bool_true in E. unfold val in E. revert E. rewrite <- Beqb_correct by (vm_compute; reflexivity). vm_compute. discriminate. Qed.
Lemma l_linspace_devices_refuted : ~ (forall (t : float_type) (start stop : float t) n endpoint, finite start -> finite stop -> map val (linspace_serial start stop n endpoint) = map val (linspace_parallel start stop n endpoint)).
Proof. intro H. assert (E := H F64 (int 0) (int 1) 11%nat true eq_refl eq_refl). apply (f_equal (fun v => nth 10 v 0)) in E. change 0 with (val (fzero : float F64)) in E. rewrite !map_nth in E. apply Req_bool_true in E. unfold val in E. revert E. rewrite <- Beqb_correct by (vm_compute; reflexivity). vm_compute. discriminate. Qed.
