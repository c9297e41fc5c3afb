(** Rounding errors of sums of products, however they are grouped *)
From Coq Require Import ZArith Reals List Lia Lra Bool.
From Flocq Require Import Core Relative BinarySingleNaN.
From Verif Require Import Base Spec Spec_Float Spec_FloatReduce Spec_FloatMatmul P_ArangeFloat M_Float P_FloatOps M_FloatReduce P_FloatSum P_FloatLinspace P_FloatDot.
Import ListNotations.
Local Open Scope R_scope.

Section Pairs.
  Context {t : float_type}.
  Definition both (p : float t * float t) : bool := is_finite (fst p) && is_finite (snd p).
  Definition sh_pair (p : float t * float t) : shadow := ((val (fst p) * val (snd p), Rabs (val (fst p) * val (snd p))), (1, if both p then 0 else 1)%nat).
  Lemma sh_pairs ps : total sh_zero sh_add (map sh_pair ps) = ((exact_dot ps, dot_magnitude ps), (length ps, length (filter (fun p => negb (both p)) ps))).
  Proof. unfold total. induction ps as [|p ps IH]; [reflexivity|]. cbn [map fold_right]. rewrite IH. unfold sh_add, sh_pair. cbn [fst snd filter length]. f_equal. f_equal. destruct (both p); reflexivity. Qed.
  Lemma pairs_good ps : finite_pairs ps -> length (filter (fun p => negb (both p)) ps) = 0%nat.
  Proof. induction 1 as [|p ps [F1 F2] F IH]; [reflexivity|]. cbn [filter]. unfold both at 1. rewrite F1, F2. exact IH. Qed.
  Definition tol (n : nat) (A : R) : R := (rounded t n - 1) * A + dot_underflow t n.
  Definition nearp (s : float t) (sh : shadow) : Prop :=
    sh_ok sh /\ let '((W, A), (n, bad)) := sh in bad = 0%nat -> rounded t n * A + dot_underflow t n < two (emax t) -> finite s /\ Rabs (val s - W) <= tol n A.
  Lemma uf_0 : dot_underflow t 0 = 0. Proof. unfold dot_underflow. cbn. ring. Qed.
  Lemma uf_pos n : 0 <= dot_underflow t n.
  Proof. unfold dot_underflow. pose proof (pos_INR n). pose proof (rounded_1 t (n - 1)). pose proof (small_pos t). apply Rmult_le_pos; [apply Rmult_le_pos|]; lra. Qed.
  Lemma nearp_null (x : float t) : finite x -> val x = 0 -> nearp x sh_zero.
  Proof. intros F E. split; [split; [lra|split; [rewrite Rabs_R0; lra|reflexivity]]|]. cbn. intros _ _. split; [exact F|]. rewrite E, Rminus_0_r, Rabs_R0. unfold tol. rewrite uf_0. lra. Qed.
  Lemma nearp_of x y : nearp (fmul x y) (sh_pair (x, y)).
  Proof. split. { unfold sh_ok, sh_pair. cbn [fst snd]. split; [apply Rabs_pos|]. split; [lra|discriminate]. }
    unfold sh_pair. cbn [fst snd]. intros B L. unfold both in B. cbn [fst snd] in B. destruct (is_finite x) eqn:Fx; [|discriminate]. destruct (is_finite y) eqn:Fy; [|discriminate].
    assert (UF : dot_underflow t 1 = smallest t). { unfold dot_underflow, rounded. cbn [Nat.sub pow INR]. ring. } unfold tol. rewrite UF in *.
    destruct (fmul_err t x y Fx Fy L) as [F E]. split; [exact F|]. unfold rounded. rewrite pow_1. lra. Qed.
  Lemma uf_le n n' : (n <= n')%nat -> dot_underflow t n <= dot_underflow t n'.
  Proof. intro H. unfold dot_underflow. apply Rmult_le_compat_r; [pose proof (small_pos t); lra|]. apply Rmult_le_compat; [apply pos_INR|pose proof (rounded_1 t (n - 1)); lra|now apply le_INR|apply rounded_le; lia]. Qed.
  Lemma nearp_add (x y : float t) s s' : nearp x s -> nearp y s' -> nearp (fadd x y) (sh_add s s').
  Proof. intros [K N] [K' N']. split; [now apply sh_add_ok|]. destruct s as [[W A] [n b]], s' as [[W' A'] [n' b']]. unfold sh_ok, sh_add in *. cbn [fst snd] in *. intros B L. destruct K as (K1 & K2 & K3), K' as (K1' & K2' & K3').
    pose proof (rounded_le t n (n + n') ltac:(lia)) as G. pose proof (rounded_le t n' (n + n') ltac:(lia)) as G'. pose proof (rounded_1 t n) as G1. pose proof (rounded_1 t n') as G1'.
    pose proof (uf_le n (n + n') ltac:(lia)) as UF. pose proof (uf_le n' (n + n') ltac:(lia)) as UF'.
    assert (L1 : rounded t n * A + dot_underflow t n < two (emax t)). { eapply Rle_lt_trans; [|exact L]. apply Rplus_le_compat; [apply Rmult_le_compat; lra|exact UF]. }
    assert (L2 : rounded t n' * A' + dot_underflow t n' < two (emax t)). { eapply Rle_lt_trans; [|exact L]. apply Rplus_le_compat; [apply Rmult_le_compat; lra|exact UF']. }
    destruct N as [F E]; [lia|exact L1|]. destruct N' as [F' E']; [lia|exact L2|].
    destruct (Nat.eq_dec n 0) as [Z|Z].
    { rewrite (K3 Z) in *. subst n. unfold tol in E. rewrite uf_0 in E. assert (W = 0) as -> by (apply abs_0; lra). assert (Vx : val x = 0) by (apply abs_0; rewrite Rminus_0_r in E; lra). cbn [Nat.add]. destruct (zero_add t x y F F' Vx) as [-> Fa]. split; auto. now rewrite !Rplus_0_l. }
    destruct (Nat.eq_dec n' 0) as [Z'|Z'].
    { rewrite (K3' Z') in *. subst n'. unfold tol in E'. rewrite uf_0 in E'. assert (W' = 0) as -> by (apply abs_0; lra). assert (Vy : val y = 0) by (apply abs_0; rewrite Rminus_0_r in E'; lra). rewrite Nat.add_0_r. destruct (add_zero t x y F F' Vy) as [-> Fa]. split; auto. now rewrite !Rplus_0_r. }
    set (m := (Nat.max n n' - 1)%nat). pose proof (rounded_le t (n - 1) m ltac:(lia)) as H. pose proof (rounded_le t (n' - 1) m ltac:(lia)) as H'.
    pose proof (rounded_le t n (S m) ltac:(lia)) as H2. pose proof (rounded_le t n' (S m) ltac:(lia)) as H2'. pose proof (rounded_le t (S (S m)) (n + n') ltac:(lia)) as Hm. pose proof (rounded_le t (S m) (n + n' - 1) ltac:(lia)) as Hm'.
    rewrite !rounded_S in *. pose proof (rounded_1 t m) as Gm. pose proof (unit_pos t) as U. pose proof (small_pos t) as S0. unfold tol, dot_underflow in *.
    pose proof (pos_INR n) as P. pose proof (pos_INR n') as P'. rewrite plus_INR in *.
    set (g := rounded t m) in *. set (u := unit_roundoff t) in *. set (eta := smallest t) in *. set (v := val x + val y). set (k := INR n + INR n') in *.
    assert (Q1 : INR n * rounded t (n - 1) * eta <= INR n * g * eta) by (apply Rmult_le_compat_r; [lra|]; apply Rmult_le_compat_l; lra).
    assert (Q2 : INR n' * rounded t (n' - 1) * eta <= INR n' * g * eta) by (apply Rmult_le_compat_r; [lra|]; apply Rmult_le_compat_l; lra).
    assert (Q3 : (rounded t n - 1) * A <= (g * (1 + u) - 1) * A) by (apply Rmult_le_compat_r; lra).
    assert (Q4 : (rounded t n' - 1) * A' <= (g * (1 + u) - 1) * A') by (apply Rmult_le_compat_r; lra).
    assert (Ev : Rabs (v - (W + W')) <= (g * (1 + u) - 1) * (A + A') + k * g * eta).
    { unfold v. replace (val x + val y - (W + W')) with ((val x - W) + (val y - W')) by ring. eapply Rle_trans; [apply Rabs_triang|]. unfold k. lra. }
    assert (Av : Rabs v <= g * (1 + u) * (A + A') + k * g * eta). { replace v with ((v - (W + W')) + (W + W')) by ring. eapply Rle_trans; [apply Rabs_triang|]. pose proof (Rabs_triang W W'). lra. }
    pose proof (sum_err t x y) as Er. fold v u in Er.
    assert (Er2 : Rabs (rnd t v - v) <= u * (g * (1 + u) * (A + A') + k * g * eta)) by (eapply Rle_trans; [exact Er|apply Rmult_le_compat_l; lra]).
    assert (Hm2 : g * (1 + u) * (1 + u) * (A + A') <= rounded t (n + n') * (A + A')) by (apply Rmult_le_compat_r; lra).
    assert (Hm3 : k * (g * (1 + u)) * eta <= k * rounded t (n + n' - 1) * eta) by (apply Rmult_le_compat_r; [lra|]; apply Rmult_le_compat_l; unfold k; lra).
    assert (Rv : Rabs (rnd t v) < two (emax t)). { replace (rnd t v) with ((rnd t v - v) + v) by ring. eapply Rle_lt_trans; [apply Rabs_triang|]. eapply Rle_lt_trans; [|exact L]. lra. }
    destruct (fadd_val t x y F F' Rv) as [-> Fa]. split; auto. fold v. replace (rnd t v - (W + W')) with ((rnd t v - v) + (v - (W + W'))) by ring. eapply Rle_trans; [apply Rabs_triang|]. lra. Qed.
  Lemma nearp_dots ps v : nearp v (total sh_zero sh_add (map sh_pair ps)) -> finite_pairs ps -> dot_no_overflow ps -> dots_to ps v.
  Proof. intros [_ H] F L. rewrite sh_pairs in H. apply H; [now apply pairs_good|exact L]. Qed.
End Pairs.

(** ** the parallel kernels: the sum of products first, then both scalings *)
Lemma fadd_comm_val {t} (x y : float t) : finite x -> finite y -> Rabs (rnd t (val x + val y)) < two (emax t) -> forall r, r = fadd x y \/ r = fadd y x -> val r = rnd t (val x + val y) /\ finite r.
Proof. intros Fx Fy L r [-> | ->]; [now apply fadd_val|]. rewrite (Rplus_comm (val x)) in *. now apply fadd_val. Qed.
Lemma scaled_after {t} (alpha beta z s : float t) ps v : v = fadd (fmul z beta) (fmul s alpha) \/ v = fadd (fmul s alpha) (fmul z beta) -> (length ps = 0%nat -> val s = 0) ->
  dots_to ps s -> finite alpha -> finite beta -> finite z -> scaled_no_overflow alpha beta z ps -> accumulates_to alpha beta z ps v.
Proof. intros Ev E0 [Fs Es] Fa Fb Fz [NO _]. set (n := length ps) in *. unfold accumulates_to.
  pose proof (unit_pos t) as U. pose proof (small_pos t) as S0. pose proof (dot_magnitude_pos ps) as M0. fold n. unfold scaled_magnitude, scaled_underflow, dot_underflow in *.
  set (u := unit_roundoff t) in *. set (eta := smallest t) in *. set (A := Rabs (val alpha)) in *. set (D := dot_magnitude ps) in *. set (B := Rabs (val beta * val z)) in *. set (X := exact_dot ps) in *.
  assert (A0 : 0 <= A) by apply Rabs_pos. assert (B0 : 0 <= B) by apply Rabs_pos. pose proof (pos_INR n) as N0. rewrite plus_INR in *. change (INR 1) with 1 in *. set (k := INR n) in *.
  assert (R1 : rounded t 1 = 1 + u) by (unfold rounded; rewrite pow_1; reflexivity). rewrite R1 in *.
  set (G := rounded t n) in *. pose proof (rounded_1 t n) as G1. fold G in G1.
  assert (Rn : rounded t (n + 2) = G * ((1 + u) * (1 + u))). { replace (n + 2)%nat with (S (S n)) by lia. rewrite !rounded_S. unfold G, u. ring. } rewrite Rn in *.
  assert (XD : Rabs X <= D). { unfold X, D, exact_dot, dot_magnitude, rsum. clear. induction ps as [|p ps IH]; cbn [map fold_right]; [rewrite Rabs_R0; lra|]. eapply Rle_trans; [apply Rabs_triang|]. lra. }
  set (w := k * rounded t (n - 1) * eta) in *. assert (W1 : (1 + u) * w <= k * G * eta /\ 0 <= w).
  { unfold w. pose proof (rounded_1 t (n - 1)) as Q. destruct n as [|m] eqn:EN; [unfold k; cbn; lra|]. replace (S m - 1)%nat with m in * by lia. unfold G. rewrite rounded_S. fold u. split; [apply Req_le; ring|]. apply Rmult_le_pos; [apply Rmult_le_pos|]; lra. }
  destruct W1 as [W1 W0]. clearbody w. assert (AD : 0 <= A * D) by (apply Rmult_le_pos; lra). assert (AE : 0 <= A * eta) by (apply Rmult_le_pos; lra). assert (KG : 0 <= k * G * eta) by (apply Rmult_le_pos; [apply Rmult_le_pos|]; lra).
  assert (KGA : 0 <= k * G * eta * A) by (apply Rmult_le_pos; lra). assert (GAE : 0 <= G * (A * eta)) by (apply Rmult_le_pos; lra). assert (GE : eta <= G * eta) by (rewrite <- (Rmult_1_l eta) at 1; apply Rmult_le_compat_r; lra).
  assert (Vs : Rabs (val s) <= G * D + w). { replace (val s) with ((val s - X) + X) by ring. eapply Rle_trans; [apply Rabs_triang|]. lra. }
  assert (AV : A * Rabs (val s) <= G * (A * D) + A * w). { apply Rle_trans with (A * (G * D + w)); [apply Rmult_le_compat_l; lra|]. lra. }
  assert (AW : (1 + u) * (A * w) <= k * G * eta * A). { replace ((1 + u) * (A * w)) with ((1 + u) * w * A) by ring. apply Rmult_le_compat_r; lra. }
  assert (GB : B <= G * B) by (rewrite <- (Rmult_1_l B) at 1; apply Rmult_le_compat_r; lra).
  assert (GAD : A * D <= G * (A * D)) by (rewrite <- (Rmult_1_l (A * D)) at 1; apply Rmult_le_compat_r; lra).
  (* bounds that follow from the one on the whole *)
  set (H1 := G * B) in *. set (H2 := G * (A * D)) in *. set (H3 := k * G * eta) in *. set (H4 := k * G * eta * A) in *.
  assert (NO2 : (1 + u) * (1 + u) * (H1 + H2) + (H3 + G * eta) + (1 + u) * (H4 + G * (A * eta)) < two (emax t)).
  { replace ((1 + u) * (1 + u) * (H1 + H2) + (H3 + G * eta) + (1 + u) * (H4 + G * (A * eta))) with (G * ((1 + u) * (1 + u)) * (B + A * D) + (k + 1) * G * (1 + (1 + u) * A) * eta); [exact NO|]. unfold H1, H2, H3, H4. ring. }
  assert (U1 : 0 <= u * H1 /\ 0 <= u * H2 /\ 0 <= u * H4 /\ 0 <= u * (G * (A * eta)) /\ 0 <= u * (u * (H1 + H2))) by (repeat split; repeat apply Rmult_le_pos; unfold H1, H2, H4 in *; lra).
  destruct U1 as (U1 & U2 & U3 & U4 & U5).
  assert (D1 : H1 = G * B) by reflexivity. assert (D2 : H2 = G * (A * D)) by reflexivity. assert (D3 : H3 = k * G * eta) by reflexivity. assert (D4 : H4 = H3 * A) by reflexivity. clearbody H1 H2 H3 H4. assert (UB : u * B <= u * H1). { apply Rmult_le_compat_l; [lra|exact GB]. } assert (UE : 0 <= u * (A * w)) by (apply Rmult_le_pos; [lra|]; apply Rmult_le_pos; lra).
  destruct (fmul_err t z beta Fz Fb) as [F1 E1]. { rewrite R1, (Rmult_comm (val z)). fold B eta. lra. }
  rewrite (Rmult_comm (val z)) in E1. fold B u eta in E1.
  destruct (fmul_err t s alpha Fs Fa) as [F2 E2].
  { rewrite R1, Rabs_mult. fold A eta. rewrite (Rmult_comm _ A). assert ((1 + u) * (A * Rabs (val s)) <= (1 + u) * (H2 + A * w)) by (apply Rmult_le_compat_l; lra). lra. }
  rewrite Rabs_mult in E2. fold A u eta in E2. rewrite (Rmult_comm _ A) in E2.
  set (q := val (fmul s alpha)) in *. set (b0 := val (fmul z beta)) in *.
  assert (DQ : Rabs (val s * val alpha - val alpha * X) <= (G - 1) * (A * D) + A * w).
  { replace (val s * val alpha - val alpha * X) with (val alpha * (val s - X)) by ring. rewrite Rabs_mult. fold A. apply Rle_trans with (A * ((G - 1) * D + w)); [apply Rmult_le_compat_l; lra|]. lra. }
  assert (UAV : u * (A * Rabs (val s)) <= u * (H2 + A * w)) by (apply Rmult_le_compat_l; lra).
  destruct (Nat.eq_dec n 0) as [Z|Z].
  - (* no products: the sum is zero *)
    specialize (E0 Z). assert (Q0 : q = 0). { unfold q. destruct (fmul_val t s alpha Fs Fa) as [-> _]; rewrite E0, Rmult_0_l, rnd_id by apply generic_format_0; auto. rewrite Rabs_R0. apply bpow_gt_0. }
    assert (X0 : X = 0). { unfold X, exact_dot. unfold n in Z. destruct ps; [reflexivity|discriminate Z]. }
    assert (VF : rnd t (b0 + q) = b0) by (rewrite Q0, Rplus_0_r; apply rnd_id, val_format).
    destruct (fadd_comm_val (fmul z beta) (fmul s alpha) F1 F2) with (r := v) as [Vv Fv]; auto. { fold b0 q. rewrite VF. apply val_lt. }
    split; [exact Fv|]. rewrite Vv. fold b0 q. rewrite VF, X0, Rmult_0_r, Rplus_0_r.
    subst H4 H3 H2 H1.
    replace ((G * ((1 + u) * (1 + u)) - 1) * (B + A * D) + (k + 1) * G * (1 + (1 + u) * A) * eta) with ((G * B - B) + (G * (A * D) - A * D) + 2 * (u * (G * B)) + 2 * (u * (G * (A * D))) + u * (u * (G * B + G * (A * D))) + (k * G * eta * (1 + (1 + u) * A) + G * eta + G * (A * eta) + u * (G * (A * eta)))) by ring.
    assert (0 <= k * G * eta * (1 + (1 + u) * A)). { apply Rmult_le_pos; [exact KG|]. assert (0 <= (1 + u) * A) by (apply Rmult_le_pos; lra). lra. }
    assert (u * B <= u * (G * B)) by (apply Rmult_le_compat_l; lra). lra.
  - assert (K1 : 1 <= k). { unfold k. replace 1 with (INR 1) by reflexivity. apply le_INR. lia. }
    assert (GU : (1 + u) * eta <= G * eta). { apply Rmult_le_compat_r; [lra|]. unfold G. rewrite <- R1. apply rounded_le. lia. }
    assert (K3 : G * eta <= H3). { rewrite D3. rewrite <- (Rmult_1_l (G * eta)) at 1. rewrite Rmult_assoc. apply Rmult_le_compat_r; lra. }
    assert (DV : Rabs (b0 + q - (val beta * val z + val alpha * X)) <= (u * B + eta) + (u * (H2 + A * w) + eta) + ((G - 1) * (A * D) + A * w)).
    { replace (b0 + q - (val beta * val z + val alpha * X)) with ((b0 - val beta * val z) + ((q - val s * val alpha) + (val s * val alpha - val alpha * X))) by ring. eapply Rle_trans; [apply Rabs_triang|]. pose proof (Rabs_triang (q - val s * val alpha) (val s * val alpha - val alpha * X)). lra. }
    assert (AX : Rabs (val beta * val z + val alpha * X) <= B + A * D). { eapply Rle_trans; [apply Rabs_triang|]. fold B. apply Rplus_le_compat_l. rewrite Rabs_mult. fold A. apply Rmult_le_compat_l; lra. }
    set (T := u * B + eta + (u * (H2 + A * w) + eta) + ((G - 1) * (A * D) + A * w)) in *.
    assert (AV2 : Rabs (b0 + q) <= T + (B + A * D)). { replace (b0 + q) with ((b0 + q - (val beta * val z + val alpha * X)) + (val beta * val z + val alpha * X)) by ring. eapply Rle_trans; [apply Rabs_triang|]. lra. }
    assert (T1 : T + (B + A * D) <= (1 + u) * (H1 + H2) + H4 + 2 * eta). { unfold T. assert (u * B <= u * H1) by (apply Rmult_le_compat_l; lra). replace ((G - 1) * (A * D)) with (H2 - A * D) by (rewrite D2; ring). lra. }
    assert (T2 : (1 + u) * (T + (B + A * D)) <= (1 + u) * ((1 + u) * (H1 + H2) + H4 + 2 * eta)) by (apply Rmult_le_compat_l; lra).
    pose proof (sum_err t (fmul z beta) (fmul s alpha)) as Er. fold b0 q u in Er. assert (Er2 : Rabs (rnd t (b0 + q) - (b0 + q)) <= u * (T + (B + A * D))) by (eapply Rle_trans; [exact Er|apply Rmult_le_compat_l; lra]).
    destruct (fadd_comm_val (fmul z beta) (fmul s alpha) F1 F2) with (r := v) as [Vv Fv]; auto.
    { fold b0 q. replace (rnd t (b0 + q)) with ((rnd t (b0 + q) - (b0 + q)) + (b0 + q)) by ring. eapply Rle_lt_trans; [apply Rabs_triang|]. lra. }
    split; [exact Fv|]. rewrite Vv. fold b0 q.
    replace (rnd t (b0 + q) - (val beta * val z + val alpha * X)) with ((rnd t (b0 + q) - (b0 + q)) + (b0 + q - (val beta * val z + val alpha * X))) by ring. eapply Rle_trans; [apply Rabs_triang|].
    replace ((G * ((1 + u) * (1 + u)) - 1) * (B + A * D) + (k + 1) * G * (1 + (1 + u) * A) * eta) with ((1 + u) * (1 + u) * (H1 + H2) - (B + A * D) + (H3 + G * eta) + (1 + u) * (H4 + G * (A * eta))) by (rewrite D4, D3, D2, D1; ring). lra. Qed.
