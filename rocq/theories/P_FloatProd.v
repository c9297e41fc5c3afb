(** Rounding errors of products of floating-point numbers, however they are grouped *)
From Coq Require Import ZArith Reals List Lia Lra Bool.
From Flocq Require Import Core Relative BinarySingleNaN.
From Verif Require Import Base Spec Spec_Float Spec_FloatReduce Spec_FloatMatmul Spec_FloatProd P_ArangeFloat M_Float P_FloatOps P_FloatLinspace M_FloatReduce P_FloatSum.
Import ListNotations.
Local Open Scope R_scope.

Lemma smallest_pos t : 0 < smallest t. Proof. apply bpow_gt_0. Qed.
Lemma ge1_mul a b : 1 <= a -> 1 <= b -> 1 <= a * b. Proof. intros. nra. Qed.
Lemma rounded_plus t j k : rounded t (j + k) = rounded t j * rounded t k. Proof. apply pow_add. Qed.
(** numbers that are at least 1 do not underflow *)
Lemma rnd_up t m : 1 <= m -> rnd t m <= (1 + unit_roundoff t) * m.
Proof. intro H. pose proof (prec_range t) as P. pose proof (emax_range t) as E.
  pose proof (relative_error_N_FLT radix2 (3 - emax t - prec t) (prec t) ltac:(lia) (fun x => negb (Z.even x)) m) as X.
  assert (B : bpow radix2 (3 - emax t - prec t + prec t - 1) <= Rabs m). { rewrite Rabs_pos_eq by lra. apply Rle_trans with 1; [|exact H]. change 1 with (bpow radix2 0). apply bpow_le. lia. }
  specialize (X B). replace (/ 2 * bpow radix2 (- prec t + 1)) with (unit_roundoff t) in X. 2: { unfold unit_roundoff, two. rewrite bpow_plus. change (bpow radix2 1) with 2. field. }
  rewrite (Rabs_pos_eq m) in X by lra. pose proof (Rle_abs (rnd t m - m)) as Y. unfold rnd in *. lra. Qed.
Lemma rnd_abs_up t z m : 1 <= m -> Rabs z <= m -> Rabs (rnd t z) <= (1 + unit_roundoff t) * m.
Proof. intros H1 H2. apply Rle_trans with (rnd t m); [|now apply rnd_up]. apply Rabs_le. split.
  - rewrite <- rnd_opp. apply rnd_le. pose proof (Rle_abs (- z)) as N. rewrite Rabs_Ropp in N. lra.
  - apply rnd_le. pose proof (Rle_abs z). lra. Qed.

(** ** the exact values that accompany an accumulator: product, growth, number of factors, number of factors that do not qualify *)
Definition ps_one : shadow := ((1, 1), (0, 0)%nat).
Definition ps_mul (x y : shadow) : shadow := ((fst (fst x) * fst (fst y), snd (fst x) * snd (fst y)), (fst (snd x) + fst (snd y), snd (snd x) + snd (snd y))%nat).
Lemma ps_monoid : comm_monoid ps_one ps_mul.
Proof. split; [|split].
  - intros [[a b] [c d]] [[a' b'] [c' d']] [[a'' b''] [c'' d'']]. unfold ps_mul. cbn [fst snd]. rewrite !Rmult_assoc, !Nat.add_assoc. reflexivity.
  - intros [[a b] [c d]] [[a' b'] [c' d']]. unfold ps_mul. cbn [fst snd]. rewrite (Rmult_comm a), (Rmult_comm b), (Nat.add_comm c), (Nat.add_comm d). reflexivity.
  - intros [[a b] [c d]]. unfold ps_mul, ps_one. cbn [fst snd]. rewrite !Rmult_1_l. reflexivity. Qed.
Definition ps_of {t} (qualifies : float t -> bool) (x : float t) : shadow := ((val x, Rmax 1 (Rabs (val x))), (1, if qualifies x then 0 else 1)%nat).
Lemma ps_total {t} q (xs : list (float t)) : total ps_one ps_mul (map (ps_of q) xs) = ((exact_prod xs, growth xs), (length xs, length (filter (fun x => negb (q x)) xs))).
Proof. unfold total. induction xs as [|x xs IH]; [reflexivity|]. cbn [map fold_right]. rewrite IH. unfold ps_mul, ps_of. cbn [fst snd filter length]. f_equal. f_equal. destruct (q x); reflexivity. Qed.
Definition ps_ok (s : shadow) : Prop := let '((P, U), (n, _)) := s in 1 <= U /\ Rabs P <= U /\ (n = 0%nat -> P = 1 /\ U = 1).
Lemma ps_mul_ok x y : ps_ok x -> ps_ok y -> ps_ok (ps_mul x y).
Proof. destruct x as [[P U] [n b]], y as [[P' U'] [n' b']]. unfold ps_ok, ps_mul. cbn [fst snd]. intros (H1 & H2 & H3) (H1' & H2' & H3'). split; [nra|]. split.
  - rewrite Rabs_mult. apply Rmult_le_compat; auto using Rabs_pos.
  - intro E. destruct H3 as [-> ->]; [lia|]. destruct H3' as [-> ->]; [lia|]. lra. Qed.
Lemma ps_of_ok {t} q (x : float t) : ps_ok (ps_of q x).
Proof. unfold ps_ok, ps_of. split; [apply Rmax_l|]. split; [apply Rmax_r|discriminate]. Qed.
Lemma ps_one_ok : ps_ok ps_one. Proof. unfold ps_ok, ps_one. split; [lra|]. split; [rewrite Rabs_pos_eq; lra|auto]. Qed.

(** ** products with rounding *)
Definition nearp {t} (v : float t) (sh : shadow) : Prop :=
  ps_ok sh /\ let '((P, U), (n, bad)) := sh in bad = 0%nat -> rounded t (n - 1) * U < two (emax t) ->
    finite v /\ Rabs (val v - P) <= (rounded t (n - 1) - 1) * Rabs P + INR (n - 1) * rounded t (n - 1) * U * smallest t /\ Rabs (val v) <= rounded t (n - 1) * U /\ (P = 0 -> val v = 0).
Lemma one_val t : val (of_int 1 : float t) = 1 /\ finite (of_int 1 : float t). Proof. apply (int_val t 1). destruct t; cbn; lia. Qed.
Lemma nearp_one {t} : nearp (of_int 1 : float t) ps_one.
Proof. split; [apply ps_one_ok|]. destruct (one_val t) as [V F]. unfold ps_one. cbn [Nat.sub INR]. rewrite V. intros _ _. split; [exact F|]. unfold rounded. cbn [pow]. replace (1 - 1) with 0 by ring. rewrite Rabs_R0, (Rabs_pos_eq 1) by lra. split; [lra|]. split; lra. Qed.
Lemma nearp_of {t} (x : float t) : nearp x (ps_of is_finite x).
Proof. split; [apply ps_of_ok|]. unfold ps_of. cbn [Nat.sub INR]. intros E _. unfold rounded. cbn [pow]. split; [unfold finite; destruct (is_finite x); congruence|]. split; [|split].
  - replace (val x - val x) with 0 by ring. rewrite Rabs_R0. lra.
  - rewrite Rmult_1_l. apply Rmax_r.
  - auto. Qed.
Lemma times_one t (x y : float t) : finite x -> finite y -> val x = 1 -> val (fmul x y) = val y /\ finite (fmul x y).
Proof. intros Fx Fy E. destruct (fmul_val t x y Fx Fy) as [A B]; rewrite E, Rmult_1_l, rnd_id in * by apply val_format; auto. apply val_lt. Qed.
Lemma one_times t (x y : float t) : finite x -> finite y -> val y = 1 -> val (fmul x y) = val x /\ finite (fmul x y).
Proof. intros Fx Fy E. destruct (fmul_val t x y Fx Fy) as [A B]; rewrite E, Rmult_1_r, rnd_id in * by apply val_format; auto. apply val_lt. Qed.
Lemma prod_grow x y P P' r r' d d' U U' : 1 <= r -> 1 <= r' -> 0 <= d -> 0 <= d' -> Rabs P <= U -> Rabs P' <= U' -> Rabs x <= r * U -> Rabs (x - P) <= (r - 1) * Rabs P + d -> Rabs (y - P') <= (r' - 1) * Rabs P' + d' ->
  Rabs (x * y - P * P') <= (r * r' - 1) * Rabs (P * P') + r' * U' * d + r * U * d'.
Proof. intros R1 R2 D1 D2 B1 B2 X E E'. replace (x * y - P * P') with (x * (y - P') + P' * (x - P)) by ring. eapply Rle_trans; [apply Rabs_triang|]. rewrite !Rabs_mult. set (p := Rabs P) in *. set (q := Rabs P') in *. pose proof (Rabs_pos P) as P0. pose proof (Rabs_pos P') as Q0. fold p in P0. fold q in Q0. pose proof (Rabs_pos x) as X0.
  assert (X2 : Rabs x <= r * p + d). { replace x with ((x - P) + P) by ring. eapply Rle_trans; [apply Rabs_triang|]. fold p. lra. }
  assert (T1 : Rabs x * Rabs (y - P') <= Rabs x * ((r' - 1) * q + d')) by (apply Rmult_le_compat_l; auto).
  assert (T2 : Rabs x * ((r' - 1) * q) <= (r * p + d) * ((r' - 1) * q)) by (apply Rmult_le_compat_r; [apply Rmult_le_pos; lra|exact X2]).
  assert (T3 : Rabs x * d' <= r * U * d') by (apply Rmult_le_compat_r; auto).
  assert (T4 : q * Rabs (x - P) <= q * ((r - 1) * p + d)) by (apply Rmult_le_compat_l; auto).
  assert (T5 : r' * q * d <= r' * U' * d). { apply Rmult_le_compat_r; auto. apply Rmult_le_compat_l; lra. }
  replace ((r * r' - 1) * (p * q)) with (r * p * ((r' - 1) * q) + q * ((r - 1) * p)) by ring. replace ((r * p + d) * ((r' - 1) * q)) with (r * p * ((r' - 1) * q) + d * (r' - 1) * q) in T2 by ring. replace (q * ((r - 1) * p + d)) with (q * ((r - 1) * p) + q * d) in T4 by ring.
  replace (r' * q * d) with (d * (r' - 1) * q + q * d) in T5 by ring. lra. Qed.
Lemma nearp_mul {t} (x y : float t) s s' : nearp x s -> nearp y s' -> nearp (fmul x y) (ps_mul s s').
Proof. intros [K N] [K' N']. split; [now apply ps_mul_ok|]. destruct s as [[P U] [n b]], s' as [[P' U'] [n' b']]. unfold ps_ok, ps_mul in *. cbn [fst snd] in *. intros B L. destruct K as (K1 & K2 & K3), K' as (K1' & K2' & K3').
  pose proof (rounded_le t (n - 1) (n + n' - 1) ltac:(lia)) as G. pose proof (rounded_le t (n' - 1) (n + n' - 1) ltac:(lia)) as G'. pose proof (rounded_1 t (n - 1)) as G1. pose proof (rounded_1 t (n' - 1)) as G1'.
  assert (L1 : rounded t (n - 1) * U < two (emax t)). { eapply Rle_lt_trans; [|exact L]. apply Rmult_le_compat; try lra. rewrite <- (Rmult_1_r U) at 1. apply Rmult_le_compat_l; lra. }
  assert (L2 : rounded t (n' - 1) * U' < two (emax t)). { eapply Rle_lt_trans; [|exact L]. apply Rmult_le_compat; try lra. rewrite <- (Rmult_1_l U') at 1. apply Rmult_le_compat_r; lra. }
  destruct N as (F & E & A & Z); [lia|exact L1|]. destruct N' as (F' & E' & A' & Z'); [lia|exact L2|].
  destruct (Nat.eq_dec n 0) as [Y|Y].
  { destruct (K3 Y) as [-> ->]. subst n. cbn [Nat.add]. assert (Vx : val x = 1). { cbn in E. unfold rounded in E. cbn in E. assert (Rabs (val x - 1) <= 0) as X by lra. apply abs_0 in X. lra. }
    destruct (times_one t x y F F' Vx) as [-> Fa]. rewrite !Rmult_1_l. auto. }
  destruct (Nat.eq_dec n' 0) as [Y'|Y'].
  { destruct (K3' Y') as [-> ->]. subst n'. rewrite Nat.add_0_r. assert (Vy : val y = 1). { cbn in E'. unfold rounded in E'. cbn in E'. assert (Rabs (val y - 1) <= 0) as X by lra. apply abs_0 in X. lra. }
    destruct (one_times t x y F F' Vy) as [-> Fa]. rewrite !Rmult_1_r. auto. }
  assert (RR : rounded t (n + n' - 1) = rounded t (n - 1) * rounded t (n' - 1) * (1 + unit_roundoff t)). { replace (n + n' - 1)%nat with (S ((n - 1) + (n' - 1))) by lia. rewrite rounded_S, rounded_plus. reflexivity. }
  assert (KK : INR (n + n' - 1) = INR (n - 1) + INR (n' - 1) + 1). { replace (n + n' - 1)%nat with ((n - 1) + (n' - 1) + 1)%nat by lia. rewrite !plus_INR. reflexivity. }
  rewrite RR, KK in *. clear RR KK G G'. pose proof (pos_INR (n - 1)) as k0. pose proof (pos_INR (n' - 1)) as k0'. pose proof (unit_pos t) as U0. pose proof (smallest_pos t) as S0. set (r := rounded t (n - 1)) in *. set (r' := rounded t (n' - 1)) in *. set (kk := INR (n - 1)) in *. set (kk' := INR (n' - 1)) in *. set (u := unit_roundoff t) in *. set (sm := smallest t) in *.
  set (z := val x * val y). assert (Ar : 1 <= r * U) by (apply ge1_mul; lra). assert (Ar' : 1 <= r' * U') by (apply ge1_mul; lra). assert (Az : Rabs z <= r * U * (r' * U')). { unfold z. rewrite Rabs_mult. apply Rmult_le_compat; auto using Rabs_pos. }
  assert (M1 : 1 <= r * U * (r' * U')) by (apply ge1_mul; lra).
  pose proof (rnd_abs_up t z _ M1 Az) as Rz. fold u in Rz. assert (Rv : Rabs (rnd t z) < two (emax t)) by (eapply Rle_lt_trans; [exact Rz|]; eapply Rle_lt_trans; [|exact L]; right; ring).
  destruct (fmul_val t x y F F' Rv) as [-> Fa]. fold z. split; auto. split; [|split].
  - pose proof (prod_grow (val x) (val y) P P' r r' (kk * r * U * sm) (kk' * r' * U' * sm) U U' G1 G1') as W. fold z in W.
    assert (W' : Rabs (z - P * P') <= (r * r' - 1) * Rabs (P * P') + (kk + kk') * (r * U * (r' * U')) * sm).
    { eapply Rle_trans; [apply W; auto; repeat apply Rmult_le_pos; lra|]. right. ring. }
    clear W. pose proof (rnd_err t z) as Er. fold u sm in Er. assert (Zb : Rabs z <= Rabs (P * P') + Rabs (z - P * P')). { replace z with (P * P' + (z - P * P')) at 1 by ring. apply Rabs_triang. }
    replace (rnd t z - P * P') with ((rnd t z - z) + (z - P * P')) by ring. eapply Rle_trans; [apply Rabs_triang|]. set (q := Rabs (P * P')) in *. set (M := r * U * (r' * U')) in *. set (e := Rabs (z - P * P')) in *.
    replace ((kk + kk' + 1) * (r * r' * (1 + u)) * (U * U') * sm) with ((1 + u) * ((kk + kk') * M * sm) + (1 + u) * M * sm) by (unfold M; ring).
    assert (u * Rabs z <= u * (q + e)) by (apply Rmult_le_compat_l; lra). assert (sm <= (1 + u) * M * sm). { rewrite <- (Rmult_1_l sm) at 1. apply Rmult_le_compat_r; [lra|]. apply ge1_mul; lra. }
    assert ((1 + u) * e <= (1 + u) * ((r * r' - 1) * q + (kk + kk') * M * sm)) by (apply Rmult_le_compat_l; lra). replace ((r * r' * (1 + u) - 1) * q) with ((1 + u) * ((r * r' - 1) * q) + u * q) by ring. lra.
  - eapply Rle_trans; [exact Rz|]. right. ring.
  - intro H. apply Rmult_integral in H. assert (z = 0) as ->. { unfold z. destruct H as [H|H]; [rewrite (Z H)|rewrite (Z' H)]; ring. } apply rnd_id, generic_format_0. Qed.

(** ** products without rounding *)
Definition hitp {t} (v : float t) (sh : shadow) : Prop :=
  ps_ok sh /\ let '((P, U), (n, bad)) := sh in bad = 0%nat -> U <= two (prec t) -> finite v /\ val v = P /\ multiple_of 0 P.
Lemma hitp_one {t} : hitp (of_int 1 : float t) ps_one.
Proof. split; [apply ps_one_ok|]. destruct (one_val t) as [V F]. cbn. intros _ _. split; [exact F|]. split; [exact V|]. exists 1%Z. change (two 0) with 1. lra. Qed.
Lemma hitp_of {t} (x : float t) : hitp x (ps_of (is_multiple 0) x).
Proof. split; [apply ps_of_ok|]. destruct (hit_of 0 x) as [_ H]. unfold sh_of in H. unfold ps_of. intros E L. apply H; auto. rewrite Z.add_0_l. eapply Rle_trans; [apply Rmax_r|exact L]. Qed.
Lemma hitp_mul {t} (x y : float t) s s' : hitp x s -> hitp y s' -> hitp (fmul x y) (ps_mul s s').
Proof. intros [K N] [K' N']. split; [now apply ps_mul_ok|]. destruct s as [[P U] [n b]], s' as [[P' U'] [n' b']]. unfold ps_ok, ps_mul in *. cbn [fst snd] in *. intros B L. destruct K as (K1 & K2 & K3), K' as (K1' & K2' & K3').
  assert (U <= U * U') by nra. assert (U' <= U * U') by nra. destruct N as (F & V & M); [lia|lra|]. destruct N' as (F' & V' & M'); [lia|lra|].
  assert (Ms : multiple_of 0 (P * P')). { destruct M as (m & ->), M' as (m' & ->). exists (m * m')%Z. rewrite mult_IZR. change (two 0) with 1. ring. }
  assert (As : Rabs (P * P') <= two (0 + prec t)). { rewrite Z.add_0_l. eapply Rle_trans; [|exact L]. rewrite Rabs_mult. apply Rmult_le_compat; auto using Rabs_pos. }
  pose proof (emax_range t) as Em. pose proof (prec_range t) as Pr. pose proof (multiple_format t 0 _ ltac:(lia) Ms As) as G.
  destruct (fmul_val t x y F F') as [E Fa]; rewrite V, V', (rnd_id t _ G) in *; [|auto]. eapply Rle_lt_trans; [exact As|]. apply two_lt. lia. Qed.

(** ** roots *)
Lemma sqrt_near a b rho d : 0 <= a -> 0 <= b -> 1 <= rho -> 0 <= d -> Rabs (a - b) <= (rho - 1) * b + d -> Rabs (sqrt a - sqrt b) <= (rho - 1) * sqrt b + sqrt d.
Proof. intros A B R D H. pose proof (sqrt_pos a) as A0. pose proof (sqrt_pos b) as B0. pose proof (sqrt_pos d) as D0. pose proof (sqrt_sqrt a A) as A1. pose proof (sqrt_sqrt b B) as B1. pose proof (sqrt_sqrt d D) as D1.
  set (x := sqrt a) in *. set (y := sqrt b) in *. set (w := sqrt d) in *. rewrite <- A1, <- B1, <- D1 in H. clearbody x y w. clear A B D A1 B1 D1 a b d. pose proof (Rle_abs (x * x - y * y)) as H1. pose proof (Rle_abs (- (x * x - y * y))) as H2. rewrite Rabs_Ropp in H2. apply Rabs_le. split.
  - destruct (Rle_lt_dec ((2 - rho) * y - w) x) as [C|C]; [lra|]. exfalso. assert (0 <= (2 - rho) * y - w) by lra. assert (rho <= 2) by (destruct (Rle_lt_dec rho 2); auto; nra). assert (X : x * x < ((2 - rho) * y - w) * ((2 - rho) * y - w)) by nra.
    assert (Y : w * w <= (2 - rho) * y * w) by nra. assert ((2 - rho) * y * ((2 - rho) * y) <= (2 - rho) * (y * y)). { replace ((2 - rho) * y * ((2 - rho) * y)) with ((2 - rho) * ((2 - rho) * (y * y))) by ring. apply Rmult_le_compat_l; [lra|]. rewrite <- (Rmult_1_l (y * y)) at 2. apply Rmult_le_compat_r; nra. } nra.
  - destruct (Rle_lt_dec x (rho * y + w)) as [C|C]; [lra|]. exfalso. assert (0 <= rho * y) by nra. assert (X : (rho * y + w) * (rho * y + w) < x * x) by nra. assert (rho * (y * y) <= rho * y * (rho * y)) by (replace (rho * y * (rho * y)) with (rho * (rho * (y * y))) by ring; apply Rmult_le_compat_l; [lra|]; rewrite <- (Rmult_1_l (y * y)) at 1; apply Rmult_le_compat_r; nra). nra. Qed.
Definition nonneg {t} (x : float t) : Prop := is_finite x = true -> 0 <= val x.
Lemma fsqrt_val t (x : float t) : finite x -> 0 <= val x -> val (fsqrt x) = rnd t (sqrt (val x)) /\ finite (fsqrt x).
Proof. intros F N. destruct (@Bsqrt_correct _ _ (prec_ok t) (emax_ok t) mode_NE x) as (A & B & _). split; [exact A|]. unfold finite, fsqrt. rewrite B. destruct x as [s|s| |s m e H]; try reflexivity; try discriminate F. destruct s; [|reflexivity]. exfalso. unfold val in N. cbn [B2R] in N. apply Rle_not_lt in N. apply N. apply F2R_lt_0. reflexivity. Qed.
Lemma nonneg_add t (x y : float t) : nonneg x -> nonneg y -> nonneg (fadd x y).
Proof. intros Hx Hy F. assert (Fx : finite x /\ finite y). { split; destruct x as [s|s| |s m e H], y as [s'|s'| |s' m' e' H']; try reflexivity; try discriminate F; revert F; unfold fadd; cbn; try destruct s; try destruct s'; cbn; discriminate. }
  destruct Fx as [Fx Fy]. specialize (Hx Fx). specialize (Hy Fy). destruct (Rlt_le_dec (Rabs (rnd t (val x + val y))) (two (emax t))) as [L|L].
  - destruct (fadd_val t x y Fx Fy L) as [-> _]. rewrite <- (rnd_id t 0) by apply generic_format_0. apply rnd_le. lra.
  - exfalso. pose proof (@Bplus_correct _ _ (prec_ok t) (emax_ok t) mode_NE x y Fx Fy) as H. cbv zeta in H. rewrite Rlt_bool_false in H by exact L. destruct H as [H _]. unfold fadd in F. destruct (Bplus mode_NE x y) as [s|s| |s m e He]; cbn in H; try discriminate H; try discriminate F; destruct (Bsign x); discriminate H. Qed.
Lemma nonneg_square t (x : float t) : nonneg (fmul x x).
Proof. intros F. destruct (is_finite x) eqn:Fx; [|destruct x; try discriminate Fx; try discriminate F; destruct s; discriminate F]. destruct (Rlt_le_dec (Rabs (rnd t (val x * val x))) (two (emax t))) as [L|L].
  - destruct (fmul_val t x x Fx Fx L) as [-> _]. rewrite <- (rnd_id t 0) by apply generic_format_0. apply rnd_le. nra.
  - exfalso. pose proof (@Bmult_correct _ _ (prec_ok t) (emax_ok t) mode_NE x x) as H. rewrite Rlt_bool_false in H by exact L. unfold fmul in F. destruct (Bmult mode_NE x x) as [s|s| |s m e He]; cbn in H; try discriminate H; try discriminate F; destruct (Bsign x); discriminate H. Qed.
