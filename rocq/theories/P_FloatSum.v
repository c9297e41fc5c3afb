(** Rounding errors of sums of floating-point numbers, however they are grouped *)
From Coq Require Import ZArith Reals List Lia Lra Bool.
From Flocq Require Import Core Relative BinarySingleNaN.
From Verif Require Import Base Spec Spec_Float Spec_FloatReduce P_ArangeFloat M_Float P_FloatOps M_FloatReduce.
Import ListNotations.
Local Open Scope R_scope.

Lemma unit_pos t : 0 < unit_roundoff t. Proof. apply bpow_gt_0. Qed.
Lemma rounded_1 t k : 1 <= rounded t k. Proof. unfold rounded. apply pow_R1_Rle. pose proof (unit_pos t). lra. Qed.
Lemma rounded_le t j k : (j <= k)%nat -> rounded t j <= rounded t k.
Proof. intro H. unfold rounded. apply Rle_pow; auto. pose proof (unit_pos t). lra. Qed.
Lemma rounded_S t k : rounded t (S k) = rounded t k * (1 + unit_roundoff t). Proof. unfold rounded. cbn. ring. Qed.
(** sums of numbers of the type do not underflow *)
Lemma sum_err t (x y : float t) : Rabs (rnd t (val x + val y) - (val x + val y)) <= unit_roundoff t * Rabs (val x + val y).
Proof. assert (G : forall z : float t, exists m : Z, val z = IZR m * bpow radix2 (3 - emax t - prec t)).
  { intro z. pose proof (val_format t z) as F. apply generic_format_FIX_FLT in F. apply FIX_format_generic in F. destruct F as [f E1 E2]. exists (Fnum f). rewrite E1. unfold F2R. now rewrite E2. }
  destruct (G x) as (m & ->), (G y) as (n & ->). rewrite <- Rmult_plus_distr_r, <- plus_IZR. pose proof (prec_range t) as P.
  pose proof (relative_error_N_FLT_F2R_emin radix2 (3 - emax t - prec t) (prec t) ltac:(lia) (fun x => negb (Z.even x)) (m + n)) as H. unfold F2R in H. cbn [Fnum Fexp] in H.
  replace (/ 2 * bpow radix2 (- prec t + 1)) with (unit_roundoff t) in H; [exact H|]. unfold unit_roundoff, two. rewrite bpow_plus. change (bpow radix2 1) with 2. field. Qed.

(** ** the exact values that accompany an accumulator: sum, sum of magnitudes, number of summands, number of summands that do not qualify *)
Definition shadow : Type := (R * R) * (nat * nat).
Definition sh_zero : shadow := ((0, 0), (0, 0)%nat).
Definition sh_add (x y : shadow) : shadow := ((fst (fst x) + fst (fst y), snd (fst x) + snd (fst y)), (fst (snd x) + fst (snd y), snd (snd x) + snd (snd y))%nat).
Lemma sh_monoid : comm_monoid sh_zero sh_add.
Proof. split; [|split].
  - intros [[a b] [c d]] [[a' b'] [c' d']] [[a'' b''] [c'' d'']]. unfold sh_add. cbn [fst snd]. rewrite !Rplus_assoc, !Nat.add_assoc. reflexivity.
  - intros [[a b] [c d]] [[a' b'] [c' d']]. unfold sh_add. cbn [fst snd]. rewrite (Rplus_comm a), (Rplus_comm b), (Nat.add_comm c), (Nat.add_comm d). reflexivity.
  - intros [[a b] [c d]]. unfold sh_add, sh_zero. cbn [fst snd]. rewrite !Rplus_0_l. reflexivity. Qed.
Section Of.
  Context {t : float_type} (qualifies : float t -> bool).
  Definition sh_of (x : float t) : shadow := ((val x, Rabs (val x)), (1, if qualifies x then 0 else 1)%nat).
  Lemma sh_total xs : total sh_zero sh_add (map sh_of xs) = ((exact_sum xs, magnitude xs), (length xs, length (filter (fun x => negb (qualifies x)) xs))).
  Proof. unfold total. induction xs as [|x xs IH]; [reflexivity|]. cbn [map fold_right]. rewrite IH. unfold sh_add, sh_of. cbn [fst snd filter length]. f_equal. f_equal. destruct (qualifies x); reflexivity. Qed.
  Lemma sh_good xs : (forall x, In x xs -> qualifies x = true) -> length (filter (fun x => negb (qualifies x)) xs) = 0%nat.
  Proof. induction xs as [|x xs IH]; intro H; [reflexivity|]. cbn. rewrite (H x) by now left. apply IH. intros; apply H. now right. Qed.
End Of.
Definition sh_ok (s : shadow) : Prop := let '((W, A), (n, _)) := s in 0 <= A /\ Rabs W <= A /\ (n = 0%nat -> A = 0).
Lemma sh_add_ok x y : sh_ok x -> sh_ok y -> sh_ok (sh_add x y).
Proof. destruct x as [[W A] [n b]], y as [[W' A'] [n' b']]. unfold sh_ok, sh_add. cbn [fst snd]. intros (H1 & H2 & H3) (H1' & H2' & H3'). split; [lra|]. split; [eapply Rle_trans; [apply Rabs_triang|lra]|]. intro E. rewrite H3, H3' by lia. lra. Qed.
Lemma sh_of_ok {t} q (x : float t) : sh_ok (sh_of q x).
Proof. unfold sh_ok, sh_of. split; [apply Rabs_pos|]. split; [lra|discriminate]. Qed.

(** ** sums with rounding *)
Definition near {t} (s : float t) (sh : shadow) : Prop :=
  sh_ok sh /\ let '((W, A), (n, bad)) := sh in bad = 0%nat -> rounded t (n - 1) * A < two (emax t) -> finite s /\ Rabs (val s - W) <= (rounded t (n - 1) - 1) * A.
Lemma near_zero {t} : near (fzero : float t) sh_zero.
Proof. split; [split; [lra|split; [rewrite Rabs_R0; lra|reflexivity]]|]. cbn. intros _ _. split; [reflexivity|]. unfold val. cbn. rewrite Rminus_0_r, Rabs_R0. lra. Qed.
Lemma near_of {t} (x : float t) : near x (sh_of is_finite x).
Proof. split; [apply sh_of_ok|]. cbn. intros E _. split; [unfold finite; destruct (is_finite x); congruence|]. unfold Rminus. rewrite Rplus_opp_r, Rabs_R0, Rplus_opp_r. pose proof (Rabs_pos (val x)). lra. Qed.
Lemma zero_add t (x y : float t) : finite x -> finite y -> val x = 0 -> val (fadd x y) = val y /\ finite (fadd x y).
Proof. intros Fx Fy E. destruct (fadd_val t x y Fx Fy) as [A B]; rewrite E, Rplus_0_l, rnd_id in * by apply val_format; auto. apply val_lt. Qed.
Lemma add_zero t (x y : float t) : finite x -> finite y -> val y = 0 -> val (fadd x y) = val x /\ finite (fadd x y).
Proof. intros Fx Fy E. destruct (fadd_val t x y Fx Fy) as [A B]; rewrite E, Rplus_0_r, rnd_id in * by apply val_format; auto. apply val_lt. Qed.
Lemma abs_0 x : Rabs x <= 0 -> x = 0.
Proof. intro H. pose proof (Rle_abs x). pose proof (Rle_abs (- x)) as N. rewrite Rabs_Ropp in N. lra. Qed.
Lemma near_add {t} (x y : float t) s s' : near x s -> near y s' -> near (fadd x y) (sh_add s s').
Proof. intros [K N] [K' N']. split; [now apply sh_add_ok|]. destruct s as [[W A] [n b]], s' as [[W' A'] [n' b']]. unfold sh_ok, sh_add in *. cbn [fst snd] in *. intros B L. destruct K as (K1 & K2 & K3), K' as (K1' & K2' & K3').
  pose proof (rounded_le t (n - 1) (n + n' - 1) ltac:(lia)) as G. pose proof (rounded_le t (n' - 1) (n + n' - 1) ltac:(lia)) as G'. pose proof (rounded_1 t (n - 1)) as G1. pose proof (rounded_1 t (n' - 1)) as G1'.
  assert (L1 : rounded t (n - 1) * A < two (emax t)). { eapply Rle_lt_trans; [|exact L]. apply Rmult_le_compat; lra. }
  assert (L2 : rounded t (n' - 1) * A' < two (emax t)). { eapply Rle_lt_trans; [|exact L]. apply Rmult_le_compat; lra. }
  destruct N as [F E]; [lia|exact L1|]. destruct N' as [F' E']; [lia|exact L2|].
  destruct (Nat.eq_dec n 0) as [Z|Z].
  { rewrite (K3 Z) in *. assert (W = 0) as -> by (apply abs_0; lra). assert (Vx : val x = 0) by (apply abs_0; rewrite Rminus_0_r in E; lra). subst n. cbn [Nat.add]. destruct (zero_add t x y F F' Vx) as [-> Fa]. split; auto. now rewrite !Rplus_0_l. }
  destruct (Nat.eq_dec n' 0) as [Z'|Z'].
  { rewrite (K3' Z') in *. assert (W' = 0) as -> by (apply abs_0; lra). assert (Vy : val y = 0) by (apply abs_0; rewrite Rminus_0_r in E'; lra). subst n'. rewrite Nat.add_0_r. destruct (add_zero t x y F F' Vy) as [-> Fa]. split; auto. now rewrite !Rplus_0_r. }
  set (m := (Nat.max n n' - 1)%nat). pose proof (rounded_le t (n - 1) m ltac:(lia)) as H. pose proof (rounded_le t (n' - 1) m ltac:(lia)) as H'. pose proof (rounded_le t (Datatypes.S m) (n + n' - 1) ltac:(lia)) as Hm. rewrite rounded_S in Hm. pose proof (rounded_1 t m) as Gm. pose proof (unit_pos t) as U.
  set (g := rounded t m) in *. set (u := unit_roundoff t) in *. set (v := val x + val y).
  assert (Ev : Rabs (v - (W + W')) <= (g - 1) * (A + A')).
  { unfold v. replace (val x + val y - (W + W')) with ((val x - W) + (val y - W')) by ring. eapply Rle_trans; [apply Rabs_triang|]. rewrite Rmult_plus_distr_l. apply Rplus_le_compat; (eapply Rle_trans; [eassumption|apply Rmult_le_compat_r; lra]). }
  assert (Av : Rabs v <= g * (A + A')). { replace v with ((v - (W + W')) + (W + W')) by ring. eapply Rle_trans; [apply Rabs_triang|]. pose proof (Rabs_triang W W'). lra. }
  pose proof (sum_err t x y) as Er. fold v u in Er.
  assert (Er2 : Rabs (rnd t v - v) <= u * (g * (A + A'))) by (eapply Rle_trans; [exact Er|apply Rmult_le_compat_l; lra]).
  assert (Hm2 : g * (1 + u) * (A + A') <= rounded t (n + n' - 1) * (A + A')) by (apply Rmult_le_compat_r; lra).
  assert (Rv : Rabs (rnd t v) < two (emax t)). { replace (rnd t v) with ((rnd t v - v) + v) by ring. eapply Rle_lt_trans; [apply Rabs_triang|]. eapply Rle_lt_trans; [|exact L]. lra. }
  destruct (fadd_val t x y F F' Rv) as [-> Fa]. split; auto. fold v. replace (rnd t v - (W + W')) with ((rnd t v - v) + (v - (W + W'))) by ring. eapply Rle_trans; [apply Rabs_triang|]. lra. Qed.

(** ** sums without rounding *)
Definition is_multiple {t} (k : Z) (x : float t) : bool := is_finite x && Req_bool (val x) (IZR (Zfloor (val x * two (- k))) * two k).
Lemma multiple_bool {t} k (x : float t) : finite x -> multiple_of k (val x) -> is_multiple k x = true.
Proof. intros F (m & E). unfold is_multiple. rewrite F. cbn. apply Req_bool_true. rewrite E at 2. rewrite Rmult_assoc. unfold two. rewrite <- bpow_plus. replace (k + - k)%Z with 0%Z by ring. cbn [bpow]. rewrite Rmult_1_r, Zfloor_IZR. exact E. Qed.
Definition hit {t} (k : Z) (s : float t) (sh : shadow) : Prop :=
  sh_ok sh /\ let '((W, A), (n, bad)) := sh in bad = 0%nat -> A <= two (k + prec t) -> finite s /\ val s = W /\ multiple_of k W.
Lemma hit_zero {t} k : hit k (fzero : float t) sh_zero.
Proof. split; [split; [lra|split; [rewrite Rabs_R0; lra|reflexivity]]|]. cbn. intros _ _. split; [reflexivity|]. split; [reflexivity|]. exists 0%Z. ring. Qed.
Lemma hit_of {t} k (x : float t) : hit k x (sh_of (is_multiple k) x).
Proof. split; [apply sh_of_ok|]. cbn. intros E _. destruct (is_multiple k x) eqn:M; [|discriminate]. unfold is_multiple in M. apply andb_true_iff in M as [F M]. split; [exact F|]. split; [reflexivity|]. revert M. case Req_bool_spec; [|discriminate]. intros M _. eexists. exact M. Qed.
Lemma multiple_format t k x : (3 - emax t - prec t <= k)%Z -> multiple_of k x -> Rabs x <= two (k + prec t) -> generic_format radix2 (fexpt t) x.
Proof. intros K (m & ->) H. pose proof (prec_range t) as P. assert (B : (Z.abs m <= 2 ^ prec t)%Z).
  { apply le_IZR. rewrite abs_IZR. apply Rmult_le_reg_r with (two k); [apply bpow_gt_0|]. replace (Rabs (IZR m) * two k) with (Rabs (IZR m * two k)) by (rewrite Rabs_mult, (Rabs_pos_eq (two k)); [reflexivity|apply bpow_ge_0]). eapply Rle_trans; [exact H|]. right. unfold two. rewrite bpow_plus, Rmult_comm. f_equal. rewrite <- IZR_Zpower by lia. reflexivity. }
  destruct (Z.eq_dec (Z.abs m) (2 ^ prec t)) as [E|E].
  - assert (G : generic_format radix2 (fexpt t) (bpow radix2 (prec t + k))). { apply generic_format_bpow. unfold FLT_exp. lia. }
    rewrite bpow_plus, <- IZR_Zpower in G by lia. change (Zpower radix2 (prec t)) with (2 ^ prec t)%Z in G. destruct (Z.abs_spec m) as [[_ W]|[_ W]]; rewrite W in E.
    + now rewrite E.
    + replace m with (- 2 ^ prec t)%Z by lia. rewrite opp_IZR, Ropp_mult_distr_l_reverse. now apply generic_format_opp.
  - apply generic_format_FLT. exists (Float radix2 m k); cbn [Fnum Fexp]; [reflexivity| |lia]. change (Zpower radix2 (prec t)) with (2 ^ prec t)%Z. lia. Qed.
Lemma hit_add {t} k (x y : float t) s s' : (3 - emax t - prec t <= k)%Z -> (k + prec t < emax t)%Z -> hit k x s -> hit k y s' -> hit k (fadd x y) (sh_add s s').
Proof. intros Hk1 Hk2 [K N] [K' N']. split; [now apply sh_add_ok|]. destruct s as [[W A] [n b]], s' as [[W' A'] [n' b']]. unfold sh_ok, sh_add in *. cbn [fst snd] in *. intros B L. destruct K as (K1 & K2 & K3), K' as (K1' & K2' & K3').
  destruct N as (F & V & M); [lia|lra|]. destruct N' as (F' & V' & M'); [lia|lra|]. assert (Ms : multiple_of k (W + W')). { destruct M as (m & ->), M' as (m' & ->). exists (m + m')%Z. rewrite plus_IZR. ring. }
  assert (As : Rabs (W + W') <= two (k + prec t)). { pose proof (Rabs_triang W W'). lra. } pose proof (multiple_format t k _ Hk1 Ms As) as G.
  destruct (fadd_val t x y F F') as [E Fa]; rewrite V, V', (rnd_id t _ G) in *; [|auto]. eapply Rle_lt_trans; [exact As|]. now apply two_lt. Qed.
