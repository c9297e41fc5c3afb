(** linspace of complex floating-point numbers: rounding errors of each part *)
From Coq Require Import ZArith Reals List Lia Lra Bool.
From Flocq Require Import Core Relative BinarySingleNaN.
From Verif Require Import Base P_ArangeFloat M_Float Spec_Float P_FloatOps P_FloatLinspace P_FloatSum M_FloatComplex Spec_FloatComplex P_FloatComplex M_FloatComplexLin Spec_FloatComplexLin.
Import ListNotations.
Local Open Scope R_scope.

Lemma part_u t : 0 < unit_roundoff t <= / 8. Proof. split; [apply bpow_gt_0|]. change (/ 8) with (bpow radix2 (- (3))). apply bpow_le. pose proof (prec_range t). lia. Qed.
Lemma part_eta t : 0 < smallest t. Proof. apply bpow_gt_0. Qed.
(** ** one part, for a step that is close to the exact one *)
Section Part.
  Context (t : float_type) (start : float t) (b : R) (n m : nat) (h : float t) (F1 : finite start) (Fh : finite h).
  Let a := val start. Let M := larger a b. Let u := unit_roundoff t. Let eta := smallest t. Let W := part_drift t a b. Let e := 11 * (u * M) + 4 * eta.
  Let s := (b - a) / INR m.
  Context (Hn : (2 <= n)%nat) (Hm : (1 <= m)%nat /\ (n - 1 <= m <= n)%nat) (HM : M <= two (emax t - 3)) (HW : 4 * INR n * W <= M) (Eh : Rabs (val h - s) <= e / INR m + eta).
  Lemma part_W : W = 13 * (u * M) + 8 * eta. Proof. unfold W, part_drift. fold M u eta. ring. Qed.
  Lemma part_M : 0 < M /\ 0 < u * M /\ 0 < W /\ (104 * (u * M) + 64 * eta <= M).
  Proof. pose proof (part_u t) as [U1 U2]. fold u in U1, U2. pose proof (part_eta t) as E. fold eta in E. assert (M0 : 0 <= M) by (eapply Rle_trans; [apply (Rabs_pos a)|apply Rmax_l]). assert (UM0 : 0 <= u * M) by (apply Rmult_le_pos; lra). pose proof part_W as EW. assert (WP : 0 < W) by (rewrite EW; lra). assert (N2 : 2 <= INR n) by (change 2 with (INR 2); now apply le_INR). assert (8 * W <= 4 * INR n * W) by (apply Rmult_le_compat_r; lra).
    assert (MP : 0 < M) by lra. assert (0 < u * M) by (apply Rmult_lt_0_compat; lra). repeat split; auto. lra. Qed.
  Lemma part_4 : 4 * M < two (emax t).
  Proof. pose proof part_M as (MP & _). apply Rlt_le_trans with (8 * two (emax t - 3)); [lra|]. right. unfold two. replace (emax t) with (3 + (emax t - 3))%Z at 2 by ring. rewrite bpow_plus. reflexivity. Qed.
  Lemma part_ab : - M <= a <= M /\ - M <= b <= M.
  Proof. split; apply Rabs_le_inv; [apply Rmax_l|apply Rmax_r]. Qed.
  Lemma part_m : 1 <= INR m. Proof. change 1 with (INR 1). apply le_INR. lia. Qed.
  Lemma part_s : Rabs s * INR m <= 2 * M.
  Proof. pose proof part_m. pose proof part_ab. unfold s, Rdiv. assert (0 < / INR m) by (apply Rinv_0_lt_compat; lra). rewrite Rabs_mult, (Rabs_pos_eq (/ INR m)) by lra. rewrite Rmult_assoc, Rinv_l, Rmult_1_r by lra. apply Rabs_le. lra. Qed.
  Lemma part_hull i : (i <= m)%nat -> Rabs (a + INR i * s) <= M.
  Proof. intro I. pose proof part_ab as [A B]. pose proof part_m as mR. assert (iR : 0 <= INR i <= INR m) by (split; [apply pos_INR|now apply le_INR]). set (r := INR i / INR m). assert (R : 0 <= r <= 1). { unfold r, Rdiv. assert (0 < / INR m) by (apply Rinv_0_lt_compat; lra). split; [apply Rmult_le_pos; lra|]. apply Rmult_le_reg_r with (INR m); [lra|]. rewrite Rmult_assoc, Rinv_l; lra. }
    replace (a + INR i * s) with ((1 - r) * a + r * b) by (unfold s, r; field; lra). apply Rabs_le. assert (0 <= (1 - r) * (M - a) + r * (M - b)) by (apply Rplus_le_le_0_compat; apply Rmult_le_pos; lra). assert (0 <= (1 - r) * (M + a) + r * (M + b)) by (apply Rplus_le_le_0_compat; apply Rmult_le_pos; lra). lra. Qed.
  Lemma part_e : 0 < e. Proof. pose proof part_M as (_ & ? & _). pose proof (part_eta t) as EP. fold eta in EP. unfold e. lra. Qed.
  Lemma part_err : Rabs (val h - s) <= e + eta.
  Proof. eapply Rle_trans; [exact Eh|]. pose proof part_e. pose proof part_m as mR. assert (e / INR m <= e). { apply Rmult_le_reg_r with (INR m); [lra|]. unfold Rdiv. rewrite Rmult_assoc, Rinv_l, Rmult_1_r by lra. rewrite <- (Rmult_1_r e) at 1. apply Rmult_le_compat_l; lra. } lra. Qed.
  (** the loop *)
  Lemma part_loop k : forall i v, finite v -> Rabs (val v - (a + INR i * s)) <= INR i * W -> (i + k <= n)%nat -> forall j x, nth_error (linspace_floats k v h) j = Some x -> finite x /\ Rabs (val x - (a + INR (i + j) * s)) <= INR (i + j) * W.
  Proof. induction k as [|k IH]; intros i v Fv Ev L j x E; [destruct j; discriminate|]. destruct j as [|j].
    - cbn in E. inversion E; subst. rewrite Nat.add_0_r. auto.
    - cbn [linspace_floats nth_error] in E. replace (i + S j)%nat with (S i + j)%nat by lia. destruct k as [|k']; [destruct j; discriminate|]. set (k := S k') in *.
      assert (G : finite (fadd v h) /\ Rabs (val (fadd v h) - (a + INR (S i) * s)) <= INR (S i) * W).
      { pose proof part_err as Es. pose proof part_M as (MP & UM & WP & B). pose proof (part_eta t) as EP. fold eta in EP. pose proof (part_u t) as [U1 U2]. fold u in U1, U2. pose proof part_4 as M4. pose proof part_W as EW. pose proof (part_hull (S i) ltac:(lia)) as Hu. rewrite S_INR in *. unfold e in Es.
        assert (IW : INR i * W <= M / 4). { assert (INR i <= INR n) by (apply le_INR; lia). assert (INR i * W <= INR n * W) by (apply Rmult_le_compat_r; lra). lra. }
        assert (Sum : Rabs (val v + val h) <= M + M / 4 + M / 8). { replace (val v + val h) with ((a + (INR i + 1) * s) + (val v - (a + INR i * s)) + (val h - s)) by ring. eapply Rle_trans; [apply Rabs_triang|]. eapply Rle_trans; [apply Rplus_le_compat_r, Rabs_triang|]. lra. }
        pose proof (rnd_err t (val v + val h)) as Er. fold u eta in Er. assert (Er' : u * Rabs (val v + val h) <= u * (3 / 2 * M)) by (apply Rmult_le_compat_l; lra).
        destruct (fadd_val t v h Fv Fh) as [A1 A2]. { replace (rnd t (val v + val h)) with ((rnd t (val v + val h) - (val v + val h)) + (val v + val h)) by ring. eapply Rle_lt_trans; [apply Rabs_triang|]. lra. }
        split; auto. rewrite A1. replace (rnd t (val v + val h) - (a + (INR i + 1) * s)) with ((rnd t (val v + val h) - (val v + val h)) + (val v - (a + INR i * s)) + (val h - s)) by ring. eapply Rle_trans; [apply Rabs_triang|]. eapply Rle_trans; [apply Rplus_le_compat_r, Rabs_triang|]. replace ((INR i + 1) * W) with (INR i * W + W) by ring. lra. }
      destruct G as [G1 G2]. apply (IH (S i) (fadd v h) G1 G2); auto. lia. Qed.
  Lemma part_serial j x : nth_error (linspace_floats n start h) j = Some x -> finite x /\ Rabs (val x - (a + INR j * s)) <= INR j * W.
  Proof. intro Ej. apply (part_loop n 0 start F1); auto. cbn. rewrite !Rmult_0_l, Rplus_0_r. unfold a. rewrite Rminus_diag_eq, Rabs_R0 by auto. lra. Qed.
  (** the product *)
  Lemma part_parallel i (p : float t) : (i < n)%nat -> (Rabs (rnd t (INR i * val h)) < two (emax t) -> finite p /\ val p = rnd t (INR i * val h)) ->
    finite (fadd start p) /\ Rabs (val (fadd start p) - (a + INR i * s)) <= part_tol t a b i.
  Proof. intros I Hp. pose proof part_s as Sm. pose proof part_e as e0. pose proof part_M as (MP & UM & WP & B). pose proof part_W as EW. pose proof (part_eta t) as EP. fold eta in EP. pose proof (part_u t) as [U1 U2]. fold u in U1, U2. pose proof part_4 as M4. pose proof (part_hull i ltac:(lia)) as Hu. assert (iR : 0 <= INR i <= INR m) by (split; [apply pos_INR|apply le_INR; lia]). pose proof part_m as mR. pose proof part_ab as [A1 A2].
      assert (NW : INR i * eta <= M / 16). { assert (INR i <= INR n) by (apply le_INR; lia). assert (INR i * W <= INR n * W) by (apply Rmult_le_compat_r; lra). assert (INR i * (4 * eta) <= INR i * W) by (apply Rmult_le_compat_l; [lra|rewrite EW; lra]). lra. }
      assert (Ei : INR i * Rabs (val h - s) <= e + INR i * eta). { apply Rle_trans with (INR i * (e / INR m + eta)); [apply Rmult_le_compat_l; lra|]. rewrite Rmult_plus_distr_l. apply Rplus_le_compat_r. unfold Rdiv. replace (INR i * (e * / INR m)) with (e * (INR i * / INR m)) by ring. rewrite <- (Rmult_1_r e) at 2. apply Rmult_le_compat_l; [lra|]. apply Rmult_le_reg_r with (INR m); [lra|]. rewrite Rmult_assoc, Rinv_l; lra. }
      assert (Is : INR i * Rabs s <= 2 * M). { eapply Rle_trans; [|exact Sm]. rewrite Rmult_comm. apply Rmult_le_compat_l; [apply Rabs_pos|lra]. }
      unfold e in Ei.
      assert (P : Rabs (INR i * val h) <= 3 * M). { replace (INR i * val h) with (INR i * s + INR i * (val h - s)) by ring. eapply Rle_trans; [apply Rabs_triang|]. rewrite !Rabs_mult, (Rabs_pos_eq (INR i)) by lra. lra. }
      pose proof (rnd_err t (INR i * val h)) as Ey. fold u eta in Ey. assert (Ey' : u * Rabs (INR i * val h) <= 3 * (u * M)). { replace (3 * (u * M)) with (u * (3 * M)) by ring. apply Rmult_le_compat_l; lra. }
      destruct Hp as [Y2 Y1]. { replace (rnd t (INR i * val h)) with ((rnd t (INR i * val h) - INR i * val h) + INR i * val h) by ring. eapply Rle_lt_trans; [apply Rabs_triang|]. lra. } set (y := rnd t (INR i * val h)) in *.
      assert (Yi : Rabs (y - INR i * s) <= 14 * (u * M) + 5 * eta + INR i * eta). { replace (y - INR i * s) with ((y - INR i * val h) + INR i * (val h - s)) by ring. eapply Rle_trans; [apply Rabs_triang|]. rewrite Rabs_mult, (Rabs_pos_eq (INR i)) by lra. lra. }
      assert (AY : Rabs (a + y) <= 3 / 2 * M). { replace (a + y) with ((a + INR i * s) + (y - INR i * s)) by ring. eapply Rle_trans; [apply Rabs_triang|]. lra. }
      pose proof (rnd_err t (a + y)) as Ez. fold u eta in Ez. assert (Ez' : u * Rabs (a + y) <= u * (3 / 2 * M)) by (apply Rmult_le_compat_l; lra).
      destruct (fadd_val t start p F1 Y2) as [Z1 Z2]. { rewrite Y1. fold a. replace (rnd t (a + y)) with ((rnd t (a + y) - (a + y)) + (a + y)) by ring. eapply Rle_lt_trans; [apply Rabs_triang|]. lra. }
      split; auto. rewrite Z1, Y1. fold a. destruct i as [|i'].
      - cbn [part_tol]. unfold y. change (INR 0) with 0. rewrite Rmult_0_l. rewrite (rnd_id t 0) by apply generic_format_0. rewrite Rplus_0_r, (rnd_id t a) by apply val_format. rewrite Rmult_0_l, Rplus_0_r, Rminus_diag_eq, Rabs_R0 by auto. lra.
      - cbn [part_tol]. fold u eta M. set (i := S i') in *. replace (rnd t (a + y) - (a + INR i * s)) with ((rnd t (a + y) - (a + y)) + (y - INR i * s)) by ring. eapply Rle_trans; [apply Rabs_triang|]. lra. Qed.
End Part.

(** ** the step: the quotient of two complex numbers, the second one a count *)
Lemma part_step t (D : float t) (a b : R) (n m : nat) (num den : float t) : finite num -> finite den -> (1 <= m)%nat ->
  let u := unit_roundoff t in let eta := smallest t in let M := larger a b in
  Rabs (val D - (b - a)) <= 2 * (u * M) + eta -> 4 * M < two (emax t) -> 104 * (u * M) + 64 * eta <= M ->
  val num = rnd t (val D * INR m) -> 1 <= val den -> Rabs (val den - INR m * INR m) <= u * (INR m * INR m) ->
  finite (fdiv num den) /\ Rabs (val (fdiv num den) - (b - a) / INR m) <= (11 * (u * M) + 4 * eta) / INR m + eta.
Proof. intros Fn Fd Hm u eta M E1 M4 B Vn D1 Ed. pose proof (part_u t) as [U1 U2]. fold u in U1, U2. pose proof (part_eta t) as EP. fold eta in EP. assert (mR : 1 <= INR m) by (change 1 with (INR 1); now apply le_INR).
  assert (AB : Rabs (b - a) <= 2 * M). { pose proof (Rmax_l (Rabs a) (Rabs b)). pose proof (Rmax_r (Rabs a) (Rabs b)). unfold M, larger. pose proof (Rabs_triang b (- a)). rewrite Rabs_Ropp in *. unfold Rminus. lra. }
  assert (M0 : 0 <= M) by (eapply Rle_trans; [apply (Rabs_pos a)|apply Rmax_l]). assert (UM0 : 0 <= u * M) by (apply Rmult_le_pos; lra).
  set (d := val D) in *. assert (DB : Rabs d <= 2 * M + 2 * (u * M) + eta). { replace d with ((d - (b - a)) + (b - a)) by ring. eapply Rle_trans; [apply Rabs_triang|]. lra. }
  assert (uD : u * Rabs d <= 9 / 4 * (u * M) + / 8 * eta). { apply Rle_trans with (u * (2 * M + 2 * (u * M) + eta)); [apply Rmult_le_compat_l; lra|]. assert (u * (u * M) <= / 8 * (u * M)) by (apply Rmult_le_compat_r; lra). assert (u * eta <= / 8 * eta) by (apply Rmult_le_compat_r; lra). lra. }
  set (k := INR m) in *. assert (k2 : 1 <= k * k) by (rewrite <- (Rmult_1_r 1); apply Rmult_le_compat; lra). assert (I : 0 < / k <= 1). { split; [apply Rinv_0_lt_compat; lra|]. rewrite <- Rinv_1. apply Rinv_le_contravar; lra. }
  set (q := val den) in *. assert (Q : 7 / 8 * (k * k) <= q). { apply Rabs_le_inv in Ed. assert (u * (k * k) <= / 8 * (k * k)) by (apply Rmult_le_compat_r; lra). lra. }
  set (p := val num) in *. assert (Ep : Rabs (p - d * k) <= u * (Rabs d * k) + eta). { rewrite Vn. pose proof (rnd_err t (d * k)) as X. rewrite Rabs_mult, (Rabs_pos_eq k) in X by lra. exact X. }
  assert (Nu : Rabs ((p - d * k) * k - d * (q - k * k)) <= (2 * (u * Rabs d) + eta) * (k * k)).
  { eapply Rle_trans; [apply Rabs_triang|]. rewrite Rabs_Ropp, !Rabs_mult, (Rabs_pos_eq k) by lra. assert (X1 : Rabs (p - d * k) * k <= (u * (Rabs d * k) + eta) * k) by (apply Rmult_le_compat_r; lra). assert (X2 : Rabs d * Rabs (q - k * k) <= Rabs d * (u * (k * k))) by (apply Rmult_le_compat_l; [apply Rabs_pos|auto]). assert (X3 : eta * k <= eta * (k * k)). { apply Rmult_le_compat_l; [lra|]. rewrite <- (Rmult_1_r k) at 1. apply Rmult_le_compat_l; lra. } 
    replace ((2 * (u * Rabs d) + eta) * (k * k)) with ((u * (Rabs d * k)) * k + Rabs d * (u * (k * k)) + eta * (k * k)) by ring. rewrite Rmult_plus_distr_r in X1. lra. }
  set (r := p / q). assert (Er : Rabs (r - d / k) <= 8 / 7 * (2 * (u * Rabs d) + eta) * / k).
  { replace (r - d / k) with (((p - d * k) * k - d * (q - k * k)) * / (q * k)) by (unfold r; field; lra). rewrite Rabs_mult. assert (QP : 0 < q * k) by (apply Rmult_lt_0_compat; lra). rewrite (Rabs_pos_eq (/ (q * k))) by (left; apply Rinv_0_lt_compat; auto).
    apply Rmult_le_reg_r with (q * k); auto. rewrite Rmult_assoc, Rinv_l, Rmult_1_r by lra. eapply Rle_trans; [exact Nu|]. replace (8 / 7 * (2 * (u * Rabs d) + eta) * / k * (q * k)) with ((2 * (u * Rabs d) + eta) * (8 / 7 * q)) by (field; lra). apply Rmult_le_compat_l; [|lra]. pose proof (Rmult_le_pos u (Rabs d) ltac:(lra) (Rabs_pos d)). lra. }
  assert (Dk : Rabs (d / k) = Rabs d * / k). { unfold Rdiv. rewrite Rabs_mult, (Rabs_pos_eq (/ k)); lra. }
  assert (UD0 : 0 <= u * Rabs d) by (apply Rmult_le_pos; [lra|apply Rabs_pos]).
  assert (Ar : Rabs r <= (Rabs d + 8 / 7 * (2 * (u * Rabs d) + eta)) * / k). { replace r with ((r - d / k) + d / k) by ring. eapply Rle_trans; [apply Rabs_triang|]. rewrite Dk, Rmult_plus_distr_r. lra. }
  assert (Ur : u * Rabs r <= (u * Rabs d + 1 / 7 * (2 * (u * Rabs d) + eta)) * / k). { apply Rle_trans with (u * ((Rabs d + 8 / 7 * (2 * (u * Rabs d) + eta)) * / k)); [apply Rmult_le_compat_l; lra|]. rewrite <- Rmult_assoc. apply Rmult_le_compat_r; [lra|]. rewrite Rmult_plus_distr_l. apply Rplus_le_compat_l. replace (u * (8 / 7 * (2 * (u * Rabs d) + eta))) with (u * 8 * (1 / 7 * (2 * (u * Rabs d) + eta))) by field. rewrite <- (Rmult_1_l (1 / 7 * (2 * (u * Rabs d) + eta))) at 2. apply Rmult_le_compat_r; lra. }
  pose proof (rnd_err t r) as E2. fold u eta in E2.
  assert (Ar' : Rabs r <= Rabs d + 8 / 7 * (2 * (u * Rabs d) + eta)). { eapply Rle_trans; [exact Ar|]. rewrite <- (Rmult_1_r (Rabs d + 8 / 7 * (2 * (u * Rabs d) + eta))) at 2. apply Rmult_le_compat_l; [|lra]. pose proof (Rabs_pos d). lra. }
  assert (Ur' : u * Rabs r <= / 8 * Rabs r) by (apply Rmult_le_compat_r; [apply Rabs_pos|lra]).
  destruct (fdiv_val t num den Fn) as [V F]. { fold q. lra. } { fold p q r. replace (rnd t r) with ((rnd t r - r) + r) by ring. eapply Rle_lt_trans; [apply Rabs_triang|]. lra. }
  split; auto. rewrite V. fold p q r. replace (rnd t r - (b - a) / k) with ((rnd t r - r) + (r - d / k) + (d - (b - a)) / k) by (field; lra).
  eapply Rle_trans; [apply Rabs_triang|]. eapply Rle_trans; [apply Rplus_le_compat_r, Rabs_triang|]. unfold Rdiv at 2. rewrite Rabs_mult, (Rabs_pos_eq (/ k)) by lra.
  assert (X1 : Rabs (d - (b - a)) * / k <= (2 * (u * M) + eta) * / k) by (apply Rmult_le_compat_r; lra).
  assert (X2 : (u * Rabs d + 1 / 7 * (2 * (u * Rabs d) + eta) + 8 / 7 * (2 * (u * Rabs d) + eta) + (2 * (u * M) + eta)) * / k <= (11 * (u * M) + 4 * eta) * / k) by (apply Rmult_le_compat_r; lra).
  unfold Rdiv. rewrite !Rmult_plus_distr_r in X2. rewrite Rmult_plus_distr_r in Ur. lra. Qed.

(** ** the step of a part, when its ends are sensible *)
Definition good_step (t : float_type) (a b : R) (n m : nat) (h : float t) : Prop :=
  finite h /\ ((a = 0 /\ b = 0 /\ val h = 0) \/ (larger a b <= two (emax t - 3) /\ 4 * INR n * part_drift t a b <= larger a b /\
    Rabs (val h - (b - a) / INR m) <= (11 * (unit_roundoff t * larger a b) + 4 * smallest t) / INR m + smallest t)).
Lemma diff_good t (x y : float t) n : finite x -> finite y -> (2 <= n)%nat -> part_sensible t (val x) (val y) n ->
  finite (fsub y x) /\ ((val x = 0 /\ val y = 0 /\ val (fsub y x) = 0) \/
    (let M := larger (val x) (val y) in M <= two (emax t - 3) /\ 4 * INR n * part_drift t (val x) (val y) <= M /\ Rabs (val (fsub y x) - (val y - val x)) <= 2 * (unit_roundoff t * M) + smallest t /\
     4 * M < two (emax t) /\ 104 * (unit_roundoff t * M) + 64 * smallest t <= M /\ INR n * M <= two (emax t - 3))).
Proof. intros Fx Fy Hn [[A B]|[S1 S2]].
  - destruct (fsub_val t y x Fy Fx) as [V F]. { rewrite A, B, Rminus_0_r, rnd_0, Rabs_R0. apply bpow_gt_0. } rewrite A, B, Rminus_0_r, rnd_0 in V. split; auto.
  - set (M := larger (val x) (val y)) in *. assert (M0 : 0 <= M) by (eapply Rle_trans; [apply (Rabs_pos (val x))|apply Rmax_l]). assert (N2 : 2 <= INR n) by (change 2 with (INR 2); now apply le_INR).
    assert (HM : M <= two (emax t - 3)). { eapply Rle_trans; [|exact S1]. rewrite <- (Rmult_1_l M) at 1. apply Rmult_le_compat_r; lra. }
    pose proof (part_M t x (val y) n Hn S2) as (MP & UM & WP & B). pose proof (part_4 t x (val y) n Hn HM S2) as M4. fold M in MP, UM, WP, B, M4. pose proof (part_ab t x (val y)) as [A1 A2]. fold M in A1, A2. pose proof (part_u t) as [U1 U2]. pose proof (part_eta t) as EP.
    pose proof (rnd_err t (val y - val x)) as E1. assert (AB : Rabs (val y - val x) <= 2 * M) by (apply Rabs_le; lra). assert (E1' : unit_roundoff t * Rabs (val y - val x) <= 2 * (unit_roundoff t * M)). { replace (2 * (unit_roundoff t * M)) with (unit_roundoff t * (2 * M)) by ring. apply Rmult_le_compat_l; lra. }
    destruct (fsub_val t y x Fy Fx) as [V F]. { replace (rnd t (val y - val x)) with ((rnd t (val y - val x) - (val y - val x)) + (val y - val x)) by ring. eapply Rle_lt_trans; [apply Rabs_triang|]. lra. }
    split; auto. right. rewrite V. repeat split; auto. lra. Qed.
Lemma step_good t (x y z : float t) n m (sgn : bool) : finite x -> finite y -> finite z -> val z = 0 -> (2 <= n)%nat -> (1 <= m <= n)%nat -> (Z.of_nat n <= 2 ^ prec t)%Z -> part_sensible t (val x) (val y) n ->
  let N := of_int (Z.of_nat m) : float t in let P := fmul (fsub y x) N in
  good_step t (val x) (val y) n m (fdiv (if sgn then fadd P z else fsub P z) (fadd (fmul N N) (fmul fzero fzero))).
Proof. intros Fx Fy Fz Z0 Hn Hm L S N P. destruct (square_count t m ltac:(lia) ltac:(lia)) as (FD & D1 & ED). fold N in FD, D1, ED. set (den := fadd (fmul N N) (fmul fzero fzero)) in *. destruct (int_val t (Z.of_nat m)) as [Vm Fm]; [lia|]. fold N in Vm, Fm. rewrite <- INR_IZR_INZ in Vm. assert (mR : 1 <= INR m) by (change 1 with (INR 1); apply le_INR; lia).
  destruct (diff_good t x y n Fx Fy Hn S) as [Fd C]. set (D := fsub y x) in *.
  assert (O : Rabs (rnd t (val D * INR m)) < two (emax t)).
  { destruct C as [(A & B & ->)|(HM & HW & E1 & M4 & B & NM)]; [rewrite Rmult_0_l, rnd_0, Rabs_R0; apply bpow_gt_0|]. set (M := larger (val x) (val y)) in *. pose proof (part_u t) as [U1 U2]. pose proof (part_eta t) as EP.
    assert (M0 : 0 <= M) by (eapply Rle_trans; [apply (Rabs_pos (val x))|apply Rmax_l]). assert (UM0 : 0 <= unit_roundoff t * M) by (apply Rmult_le_pos; lra).
    assert (AB : Rabs (val y - val x) <= 2 * M). { pose proof (part_ab t x (val y)) as [A1 A2]. fold M in A1, A2. apply Rabs_le. lra. } assert (DB : Rabs (val D) <= 5 / 2 * M). { replace (val D) with ((val D - (val y - val x)) + (val y - val x)) by ring. eapply Rle_trans; [apply Rabs_triang|]. lra. }
    assert (Mn : INR m * M <= INR n * M) by (apply Rmult_le_compat_r; [auto|apply le_INR; lia]). assert (DM : Rabs (val D * INR m) <= 5 / 2 * (INR n * M)). { rewrite Rabs_mult, (Rabs_pos_eq (INR m)) by lra. assert (Rabs (val D) * INR m <= 5 / 2 * M * INR m) by (apply Rmult_le_compat_r; lra). lra. }
    pose proof (scale_err t D (Z.of_nat m)) as Er. rewrite <- INR_IZR_INZ in Er. assert (unit_roundoff t * Rabs (val D * INR m) <= / 8 * Rabs (val D * INR m)) by (apply Rmult_le_compat_r; [apply Rabs_pos|lra]).
    assert (T : 8 * two (emax t - 3) = two (emax t)). { unfold two. replace (emax t) with (3 + (emax t - 3))%Z at 2 by ring. rewrite bpow_plus. reflexivity. } pose proof (bpow_gt_0 radix2 (emax t - 3)) as TP. change (bpow radix2 (emax t - 3)) with (two (emax t - 3)) in TP. replace (rnd t (val D * INR m)) with ((rnd t (val D * INR m) - val D * INR m) + val D * INR m) by ring. eapply Rle_lt_trans; [apply Rabs_triang|]. lra. }
  destruct (fmul_val t D N Fd Fm) as [VP FP]; [rewrite Vm; exact O|]. rewrite Vm in VP. fold P in VP, FP. set (num := if sgn then fadd P z else fsub P z).
  assert (Nm : finite num /\ val num = rnd t (val D * INR m)). { unfold num. destruct sgn; [destruct (add_zero t P z FP Fz Z0) as [V F]; split; auto; congruence|]. destruct (fsub_val t P z FP Fz) as [V F]. { rewrite Z0, Rminus_0_r, rnd_id by apply val_format. apply val_lt. } rewrite Z0, Rminus_0_r, rnd_id in V by apply val_format. split; auto. congruence. }
  destruct Nm as [Fn Vn]. unfold good_step. destruct C as [(A & B & D0)|(HM & HW & E1 & M4 & B & NM)].
  - rewrite D0, Rmult_0_l, rnd_0 in Vn. destruct (fdiv_val t num den Fn) as [V F]. { lra. } { rewrite Vn. unfold Rdiv. rewrite Rmult_0_l, rnd_0, Rabs_R0. apply bpow_gt_0. } rewrite Vn in V. unfold Rdiv in V. rewrite Rmult_0_l, rnd_0 in V. split; auto.
  - destruct (part_step t D (val x) (val y) n m num den Fn FD ltac:(lia) E1 M4 B Vn D1 ED) as [F E]. split; auto. Qed.

(** ** the values of a part *)
Lemma zero_loop t (h : float t) : finite h -> val h = 0 -> forall k v, finite v -> val v = 0 -> forall j x, nth_error (linspace_floats k v h) j = Some x -> finite x /\ val x = 0.
Proof. intros Fh H0. induction k as [|k IH]; intros v Fv V0 j x E; [destruct j; discriminate|]. destruct j as [|j]; [cbn in E; inversion E; subst; auto|]. cbn [linspace_floats nth_error] in E. destruct (add_zero t v h Fv Fh H0) as [A B]. apply (IH (fadd v h)) with j; auto. congruence. Qed.
Lemma tol_pos t a b i : 0 <= part_tol t a b i.
Proof. destruct i as [|i]; cbn [part_tol]; [lra|]. assert (0 < unit_roundoff t) by apply bpow_gt_0. assert (0 < smallest t) by apply bpow_gt_0. assert (0 <= larger a b) by (eapply Rle_trans; [apply (Rabs_pos a)|apply Rmax_l]). pose proof (pos_INR (S i)). assert (0 <= unit_roundoff t * larger a b) by (apply Rmult_le_pos; lra). assert (0 <= (INR (S i) + 8) * smallest t) by (apply Rmult_le_pos; lra). lra. Qed.
Lemma drift_pos t a b : 0 <= part_drift t a b.
Proof. unfold part_drift. assert (0 < unit_roundoff t) by apply bpow_gt_0. assert (0 < smallest t) by apply bpow_gt_0. assert (0 <= larger a b) by (eapply Rle_trans; [apply (Rabs_pos a)|apply Rmax_l]). assert (0 <= unit_roundoff t * larger a b) by (apply Rmult_le_pos; lra). lra. Qed.
Lemma serial_part t (x h : float t) b n m : finite x -> (2 <= n)%nat -> (1 <= m)%nat /\ (n - 1 <= m <= n)%nat -> good_step t (val x) b n m h ->
  forall j y, nth_error (linspace_floats n x h) j = Some y -> finite y /\ Rabs (val y - (val x + INR j * ((b - val x) / INR m))) <= INR j * part_drift t (val x) b.
Proof. intros Fx Hn Hm [Fh [(A & B & H0)|(HM & HW & E)]] j y Ej.
  - destruct (zero_loop t h Fh H0 n x Fx A j y Ej) as [Fy Y0]. split; auto. rewrite Y0, A, B. unfold Rdiv. rewrite Rminus_0_r, Rmult_0_l, Rmult_0_r, Rplus_0_r, Rminus_0_r, Rabs_R0. apply Rmult_le_pos; [apply pos_INR|apply drift_pos].
  - apply (part_serial t x b n m h Fx Fh Hn Hm HM HW E j y Ej). Qed.
Lemma parallel_part t (x h p : float t) b n m i : finite x -> (2 <= n)%nat -> (1 <= m)%nat /\ (n - 1 <= m <= n)%nat -> good_step t (val x) b n m h -> (i < n)%nat ->
  (Rabs (rnd t (INR i * val h)) < two (emax t) -> finite p /\ val p = rnd t (INR i * val h)) ->
  finite (fadd x p) /\ Rabs (val (fadd x p) - (val x + INR i * ((b - val x) / INR m))) <= part_tol t (val x) b i.
Proof. intros Fx Hn Hm [Fh [(A & B & H0)|(HM & HW & E)]] I Hp.
  - rewrite H0, Rmult_0_r, rnd_0, Rabs_R0 in Hp. destruct Hp as [Fp P0]; [apply bpow_gt_0|]. destruct (add_zero t x p Fx Fp P0) as [V F]. split; auto. rewrite V, A, B. unfold Rdiv. rewrite Rminus_0_r, Rmult_0_l, Rmult_0_r, Rplus_0_r, Rminus_0_r, Rabs_R0. apply tol_pos.
  - apply (part_parallel t x b n m h Fx Hn Hm HM HW E i p I Hp). Qed.

(** ** the parts of the values *)
Lemma loop_parts t : forall k (v h : complex t), reals (clinspace_values k v h) = linspace_floats k (fst v) (fst h) /\ imags (clinspace_values k v h) = linspace_floats k (snd v) (snd h).
Proof. induction k as [|k IH]; intros v h; [split; reflexivity|]. destruct (IH (cadd v h) h) as [A B]. split; cbn [clinspace_values linspace_floats]; unfold reals, imags in *; cbn [map]; [rewrite A|rewrite B]; reflexivity. Qed.
Lemma zero_mul t (y : float t) : finite y -> val (fmul fzero y) = 0 /\ finite (fmul fzero y).
Proof. intro F. assert (Z : val (fzero : float t) = 0) by reflexivity. destruct (fmul_val t fzero y) as [A B]; [reflexivity|exact F| |]; rewrite Z, Rmult_0_l, rnd_0 in *; [rewrite Rabs_R0; apply bpow_gt_0|auto]. Qed.
Lemma spaced_of t (L : list (float t)) a b m n tol : length L = n -> (forall j y, nth_error L j = Some y -> finite y /\ Rabs (val y - (a + INR j * ((b - a) / INR m))) <= tol j) -> Forall finite L /\ evenly_spaced a b m n tol (map val L).
Proof. intros Ln H. split; [|split].
  - apply Forall_forall. intros x Ix. apply In_nth_error in Ix. destruct Ix as [j Ej]. apply (H j x Ej).
  - now rewrite map_length.
  - intros i y Ey. rewrite nth_error_map in Ey. destruct (nth_error L i) as [x|] eqn:Ex; [|discriminate]. inversion Ey; subst. apply (H i x Ex). Qed.
Lemma steps_good t (start stop : complex t) n (endpoint : bool) : finite (fst start) -> finite (snd start) -> finite (fst stop) -> finite (snd stop) -> (2 <= n)%nat -> (Z.of_nat n <= 2 ^ prec t)%Z ->
  part_sensible t (val (fst start)) (val (fst stop)) n -> part_sensible t (val (snd start)) (val (snd stop)) n -> let m := (if endpoint then n - 1 else n)%nat in let h := clinspace_step start stop n endpoint in
  ((1 <= m)%nat /\ (n - 1 <= m <= n)%nat) /\ good_step t (val (fst start)) (val (fst stop)) n m (fst h) /\ good_step t (val (snd start)) (val (snd stop)) n m (snd h).
Proof. intros F1 F2 F3 F4 Hn L S1 S2 m h. assert (Hm : (1 <= m)%nat /\ (n - 1 <= m <= n)%nat) by (unfold m; destruct endpoint; lia). split; auto.
  destruct (diff_good t _ _ n F1 F3 Hn S1) as [Fr _]. destruct (diff_good t _ _ n F2 F4 Hn S2) as [Fi _]. destruct (mul_zero t _ Fr) as [Vr Zr]. destruct (mul_zero t _ Fi) as [Vi Zi].
  split; [exact (step_good t (fst start) (fst stop) (fmul (fsub (snd stop) (snd start)) fzero) n m true F1 F3 Zi Vi Hn ltac:(lia) L S1)|exact (step_good t (snd start) (snd stop) (fmul (fsub (fst stop) (fst start)) fzero) n m false F2 F4 Zr Vr Hn ltac:(lia) L S2)]. Qed.
Lemma l_clinspace_serial : forall (t : float_type) (start stop : complex t) (n : nat) (endpoint : bool), finite (fst start) -> finite (snd start) -> finite (fst stop) -> finite (snd stop) ->
  (2 <= n)%nat -> (Z.of_nat n <= 2 ^ prec t)%Z -> let ar := val (fst start) in let ai := val (snd start) in let br := val (fst stop) in let bi := val (snd stop) in part_sensible t ar br n -> part_sensible t ai bi n ->
  let v := clinspace_serial start stop n endpoint in let m := (if endpoint then n - 1 else n)%nat in
  (Forall finite (reals v) /\ evenly_spaced ar br m n (fun i => INR i * part_drift t ar br) (map val (reals v))) /\
  (Forall finite (imags v) /\ evenly_spaced ai bi m n (fun i => INR i * part_drift t ai bi) (map val (imags v))).
Proof. intros t start stop n endpoint F1 F2 F3 F4 Hn L ar ai br bi S1 S2 v m. destruct (steps_good t start stop n endpoint F1 F2 F3 F4 Hn L S1 S2) as (Hm & G1 & G2). fold m in Hm, G1, G2. set (h := clinspace_step start stop n endpoint) in *.
  assert (E : v = clinspace_values n start h) by (unfold v, clinspace_serial; destruct n as [|[|]]; [lia|lia|reflexivity]). destruct (loop_parts t n start h) as [P1 P2]. rewrite <- E in P1, P2. rewrite P1, P2.
  split; apply spaced_of; try apply serial_len; intros j y Ej; eapply serial_part; eauto. Qed.
Lemma l_clinspace_parallel : forall (t : float_type) (start stop : complex t) (n : nat) (endpoint : bool), finite (fst start) -> finite (snd start) -> finite (fst stop) -> finite (snd stop) ->
  (2 <= n)%nat -> (Z.of_nat n <= 2 ^ prec t)%Z -> let ar := val (fst start) in let ai := val (snd start) in let br := val (fst stop) in let bi := val (snd stop) in part_sensible t ar br n -> part_sensible t ai bi n ->
  let v := clinspace_parallel start stop n endpoint in let m := (if endpoint then n - 1 else n)%nat in
  (Forall finite (reals v) /\ evenly_spaced ar br m n (part_tol t ar br) (map val (reals v))) /\
  (Forall finite (imags v) /\ evenly_spaced ai bi m n (part_tol t ai bi) (map val (imags v))).
Proof. intros t start stop n endpoint F1 F2 F3 F4 Hn L ar ai br bi S1 S2 v m. destruct (steps_good t start stop n endpoint F1 F2 F3 F4 Hn L S1 S2) as (Hm & G1 & G2). fold m in Hm, G1, G2. set (h := clinspace_step start stop n endpoint) in *.
  assert (E : v = map (fun i => cadd start (cmul (cof_nat i) h)) (seq 0 n)) by (unfold v, clinspace_parallel; destruct n as [|[|]]; [lia|lia|reflexivity]). pose proof (proj1 G1) as Fhr. pose proof (proj1 G2) as Fhi. destruct (zero_mul t _ Fhr) as [Zr Fzr]. destruct (zero_mul t _ Fhi) as [Zi Fzi].
  split; apply spaced_of; try (rewrite E; unfold reals, imags; rewrite !map_length, seq_length; reflexivity); intros j y Ej; rewrite E in Ej; unfold reals, imags in Ej; rewrite map_map, nth_error_map in Ej; destruct (nth_error (seq 0 n) j) as [i|] eqn:Ei; try discriminate Ej.
  - assert (J : (j < n)%nat) by (rewrite <- (seq_length n 0); apply nth_error_Some; congruence). apply nth_error_nth with (d := O) in Ei. rewrite seq_nth in Ei by auto. cbn in Ei. subst i. cbn [option_map] in Ej. injection Ej as <-. cbn [cadd fst].
    apply (parallel_part t (fst start) (fst h) (fst (cmul (cof_nat j) h)) br n m j F1 Hn Hm G1 J). intro O. unfold cmul, cof_nat. cbn [fst snd]. destruct (int_val t (Z.of_nat j)) as [Vj Fj]; [lia|]. rewrite <- INR_IZR_INZ in Vj. destruct (fmul_val t (of_int (Z.of_nat j)) (fst h) Fj Fhr) as [V F]; [rewrite Vj; auto|]. rewrite Vj in V.
    destruct (fsub_val t _ _ F Fzi) as [V1 F1']. { rewrite Zi, Rminus_0_r, rnd_id by apply val_format. apply val_lt. } rewrite Zi, Rminus_0_r, rnd_id in V1 by apply val_format. split; auto. congruence.
  - assert (J : (j < n)%nat) by (rewrite <- (seq_length n 0); apply nth_error_Some; congruence). apply nth_error_nth with (d := O) in Ei. rewrite seq_nth in Ei by auto. cbn in Ei. subst i. cbn [option_map] in Ej. injection Ej as <-. cbn [cadd snd].
    apply (parallel_part t (snd start) (snd h) (snd (cmul (cof_nat j) h)) bi n m j F2 Hn Hm G2 J). intro O. unfold cmul, cof_nat. cbn [fst snd]. destruct (int_val t (Z.of_nat j)) as [Vj Fj]; [lia|]. rewrite <- INR_IZR_INZ in Vj. destruct (fmul_val t (of_int (Z.of_nat j)) (snd h) Fj Fhi) as [V F]; [rewrite Vj; auto|]. rewrite Vj in V.
    destruct (add_zero t _ _ F Fzr Zr) as [V1 F1']. split; auto. congruence. Qed.
Lemma l_clinspace_short : forall (t : float_type) (start stop : complex t) (endpoint : bool), clinspace_serial start stop 0 endpoint = [] /\ clinspace_parallel start stop 0 endpoint = [] /\ clinspace_serial start stop 1 endpoint = [start] /\ clinspace_parallel start stop 1 endpoint = [start].
Proof. intros. repeat split; reflexivity. Qed.
Lemma l_clinspace_real_refuted : ~ (forall (t : float_type) (start stop : float t) n endpoint, finite start -> finite stop ->
  map val (reals (clinspace_serial (start, fzero) (stop, fzero) n endpoint)) = map val (linspace_serial start stop n endpoint)).
Proof. intro H. assert (E := H F64 fzero (fdiv (of_int 1) (of_int 5)) 4%nat true eq_refl eq_refl). apply (f_equal (fun v => nth 1 v 0)) in E. change 0 with (val (fzero : float F64)) in E. rewrite !map_nth in E. apply Req_bool_true in E. unfold val in E. revert E. rewrite <- Beqb_correct by (vm_compute; reflexivity). vm_compute. discriminate. Qed.
