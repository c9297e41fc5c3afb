(** arange that is empty or never ends, and linspace *)
From Coq Require Import ZArith Reals List Lia Lra Bool.
From Flocq Require Import Core Relative BinarySingleNaN.
From Verif Require Import Base P_ArangeFloat M_Float Spec_Float P_FloatOps.
Import ListNotations.
Local Open Scope R_scope.

Lemma overflow_not_finite t (x : float t) m s : B2SF x = binary_overflow (prec t) (emax t) m s -> m = mode_NE -> x = B754_infinity s.
Proof. intros E ->. destruct x as [b|b| |b k e H]; cbn in E; try discriminate. now inversion E. Qed.
Lemma fdiv_cases t (x y : float t) : finite x -> val y <> 0 -> (val (fdiv x y) = rnd t (val x / val y) /\ finite (fdiv x y)) \/ is_finite (fdiv x y) = false.
Proof. intros Fx Fy. pose proof (@Bdiv_correct (prec t) (emax t) _ _ mode_NE x y Fy) as C. destruct (Rlt_bool_spec (Rabs (round radix2 (SpecFloat.fexp (prec t) (emax t)) (round_mode mode_NE) (B2R x / B2R y))) (bpow radix2 (emax t))).
  - left. apply fdiv_val; auto.
  - right. apply overflow_not_finite in C; auto. match type of C with _ = B754_infinity ?s => assert (E : fdiv x y = B754_infinity s) by exact C end. rewrite E. reflexivity. Qed.
Lemma fadd_cases t (x y : float t) : finite x -> finite y -> (val (fadd x y) = rnd t (val x + val y) /\ finite (fadd x y)) \/ (fadd x y = B754_infinity (Bsign y)).
Proof. intros Fx Fy. pose proof (@Bplus_correct (prec t) (emax t) _ _ mode_NE x y Fx Fy) as C. destruct (Rlt_bool_spec (Rabs (round radix2 (SpecFloat.fexp (prec t) (emax t)) (round_mode mode_NE) (B2R x + B2R y))) (bpow radix2 (emax t))).
  - left. apply fadd_val; auto.
  - right. destruct C as [C S]. apply overflow_not_finite in C; auto. rewrite S in C. exact C. Qed.
Lemma neg_sign t (x : float t) : val x < 0 -> Bsign x = true.
Proof. unfold val. destruct x as [b|b| |b m e H]; cbn; try lra. destruct b; auto. intro L. exfalso. assert (0 < F2R (Float radix2 (Z.pos m) e)) by now apply F2R_gt_0. cbn in L. lra. Qed.

Lemma loop_forever t (stop step : float t) (a : R) : finite stop -> finite step -> val step < 0 -> a < val stop -> generic_format radix2 (fexpt t) a ->
  forall fuel cur, (cur = B754_infinity true \/ (finite cur /\ val cur <= a)) -> count_floats fuel cur stop step = None.
Proof. intros F1 F2 N L G. induction fuel as [|fuel IH]; intros cur C; [reflexivity|]. cbn [count_floats]. assert (T : flt cur stop = true). { destruct C as [-> |[Fc Lc]]; [destruct stop as [| | |[|]]; try discriminate; reflexivity|]. rewrite flt_val by auto. apply Rlt_bool_true. lra. }
  rewrite T. rewrite IH; auto. destruct C as [-> |[Fc Lc]].
  - left. destruct step; try discriminate; reflexivity.
  - destruct (fadd_cases t cur step Fc F2) as [[E Fs]|E].
    + right. split; auto. rewrite E. rewrite <- (rnd_id t a) by auto. apply rnd_le. lra.
    + left. rewrite E, neg_sign; auto. Qed.

Lemma pos_sign t (x : float t) : 0 < val x -> Bsign x = false.
Proof. unfold val. destruct x as [b|b| |b m e H]; cbn; try lra. destruct b; auto. intro L. exfalso. assert (F2R (Float radix2 (Z.neg m) e) < 0) by now apply F2R_lt_0. cbn in L. lra. Qed.
Definition after {t} (start step : float t) (k : nat) : float t := Nat.iter k (fun x => fadd x step) start.
Lemma after_S t (start step : float t) k : after (fadd start step) step k = after start step (S k).
Proof. induction k as [|k IH]; [reflexivity|]. change (fadd (after (fadd start step) step k) step = fadd (after start step (S k)) step). now rewrite IH. Qed.
Lemma loop_infinite t (step : float t) : finite step -> 0 < val step -> forall fuel cur v, finite cur \/ cur = B754_infinity false -> count_floats fuel cur (B754_infinity false) step = Some v ->
  exists n, v = map (after cur step) (seq 0 n) /\ Forall finite v /\ after cur step n = B754_infinity false.
Proof. intros F P. induction fuel as [|fuel IH]; intros cur v C H; [discriminate|]. cbn [count_floats] in H. destruct C as [C| ->].
  - assert (L : flt cur (B754_infinity false) = true) by (destruct cur as [|[|]| |[|]]; try discriminate; reflexivity). rewrite L in H. destruct (count_floats fuel (fadd cur step) _ step) as [r|] eqn:E; [|discriminate]. injection H as <-. destruct (IH (fadd cur step) r) as (n & -> & Fv & En); auto.
    { destruct (fadd_cases t cur step C F) as [[_ G]|G]; [left; exact G|right; rewrite G, pos_sign; auto]. }
    exists (S n). split; [|split; [constructor; auto|]].
    + cbn [seq map]. f_equal. rewrite <- seq_shift, map_map. apply map_ext. intro k. apply after_S.
    + now rewrite <- after_S.
  - cbn in H. injection H as <-. exists 0%nat. split; [reflexivity|]. split; [constructor|reflexivity]. Qed.
Section Wrong.
  Context (t : float_type) (start stop step : float t) (F1 : finite start) (F2 : finite stop) (F3 : finite step) (M1 : moderate t (val start)) (M2 : moderate t (val stop)).
  Lemma sub_val : val (fsub (convert t F64 stop) (convert t F64 start)) = RN64 (val stop - val start) /\ finite (fsub (convert t F64 stop) (convert t F64 start)).
  Proof. destruct (to64 t start F1) as [V1 G1], (to64 t stop F2) as [V2 G2]. destruct (fsub_val F64 _ _ G2 G1) as [A B]. 2:{ rewrite V1, V2 in A. split; auto. }
    rewrite V1, V2. unfold moderate in *. apply Rle_lt_trans with (two (emax t - 2)); [|apply two_lt; pose proof (emax_range t); cbn; lia]. apply rnd_bound; [destruct t; cbn; lia|]. unfold Rminus. eapply Rle_trans; [apply Rabs_triang|]. rewrite Rabs_Ropp. replace (two (emax t - 2)) with (2 * two (emax t - 3)); [lra|]. unfold two. replace (emax t - 2)%Z with (1 + (emax t - 3))%Z by ring. rewrite bpow_plus. reflexivity. Qed.
  Lemma count_cases : val step <> 0 -> (exists q, q = RN64 (RN64 (val stop - val start) / val step) /\ to_usize (fceil (fdiv (fsub (convert t F64 stop) (convert t F64 start)) (convert t F64 step))) = if (-1 <? Zceil q)%Z && (Zceil q <? 2 ^ 64)%Z then Some (Zceil q) else None) \/ to_usize (fceil (fdiv (fsub (convert t F64 stop) (convert t F64 start)) (convert t F64 step))) = None.
  Proof. intro N. destruct sub_val as [S1 S2]. destruct (to64 t step F3) as [V3 G3]. destruct (fdiv_cases F64 (fsub (convert t F64 stop) (convert t F64 start)) (convert t F64 step) S2) as [[A B]|B]; [now rewrite V3| |].
    - left. eexists. split; [reflexivity|]. rewrite to_usize_val by auto. now rewrite A, S1, V3.
    - right. apply to_usize_inf. now rewrite (proj2 (fceil_val F64 _)). Qed.
  Lemma step_nonzero : val step <> 0 -> feq step fzero = false.
  Proof. intro N. rewrite feq_val by (auto; reflexivity). apply Req_bool_false. exact N. Qed.
  Lemma arange_none fuel : (0 < val step /\ val stop <= val start) \/ (val step < 0 /\ val start = val stop) -> arange_float (S fuel) start stop step = Some (Ok []).
  Proof. intro C. assert (N : val step <> 0) by (destruct C; lra). unfold arange_float. rewrite step_nonzero by auto. unfold arange_f64. cbv zeta. assert (L : count_floats (S fuel) start stop step = Some []). { cbn. rewrite flt_val by auto. rewrite Rlt_bool_false by (destruct C; lra). reflexivity. }
    destruct (count_cases N) as [(q & Eq & E)|E]; rewrite E; [|now rewrite L]. destruct ((-1 <? Zceil q)%Z && (Zceil q <? 2 ^ 64)%Z) eqn:B; [|now rewrite L].
    apply andb_true_iff in B. destruct B as [B _]. apply Z.ltb_lt in B. assert (Q : q <= 0).
    { rewrite Eq. rewrite <- (RN64_id 0) by apply generic_format_0. apply RN64_le. destruct C as [[P1 P2]|[P1 P2]].
      - assert (RN64 (val stop - val start) <= 0) by (rewrite <- (RN64_id 0) by apply generic_format_0; apply RN64_le; lra). apply Rmult_le_reg_r with (val step); auto. unfold Rdiv. rewrite Rmult_assoc, Rinv_l, Rmult_1_r by lra. lra.
      - replace (val stop - val start) with 0 by lra. rewrite (RN64_id 0) by apply generic_format_0. unfold Rdiv. rewrite Rmult_0_l. lra. }
    assert (Zceil q <= 0)%Z by (apply Zceil_glb; auto). replace (Zceil q) with 0%Z by lia. reflexivity. Qed.
  Lemma arange_forever fuel : val step < 0 -> val start < val stop -> - val step <= val stop - val start -> arange_float fuel start stop step = None.
  Proof. intros N L H. unfold arange_float. rewrite step_nonzero by lra. unfold arange_f64. cbv zeta. assert (E : to_usize (fceil (fdiv (fsub (convert t F64 stop) (convert t F64 start)) (convert t F64 step))) = None).
    { destruct (count_cases ltac:(lra)) as [(q & Eq & E)|E]; rewrite E; auto. assert (q <= -1). { rewrite Eq. rewrite <- (RN64_id (-1)) by (apply int_format; lia). apply RN64_le. assert (D : - val step <= RN64 (val stop - val start)). { rewrite <- (RN64_id (- val step)) by (apply generic_format_opp, val_format64). now apply RN64_le. }
        replace (-1) with (- val step / val step) by (field; lra). unfold Rdiv. apply Rmult_le_compat_neg_l with (r := / val step) in D; [|apply Rlt_le, Rinv_lt_0_compat; auto]. lra. }
      assert (Zceil q <= -1)%Z by (apply Zceil_glb; auto). replace (-1 <? Zceil q)%Z with false; auto. symmetry. apply Z.ltb_ge. auto. }
    rewrite E. rewrite (loop_forever t stop step (val start)); auto using val_format. right. split; auto. lra. Qed.
End Wrong.

(** ** linspace *)
Section Linspace.
  Context (t : float_type) (start stop : float t) (n : nat) (endpoint : bool) (F1 : finite start) (F2 : finite stop).
  Let a := val start. Let b := val stop. Let M := larger a b. Let u := unit_roundoff t. Let eta := smallest t. Let W := 8 * u * M + 4 * eta.
  Let m := (if endpoint then n - 1 else n)%nat.
  Context (Hn : (2 <= n)%nat) (HM : M <= two (emax t - 3)) (HW : 4 * INR n * W <= M).
  Let s := (b - a) / INR m. Let h := linspace_step start stop n endpoint.
  Lemma rnd_err x : Rabs (rnd t x - x) <= u * Rabs x + eta.
  Proof. exact (errT (prec t) (emax t) (prec_range t) x). Qed.
  Lemma lu : 0 < u <= / 8. Proof. split; [apply bpow_gt_0|]. change (/ 8) with (bpow radix2 (- (3))). apply bpow_le. pose proof (prec_range t). lia. Qed.
  Lemma leta : 0 < eta. Proof. apply bpow_gt_0. Qed.
  Lemma mn : (1 <= m)%nat /\ (n - 1 <= m <= n)%nat. Proof. unfold m. destruct endpoint; lia. Qed.
  Lemma lM : 0 < M /\ 0 < u * M /\ 0 < W /\ (64 * (u * M) + 32 * eta <= M).
  Proof. pose proof lu as [U1 U2]. pose proof leta as E. assert (M0 : 0 <= M) by (eapply Rle_trans; [apply (Rabs_pos a)|apply Rmax_l]). assert (UM0 : 0 <= u * M) by (apply Rmult_le_pos; lra). assert (WP : 0 < W) by (unfold W; lra). assert (N2 : 2 <= INR n) by (change 2 with (INR 2); now apply le_INR). assert (8 * W <= 4 * INR n * W) by (apply Rmult_le_compat_r; lra).
    assert (MP : 0 < M) by lra. assert (0 < u * M) by (apply Rmult_lt_0_compat; lra). repeat split; auto. unfold W in *. lra. Qed.
  Lemma n_small : INR n * (32 * u) <= 1.
  Proof. pose proof lM as (MP & UM & WP & _). pose proof leta. pose proof (pos_INR n). apply Rmult_le_reg_r with M; auto. rewrite Rmult_1_l. eapply Rle_trans; [|exact HW]. unfold W. replace (4 * INR n * (8 * u * M + 4 * eta)) with (INR n * (32 * u) * M + 16 * (INR n * eta)) by ring. assert (0 <= INR n * eta) by (apply Rmult_le_pos; lra). lra. Qed.
  Lemma n_repr k : (k <= n)%nat -> val (of_int (Z.of_nat k) : float t) = INR k /\ finite (of_int (Z.of_nat k) : float t).
  Proof. intro K. rewrite INR_IZR_INZ. apply int_val. rewrite Z.abs_eq by lia. apply le_IZR. rewrite <- INR_IZR_INZ. apply Rle_trans with (INR n); [now apply le_INR|]. pose proof n_small as S. pose proof lu as [U _]. apply Rmult_le_reg_r with (32 * u); [lra|]. eapply Rle_trans; [exact S|]. unfold u, unit_roundoff, two. change 2%Z with (radix_val radix2). rewrite IZR_Zpower by (pose proof (prec_range t); lia). replace (bpow radix2 (prec t) * (32 * bpow radix2 (- prec t))) with (32 * (bpow radix2 (prec t) * bpow radix2 (- prec t))) by ring. rewrite <- bpow_plus. replace (prec t + - prec t)%Z with 0%Z by ring. cbn. lra. Qed.
  Lemma mod4 : 4 * M < two (emax t).
  Proof. pose proof lM as (MP & _). apply Rlt_le_trans with (8 * two (emax t - 3)); [lra|]. right. unfold two. replace (emax t) with (3 + (emax t - 3))%Z at 2 by ring. rewrite bpow_plus. reflexivity. Qed.
  Lemma abM : - M <= a <= M /\ - M <= b <= M.
  Proof. split; apply Rabs_le_inv; [apply Rmax_l|apply Rmax_r]. Qed.
  (** the step *)
  Lemma step_val : finite h /\ Rabs (val h - s) <= (5 * (u * M) + 2 * eta) / INR m + eta /\ Rabs s * INR m <= 2 * M.
  Proof. pose proof lM as (MP & UM & WP & B). pose proof leta as EP. pose proof lu as [U1 U2]. pose proof mod4 as M4. pose proof abM as [A1 A2]. pose proof mn as [m1 m2].
    assert (mR : 1 <= INR m) by (change 1 with (INR 1); now apply le_INR). pose proof (rnd_err (b - a)) as E1. assert (AB : Rabs (b - a) <= 2 * M) by (apply Rabs_le; lra).
    assert (E1' : u * Rabs (b - a) <= 2 * (u * M)). { replace (2 * (u * M)) with (u * (2 * M)) by ring. apply Rmult_le_compat_l; lra. } set (D := rnd t (b - a)) in *. assert (E1'' : Rabs (D - (b - a)) <= 2 * (u * M) + eta) by lra. assert (DB : Rabs D <= 2 * M + 2 * (u * M) + eta). { replace D with ((D - (b - a)) + (b - a)) by ring. eapply Rle_trans; [apply Rabs_triang|]. lra. }
    destruct (fsub_val t stop start F2 F1) as [S1 S2]. { fold a b D. lra. } fold a b D in S1.
    assert (Nm : val (of_int (if endpoint then Z.of_nat n - 1 else Z.of_nat n) : float t) = INR m /\ finite (of_int (if endpoint then Z.of_nat n - 1 else Z.of_nat n) : float t)). { replace (if endpoint then Z.of_nat n - 1 else Z.of_nat n)%Z with (Z.of_nat m) by (unfold m; destruct endpoint; lia). apply n_repr. lia. }
    destruct Nm as [N1 N2]. assert (I : 0 < / INR m <= 1). { split; [apply Rinv_0_lt_compat; lra|]. rewrite <- Rinv_1. apply Rinv_le_contravar; lra. }
    pose proof (rnd_err (D / INR m)) as E2. assert (DM : Rabs (D / INR m) = Rabs D * / INR m). { unfold Rdiv. rewrite Rabs_mult. rewrite (Rabs_pos_eq (/ INR m)); lra. } rewrite DM in E2.
    assert (DM1 : Rabs D * / INR m <= Rabs D). { rewrite <- (Rmult_1_r (Rabs D)) at 2. apply Rmult_le_compat_l; [apply Rabs_pos|lra]. }
    assert (DM2 : u * (Rabs D * / INR m) <= / 8 * Rabs D) by (apply Rmult_le_compat; try lra; apply Rmult_le_pos; [apply Rabs_pos|lra]).
    assert (Q : Rabs (rnd t (D / INR m)) <= 2 * Rabs D + eta). { replace (rnd t (D / INR m)) with ((rnd t (D / INR m) - D / INR m) + D / INR m) by ring. eapply Rle_trans; [apply Rabs_triang|]. rewrite DM. pose proof (Rabs_pos D). lra. }
    destruct (fdiv_val t (fsub stop start) (of_int (if endpoint then Z.of_nat n - 1 else Z.of_nat n)) S2) as [H1 H2]. { rewrite N1. lra. } { rewrite N1, S1. pose proof (Rabs_pos D). assert (Rabs (rnd t (D / INR m)) <= 2 * Rabs D + eta) by exact Q. assert (K : Rabs (rnd t (D / INR m)) < two (emax t)).
        { apply Rle_lt_trans with (Rabs D * (9 / 8) + eta); [|lra]. replace (rnd t (D / INR m)) with ((rnd t (D / INR m) - D / INR m) + D / INR m) by ring. eapply Rle_trans; [apply Rabs_triang|]. rewrite DM. lra. } exact K. }
    rewrite N1, S1 in H1. split; [exact H2|]. change (val h) with (val (fdiv (fsub stop start) (of_int (if endpoint then Z.of_nat n - 1 else Z.of_nat n)))). rewrite H1. split.
    - replace (rnd t (D / INR m) - s) with ((rnd t (D / INR m) - D / INR m) + (D - (b - a)) / INR m). 2:{ unfold s. field. lra. } eapply Rle_trans; [apply Rabs_triang|]. unfold Rdiv at 3. rewrite Rabs_mult, (Rabs_pos_eq (/ INR m)) by lra.
      assert (X1 : Rabs (D - (b - a)) * / INR m <= (2 * (u * M) + eta) * / INR m) by (apply Rmult_le_compat_r; lra).
      assert (X2 : u * (Rabs D * / INR m) <= (3 * (u * M) + eta) * / INR m). { replace (u * (Rabs D * / INR m)) with (u * Rabs D * / INR m) by ring. apply Rmult_le_compat_r; [lra|]. apply Rle_trans with (u * (2 * M + 2 * (u * M) + eta)); [apply Rmult_le_compat_l; lra|]. assert (u * (u * M) <= / 8 * (u * M)) by (apply Rmult_le_compat_r; lra). assert (u * eta <= / 8 * eta) by (apply Rmult_le_compat_r; lra). lra. }
      unfold Rdiv. lra.
    - unfold s, Rdiv. rewrite Rabs_mult, (Rabs_pos_eq (/ INR m)) by lra. rewrite Rmult_assoc, Rinv_l, Rmult_1_r by lra. auto. Qed.
  Lemma hull i : (i <= m)%nat -> Rabs (a + INR i * s) <= M.
  Proof. intro I. pose proof mn as [m1 _]. pose proof abM as [A B]. assert (mR : 1 <= INR m) by (change 1 with (INR 1); now apply le_INR). assert (iR : 0 <= INR i <= INR m) by (split; [apply pos_INR|now apply le_INR]). set (r := INR i / INR m). assert (R : 0 <= r <= 1). { unfold r, Rdiv. assert (0 < / INR m) by (apply Rinv_0_lt_compat; lra). split; [apply Rmult_le_pos; lra|]. apply Rmult_le_reg_r with (INR m); [lra|]. rewrite Rmult_assoc, Rinv_l; lra. }
    replace (a + INR i * s) with ((1 - r) * a + r * b) by (unfold s, r; field; lra). apply Rabs_le. assert (0 <= (1 - r) * (M - a) + r * (M - b)) by (apply Rplus_le_le_0_compat; apply Rmult_le_pos; lra). assert (0 <= (1 - r) * (M + a) + r * (M + b)) by (apply Rplus_le_le_0_compat; apply Rmult_le_pos; lra). lra. Qed.
  Lemma err_s : Rabs (val h - s) <= 5 * (u * M) + 3 * eta.
  Proof. destruct step_val as (_ & E & _). eapply Rle_trans; [exact E|]. pose proof lM as (MP & UM & _). pose proof leta. pose proof mn as [m1 _]. assert (mR : 1 <= INR m) by (change 1 with (INR 1); now apply le_INR). assert ((5 * (u * M) + 2 * eta) / INR m <= 5 * (u * M) + 2 * eta). { apply Rmult_le_reg_r with (INR m); [lra|]. unfold Rdiv. rewrite Rmult_assoc, Rinv_l, Rmult_1_r by lra. rewrite <- (Rmult_1_r (5 * (u * M) + 2 * eta)) at 1. apply Rmult_le_compat_l; lra. } lra. Qed.
  (** the loop *)
  Lemma loop_ok k : forall i v, finite v -> Rabs (val v - (a + INR i * s)) <= INR i * W -> (i + k <= n)%nat -> forall j x, nth_error (linspace_floats k v h) j = Some x -> finite x /\ Rabs (val x - (a + INR (i + j) * s)) <= INR (i + j) * W.
  Proof. induction k as [|k IH]; intros i v Fv Ev L j x E; [destruct j; discriminate|]. destruct j as [|j].
    - cbn in E. inversion E; subst. rewrite Nat.add_0_r. auto.
    - cbn [linspace_floats nth_error] in E. replace (i + S j)%nat with (S i + j)%nat by lia. destruct k as [|k']; [destruct j; discriminate|]. set (k := S k') in *.
      assert (G : finite (fadd v h) /\ Rabs (val (fadd v h) - (a + INR (S i) * s)) <= INR (S i) * W).
      { destruct step_val as (Fh & _ & _). pose proof err_s as Es. pose proof lM as (MP & UM & WP & B). pose proof leta as EP. pose proof lu as [U1 U2]. pose proof mod4 as M4. pose proof mn as [m1 m2]. pose proof (hull (S i) ltac:(lia)) as Hu. rewrite S_INR in *.
        assert (IW : INR i * W <= M / 4). { assert (INR i <= INR n) by (apply le_INR; lia). assert (INR i * W <= INR n * W) by (apply Rmult_le_compat_r; lra). lra. }
        assert (Sum : Rabs (val v + val h) <= M + M / 4 + M / 8). { replace (val v + val h) with ((a + (INR i + 1) * s) + (val v - (a + INR i * s)) + (val h - s)) by ring. eapply Rle_trans; [apply Rabs_triang|]. eapply Rle_trans; [apply Rplus_le_compat_r, Rabs_triang|]. lra. }
        pose proof (rnd_err (val v + val h)) as Er. assert (Er' : u * Rabs (val v + val h) <= u * (3 / 2 * M)) by (apply Rmult_le_compat_l; lra).
        destruct (fadd_val t v h Fv Fh) as [A1 A2]. { replace (rnd t (val v + val h)) with ((rnd t (val v + val h) - (val v + val h)) + (val v + val h)) by ring. eapply Rle_lt_trans; [apply Rabs_triang|]. lra. }
        split; auto. rewrite A1. replace (rnd t (val v + val h) - (a + (INR i + 1) * s)) with ((rnd t (val v + val h) - (val v + val h)) + (val v - (a + INR i * s)) + (val h - s)) by ring. eapply Rle_trans; [apply Rabs_triang|]. eapply Rle_trans; [apply Rplus_le_compat_r, Rabs_triang|]. replace ((INR i + 1) * W) with (INR i * W + W) by ring. unfold W in *. lra. }
      destruct G as [G1 G2]. apply (IH (S i) (fadd v h) G1 G2); auto. lia. Qed.
  Lemma serial_len k : forall v g, length (@linspace_floats t k v g) = k. Proof. induction k; cbn; auto. Qed.
  Lemma linspace_serial_ok : Forall finite (linspace_serial start stop n endpoint) /\ evenly_spaced a b m n (fun i => INR i * W) (map val (linspace_serial start stop n endpoint)).
  Proof. assert (E : linspace_serial start stop n endpoint = linspace_floats n start h) by (unfold linspace_serial; destruct n as [|[|]]; [lia|lia|reflexivity]). rewrite E.
    assert (L : forall j x, nth_error (linspace_floats n start h) j = Some x -> finite x /\ Rabs (val x - (a + INR j * s)) <= INR j * W). { intros j x Ej. apply (loop_ok n 0 start F1); auto. cbn. rewrite !Rmult_0_l, Rplus_0_r. unfold a. rewrite Rminus_diag_eq, Rabs_R0 by auto. lra. }
    split; [|split].
    - apply Forall_forall. intros x Ix. apply In_nth_error in Ix. destruct Ix as [j Ej]. apply (L j x Ej).
    - now rewrite map_length, serial_len.
    - intros i y Ey. rewrite nth_error_map in Ey. destruct (nth_error (linspace_floats n start h) i) as [x|] eqn:Ex; [|discriminate]. inversion Ey; subst. apply (L i x Ex). Qed.
  Definition parallel_tol (i : nat) : R := match i with O => 0 | _ => 12 * u * M + (INR i + 4) * eta end.
  Lemma linspace_parallel_ok : Forall finite (linspace_parallel start stop n endpoint) /\ evenly_spaced a b m n parallel_tol (map val (linspace_parallel start stop n endpoint)).
  Proof. assert (E : linspace_parallel start stop n endpoint = map (fun i => fadd start (fmul (of_int (Z.of_nat i)) h)) (seq 0 n)) by (unfold linspace_parallel; destruct n as [|[|]]; [lia|lia|reflexivity]). rewrite E.
    assert (L : forall i, (i < n)%nat -> finite (fadd start (fmul (of_int (Z.of_nat i)) h)) /\ Rabs (val (fadd start (fmul (of_int (Z.of_nat i)) h)) - (a + INR i * s)) <= parallel_tol i).
    { intros i I. destruct step_val as (Fh & Es & Sm). pose proof lM as (MP & UM & WP & B). pose proof leta as EP. pose proof lu as [U1 U2]. pose proof mod4 as M4. pose proof mn as [m1 m2]. pose proof (hull i ltac:(lia)) as Hu. destruct (n_repr i ltac:(lia)) as [N1 N2]. assert (iR : 0 <= INR i <= INR m) by (split; [apply pos_INR|apply le_INR; lia]). assert (mR : 1 <= INR m) by (change 1 with (INR 1); now apply le_INR). pose proof abM as [A1 A2].
      assert (NW : INR i * eta <= M / 16). { assert (INR i <= INR n) by (apply le_INR; lia). assert (INR i * W <= INR n * W) by (apply Rmult_le_compat_r; lra). assert (INR i * (4 * eta) <= INR i * W) by (apply Rmult_le_compat_l; [lra|unfold W; lra]). lra. }
      assert (Ei : INR i * Rabs (val h - s) <= 5 * (u * M) + 2 * eta + INR i * eta). { apply Rle_trans with (INR i * ((5 * (u * M) + 2 * eta) / INR m + eta)); [apply Rmult_le_compat_l; lra|]. rewrite Rmult_plus_distr_l. apply Rplus_le_compat_r. unfold Rdiv. replace (INR i * ((5 * (u * M) + 2 * eta) * / INR m)) with ((5 * (u * M) + 2 * eta) * (INR i * / INR m)) by ring. rewrite <- (Rmult_1_r (5 * (u * M) + 2 * eta)) at 2. apply Rmult_le_compat_l; [lra|]. apply Rmult_le_reg_r with (INR m); [lra|]. rewrite Rmult_assoc, Rinv_l; lra. }
      assert (Is : INR i * Rabs s <= 2 * M). { eapply Rle_trans; [|exact Sm]. rewrite Rmult_comm. apply Rmult_le_compat_l; [apply Rabs_pos|lra]. }
      assert (P : Rabs (INR i * val h) <= 3 * M). { replace (INR i * val h) with (INR i * s + INR i * (val h - s)) by ring. eapply Rle_trans; [apply Rabs_triang|]. rewrite !Rabs_mult, (Rabs_pos_eq (INR i)) by lra. lra. }
      pose proof (rnd_err (INR i * val h)) as Ey. assert (Ey' : u * Rabs (INR i * val h) <= 3 * (u * M)). { replace (3 * (u * M)) with (u * (3 * M)) by ring. apply Rmult_le_compat_l; lra. }
      destruct (fmul_val t (of_int (Z.of_nat i)) h N2 Fh) as [Y1 Y2]. { rewrite N1. replace (rnd t (INR i * val h)) with ((rnd t (INR i * val h) - INR i * val h) + INR i * val h) by ring. eapply Rle_lt_trans; [apply Rabs_triang|]. lra. } rewrite N1 in Y1. set (y := rnd t (INR i * val h)) in *.
      assert (Yi : Rabs (y - INR i * s) <= 8 * (u * M) + 3 * eta + INR i * eta). { replace (y - INR i * s) with ((y - INR i * val h) + INR i * (val h - s)) by ring. eapply Rle_trans; [apply Rabs_triang|]. rewrite Rabs_mult, (Rabs_pos_eq (INR i)) by lra. lra. }
      assert (AY : Rabs (a + y) <= 3 / 2 * M). { replace (a + y) with ((a + INR i * s) + (y - INR i * s)) by ring. eapply Rle_trans; [apply Rabs_triang|]. lra. }
      pose proof (rnd_err (a + y)) as Ez. assert (Ez' : u * Rabs (a + y) <= u * (3 / 2 * M)) by (apply Rmult_le_compat_l; lra).
      destruct (fadd_val t start (fmul (of_int (Z.of_nat i)) h) F1 Y2) as [Z1 Z2]. { rewrite Y1. fold a. replace (rnd t (a + y)) with ((rnd t (a + y) - (a + y)) + (a + y)) by ring. eapply Rle_lt_trans; [apply Rabs_triang|]. lra. }
      split; auto. rewrite Z1, Y1. fold a. destruct i as [|i'].
      - cbn [parallel_tol]. unfold y. change (INR 0) with 0. rewrite Rmult_0_l. rewrite (rnd_id t 0) by apply generic_format_0. rewrite Rplus_0_r, (rnd_id t a) by apply val_format. rewrite Rmult_0_l, Rplus_0_r, Rminus_diag_eq, Rabs_R0 by auto. lra.
      - cbn [parallel_tol]. set (i := S i') in *. replace (rnd t (a + y) - (a + INR i * s)) with ((rnd t (a + y) - (a + y)) + (y - INR i * s)) by ring. eapply Rle_trans; [apply Rabs_triang|]. lra. }
    split; [|split].
    - apply Forall_forall. intros x Ix. apply in_map_iff in Ix. destruct Ix as (i & <- & Ii). apply in_seq in Ii. apply L. lia.
    - now rewrite !map_length, seq_length.
    - intros i y Ey. rewrite map_map, nth_error_map in Ey. destruct (nth_error (seq 0 n) i) as [x|] eqn:Ex; [|discriminate]. inversion Ey; subst. assert (I : (i < n)%nat). { assert (nth_error (seq 0 n) i <> None) as N by congruence. apply nth_error_Some in N. now rewrite seq_length in N. } rewrite nth_error_nth' with (d := 0%nat) in Ex by (rewrite seq_length; auto). rewrite seq_nth in Ex by auto. inversion Ex; subst. apply (L _ I). Qed.
End Linspace.
