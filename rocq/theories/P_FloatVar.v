(** Rounding errors of variances *)
From Coq Require Import ZArith Reals List Lia Lra Bool.
From Flocq Require Import Core Relative BinarySingleNaN.
From Verif Require Import Base Spec Spec_Float Spec_FloatReduce Spec_FloatMatmul Spec_FloatProd Spec_FloatVar P_ArangeFloat M_Float P_FloatOps P_FloatLinspace M_FloatReduce P_FloatSum Q_FloatReduce P_FloatProd Q_FloatProd.
Import ListNotations.
Local Open Scope R_scope.

Lemma smallest_1 t : smallest t <= 1. Proof. unfold smallest. change 1 with (two 0). apply bpow_le. destruct t; cbn; discriminate. Qed.
(** ** exact facts *)
Lemma rsum_sq_expand {t} (xs : list (float t)) m : rsum (map (fun x => (val x - m) * (val x - m)) xs) = exact_dot (squares xs) - 2 * m * exact_sum xs + INR (length xs) * (m * m).
Proof. unfold exact_dot, exact_sum, squares. rewrite map_map. cbn [fst snd]. induction xs as [|x xs IH]; [cbn; ring|]. cbn [map rsum fold_right length]. unfold rsum in IH. rewrite S_INR, IH. ring. Qed.
Lemma rsum_sq_pos {t} (xs : list (float t)) m : 0 <= rsum (map (fun x => (val x - m) * (val x - m)) xs).
Proof. induction xs as [|x xs IH]; cbn [map rsum fold_right]; [lra|]. unfold rsum in IH. pose proof (Rle_0_sqr (val x - m)) as H. unfold Rsqr in H. lra. Qed.
Lemma var_formula {t} (xs : list (float t)) : xs <> [] -> exact_var xs = mean_square xs - exact_mean xs * exact_mean xs.
Proof. intro N. assert (0 < INR (length xs)) by (apply lt_0_INR; destruct xs; [congruence|cbn; lia]). unfold exact_var, mean_square. rewrite rsum_sq_expand. unfold exact_mean. field. lra. Qed.
Lemma var_pos {t} (xs : list (float t)) : xs <> [] -> 0 <= exact_var xs.
Proof. intro N. assert (0 < INR (length xs)) by (apply lt_0_INR; destruct xs; [congruence|cbn; lia]). apply Rmult_le_pos; [apply rsum_sq_pos|]. left. now apply Rinv_0_lt_compat. Qed.
(** Cauchy-Schwarz: the mean of the magnitudes is at most the root of the mean of the squares *)
Lemma abs_sq_expand {t} (xs : list (float t)) m : rsum (map (fun x => (Rabs (val x) - m) * (Rabs (val x) - m)) xs) = exact_dot (squares xs) - 2 * m * magnitude xs + INR (length xs) * (m * m).
Proof. unfold exact_dot, magnitude, squares. rewrite map_map. cbn [fst snd]. induction xs as [|x xs IH]; [cbn; ring|]. cbn [map rsum fold_right length]. unfold rsum in IH. rewrite S_INR, IH.
  assert (E : Rabs (val x) * Rabs (val x) = val x * val x) by (rewrite <- Rabs_mult; apply Rabs_pos_eq; nra). ring_simplify. replace (Rabs (val x) ^ 2) with (val x * val x) by (cbn; rewrite Rmult_1_r; now rewrite E). ring. Qed.
Lemma mean_magnitude {t} (xs : list (float t)) : xs <> [] -> magnitude xs / INR (length xs) <= sqrt (mean_square xs).
Proof. intro N. assert (P : 0 < INR (length xs)) by (apply lt_0_INR; destruct xs; [congruence|cbn; lia]). set (m := magnitude xs / INR (length xs)). pose proof (abs_sq_expand xs m) as E. assert (Q : 0 <= rsum (map (fun x => (Rabs (val x) - m) * (Rabs (val x) - m)) xs)). { clear E. clearbody m. clear N P. induction xs as [|x xs IH]; cbn [map rsum fold_right]; [lra|]. unfold rsum in IH. pose proof (Rle_0_sqr (Rabs (val x) - m)) as H. unfold Rsqr in H. lra. }
  rewrite E in Q. assert (M : magnitude xs = m * INR (length xs)) by (unfold m; field; lra). rewrite M in Q. assert (m * m <= mean_square xs). { unfold mean_square. apply Rmult_le_reg_r with (INR (length xs)); [exact P|]. replace (exact_dot (squares xs) / INR (length xs) * INR (length xs)) with (exact_dot (squares xs)) by (field; lra). lra. }
  destruct (Rle_lt_dec 0 m) as [C|C]; [|pose proof (sqrt_pos (mean_square xs)); lra]. rewrite <- (sqrt_square m C). now apply sqrt_le_1_alt. Qed.
(** ** one call *)
Lemma div_err t (s : float t) n : finite s -> (0 < n)%nat -> (Z.of_nat n <= 2 ^ prec t)%Z -> finite (div_count s n) /\ Rabs (val (div_count s n) - val s / INR n) <= unit_roundoff t * Rabs (val s / INR n) + smallest t.
Proof. intros F Pn L. unfold div_count. destruct (int_val t (Z.of_nat n)) as [Vn Fn]; [lia|]. rewrite <- INR_IZR_INZ in Vn. assert (Rn : 1 <= INR n) by (apply (le_INR 1); lia).
  assert (In : 0 < / INR n <= 1) by (split; [apply Rinv_0_lt_compat; lra|rewrite <- Rinv_1; apply Rinv_le_contravar; lra]).
  set (z := val s / INR n). assert (Az : Rabs z = Rabs (val s) * / INR n). { unfold z, Rdiv. rewrite Rabs_mult. f_equal. apply Rabs_pos_eq. lra. }
  assert (Rz : Rabs (rnd t z) <= Rabs (val s)). { apply abs_round_le_generic; auto with typeclass_instances. - apply generic_format_abs, val_format. - rewrite Az. pose proof (Rabs_pos (val s)). rewrite <- (Rmult_1_r (Rabs (val s))) at 2. apply Rmult_le_compat_l; lra. }
  assert (Lz : Rabs (rnd t (val s / val (of_int (Z.of_nat n) : float t))) < two (emax t)) by (rewrite Vn; fold z; eapply Rle_lt_trans; [exact Rz|apply val_lt]).
  destruct (fdiv_val t s (of_int (Z.of_nat n)) F) as [V Fd]; auto. { rewrite Vn. lra. } split; auto. rewrite V, Vn. fold z. apply rnd_err. Qed.
Lemma sub_err t (x y : float t) : finite x -> finite y -> Rabs (rnd t (val x - val y) - (val x - val y)) <= unit_roundoff t * Rabs (val x - val y).
Proof. intros Fx Fy. pose proof (sum_err t x (Bopp y)) as H. unfold val in H. rewrite B2R_Bopp in H. exact H. Qed.
(** the real-number core: r = (1 + u)^n, w = mean square, a its root *)
Lemma var_core u s r a mu m q m2 w dn : 0 <= u -> 0 <= s <= 1 -> 1 <= r -> 0 <= a -> a * a = w -> Rabs mu <= a ->
  Rabs (m - mu) <= (r - 1) * a + s -> Rabs (m2 - m * m) <= u * (m * m) + s -> 0 <= dn -> dn <= r * s -> Rabs (q - w) <= (r * (1 + u) - 1) * w + dn + s ->
  let E := 3 * (r * s) + (1 + u) * (2 * r * a * s + s * s) in
  Rabs m2 <= r * r * (1 + u) * w + (1 + u) * (2 * r * a * s + s * s) + s /\ Rabs (q - m2 - (w - mu * mu)) <= ((r * (1 + u) - 1) + (r * r * (1 + u) - 1)) * w + E.
Proof. intros U S R A W MU M M2 D0 D Q E. pose proof (Rabs_pos m) as m0. assert (Am : Rabs m <= r * a + s). { replace m with ((m - mu) + mu) by ring. eapply Rle_trans; [apply Rabs_triang|]. lra. }
  assert (Sq : m * m <= (r * a + s) * (r * a + s)). { rewrite <- (Rabs_pos_eq (m * m)) by nra. rewrite Rabs_mult. apply Rmult_le_compat; auto. }
  assert (Df : Rabs (m * m - mu * mu) <= ((r - 1) * a + s) * ((r + 1) * a + s)). { replace (m * m - mu * mu) with ((m - mu) * (m + mu)) by ring. rewrite Rabs_mult. apply Rmult_le_compat; auto using Rabs_pos. eapply Rle_trans; [apply Rabs_triang|]. lra. }
  replace ((r * a + s) * (r * a + s)) with (r * r * w + (2 * r * a * s + s * s)) in Sq by (rewrite <- W; ring). replace (((r - 1) * a + s) * ((r + 1) * a + s)) with ((r * r - 1) * w + (2 * r * a * s + s * s)) in Df by (rewrite <- W; ring).
  assert (T : u * (m * m) <= u * (r * r * w + (2 * r * a * s + s * s))) by (apply Rmult_le_compat_l; lra).
  assert (w0 : 0 <= w) by (rewrite <- W; nra). set (y := 2 * r * a * s + s * s) in *. split.
  - replace m2 with ((m2 - m * m) + m * m) by ring. eapply Rle_trans; [apply Rabs_triang|]. rewrite (Rabs_pos_eq (m * m)) by nra. lra.
  - replace (q - m2 - (w - mu * mu)) with ((q - w) + (- (m2 - m * m) + - (m * m - mu * mu))) by ring. eapply Rle_trans; [apply Rabs_triang|]. eapply Rle_trans; [apply Rplus_le_compat_l, Rabs_triang|]. rewrite !Rabs_Ropp. assert (s <= r * s) by nra. unfold E. fold y. lra. Qed.
Lemma var_rounds t (xs : list (float t)) s1 s2 : xs <> [] -> (Z.of_nat (length xs) <= 2 ^ prec t)%Z -> sums_to xs s1 -> dots_to (squares xs) s2 -> 2 * mean_square xs + var_bound xs < two (emax t) ->
  varies_by xs (fsub (div_count s2 (length xs)) (fmul (div_count s1 (length xs)) (div_count s1 (length xs)))).
Proof. intros N L H1 [F2 H2] NO. pose proof (sums_average t xs s1 H1 N L) as [Fm Em]. rewrite squares_magnitude in H2. unfold squares in H2 at 2 4. rewrite map_length in H2. set (n := length xs) in *. assert (Pn : (0 < n)%nat) by (unfold n; destruct xs; [congruence|cbn; lia]).
  destruct (div_err t s2 n F2 Pn L) as [Fq Eq]. set (m := div_count s1 n) in *. set (q := div_count s2 n) in *. set (w := mean_square xs) in *. assert (Rn : 1 <= INR n) by (apply (le_INR 1); lia).
  assert (Ew : exact_dot (squares xs) = w * INR n) by (unfold w, mean_square; fold n; field; lra). pose proof (mean_magnitude xs N) as CS. fold n w in CS. assert (w0 : 0 <= w). { unfold w, mean_square. apply Rmult_le_pos; [apply squares_pos|]. left. apply Rinv_0_lt_compat. fold n. lra. }
  pose proof (sqrt_pos w) as a0. pose proof (sqrt_sqrt w w0) as aw. set (a := sqrt w) in *. unfold varies_by. rewrite (var_formula xs N). fold w. set (mu := exact_mean xs) in *.
  assert (MU : Rabs mu <= a). { apply Rle_trans with (magnitude xs / INR n); [|exact CS]. unfold mu, exact_mean. fold n. unfold Rdiv. rewrite Rabs_mult, (Rabs_pos_eq (/ INR n)) by (left; apply Rinv_0_lt_compat; lra). apply Rmult_le_compat_r; [left; apply Rinv_0_lt_compat; lra|apply magnitude_pos]. }
  pose proof (unit_pos t) as U. pose proof (smallest_pos t) as S0. pose proof (smallest_1 t) as S1. pose proof (rounded_1 t n) as R1. set (r := rounded t n) in *. set (u := unit_roundoff t) in *. set (s := smallest t) in *.
  assert (M : Rabs (val m - mu) <= (r - 1) * a + s). { unfold averages_to in Em. eapply Rle_trans; [exact Em|]. apply Rplus_le_compat_r. apply Rmult_le_compat_l; lra. }
  (* the mean of the squares *)
  assert (DU : dot_underflow t n * (1 + u) = INR n * (r * s)). { unfold dot_underflow. assert (Er : r = rounded t (n - 1) * (1 + u)). { unfold r, u. rewrite <- rounded_S. f_equal. lia. } rewrite Er. fold s. ring. }
  assert (D1 : dot_underflow t n / INR n * (1 + u) = r * s). { unfold Rdiv. replace (dot_underflow t n * / INR n * (1 + u)) with (dot_underflow t n * (1 + u) * / INR n) by ring. rewrite DU. field. lra. }
  set (dn := dot_underflow t n / INR n) in *. assert (d0 : 0 <= dn). { unfold dn, dot_underflow. apply Rmult_le_pos; [|left; apply Rinv_0_lt_compat; lra]. repeat apply Rmult_le_pos; [lra|pose proof (rounded_1 t (n - 1)); lra|fold s; lra]. }
  assert (Q1 : Rabs (val s2 / INR n - w) <= (r - 1) * w + dn). { replace (val s2 / INR n - w) with ((val s2 - exact_dot (squares xs)) * / INR n) by (rewrite Ew; field; lra). rewrite Rabs_mult, (Rabs_pos_eq (/ INR n)) by (left; apply Rinv_0_lt_compat; lra). replace ((r - 1) * w + dn) with (((r - 1) * exact_dot (squares xs) + dot_underflow t n) * / INR n) by (rewrite Ew; unfold dn; field; lra). apply Rmult_le_compat_r; [left; apply Rinv_0_lt_compat; lra|exact H2]. }
  assert (Q : Rabs (val q - w) <= (r * (1 + u) - 1) * w + dn * (1 + u) + s). { set (z := val s2 / INR n) in *. assert (Rabs z <= w + Rabs (z - w)). { replace z with (w + (z - w)) at 1 by ring. eapply Rle_trans; [apply Rabs_triang|]. rewrite (Rabs_pos_eq w) by lra. lra. }
    assert (u * Rabs z <= u * (w + ((r - 1) * w + dn))) by (apply Rmult_le_compat_l; lra). replace (val q - w) with ((val q - z) + (z - w)) by ring. eapply Rle_trans; [apply Rabs_triang|]. lra. }
  (* the square of the mean *)
  pose proof (rnd_err t (val m * val m)) as M2. fold u s in M2. rewrite (Rabs_pos_eq (val m * val m)) in M2 by nra.
  destruct (var_core u s r a mu (val m) (val q) (rnd t (val m * val m)) w (dn * (1 + u))) as [B1 B2]; auto; try lra; [apply Rmult_le_pos; lra|].
  assert (RV : rounded t (2 * n + 2) = r * r * (1 + u) * (1 + u)). { replace (2 * n + 2)%nat with (S (S (n + n))) by lia. rewrite !rounded_S, rounded_plus. reflexivity. }
  assert (RW : rounded t (n + 2) = r * (1 + u) * (1 + u)). { replace (n + 2)%nat with (S (S n)) by lia. rewrite !rounded_S. reflexivity. }
  unfold var_bound in *. fold n w a s in NO |- *. rewrite RV, RW in NO |- *. clear RV RW DU D1 Q1 Q M Em Eq H2 CS.
  assert (c0 : 0 <= r * a * s) by (repeat apply Rmult_le_pos; lra). assert (sr : s * s <= r * s) by (apply Rmult_le_compat_r; lra). assert (p0 : 0 <= r * s) by nra. assert (rw : r * w <= r * r * w) by (apply Rmult_le_compat_r; nra). assert (ww : w <= r * w) by nra.
  set (E := 3 * (r * s) + (1 + u) * (2 * r * a * s + s * s)) in *. assert (EB : E <= (1 + u) * (r * (4 + 2 * a) * s)). { unfold E. replace ((1 + u) * (r * (4 + 2 * a) * s)) with (3 * (1 + u) * (r * s) + (1 + u) * (2 * r * a * s + r * s)) by ring. apply Rplus_le_compat; [apply Rmult_le_compat_r; lra|apply Rmult_le_compat_l; lra]. }
  replace (r * (1 + u) * (1 + u) * (4 + 2 * a) * s) with ((1 + u) * ((1 + u) * (r * (4 + 2 * a) * s))) in NO |- * by ring. set (K := (1 + u) * (r * (4 + 2 * a) * s)) in *. assert (KE : (1 + u) * E <= (1 + u) * K) by (apply Rmult_le_compat_l; lra). assert (K0 : 0 <= E) by (unfold E; apply Rplus_le_le_0_compat; [lra|apply Rmult_le_pos; [lra|nra]]). assert (KK : K <= (1 + u) * K) by nra.
  set (g := r * r * w) in *. assert (g0 : 0 <= g) by (unfold g; nra). replace (2 * (r * r * (1 + u) * (1 + u) - 1) * w) with (2 * ((1 + u) * ((1 + u) * g)) - 2 * w) in NO |- * by (unfold g; ring). assert (gg : g <= (1 + u) * g) by nra. assert (gh : (1 + u) * g <= (1 + u) * ((1 + u) * g)) by nra.
  assert (rw' : (1 + u) * (r * w) <= (1 + u) * g) by (apply Rmult_le_compat_l; lra).
  destruct (fmul_val t m m Fm Fm) as [V2 Fm2]. { eapply Rle_lt_trans; [exact B1|]. eapply Rle_lt_trans; [|exact NO]. replace (r * r * (1 + u) * w) with ((1 + u) * g) by (unfold g; ring). assert (s <= r * s) by nra. unfold E in *. lra. }
  set (m2 := fmul m m) in *. rewrite <- V2 in B2. pose proof (sub_err t q m2 Fq Fm2) as Es. fold u in Es. set (V := w - mu * mu) in *. assert (V0 : Rabs V <= w). { unfold V. rewrite Rabs_pos_eq; [nra|]. assert (mu * mu <= a * a); [|lra]. rewrite <- (Rabs_pos_eq (mu * mu)) by nra. rewrite Rabs_mult. apply Rmult_le_compat; auto using Rabs_pos. }
  replace ((r * (1 + u) - 1 + (r * r * (1 + u) - 1)) * w) with ((1 + u) * (r * w) + (1 + u) * g - 2 * w) in B2 by (unfold g; ring). set (d := val q - val m2) in *. assert (Ad : Rabs d <= w + Rabs (d - V)). { replace d with (V + (d - V)) at 1 by ring. eapply Rle_trans; [apply Rabs_triang|]. lra. }
  assert (Ed : u * Rabs d <= u * (w + ((1 + u) * (r * w) + (1 + u) * g - 2 * w + E))) by (apply Rmult_le_compat_l; lra).
  assert (uw : 0 <= u * w) by nra. assert (gx : (1 + u) * ((1 + u) * (r * w)) <= (1 + u) * ((1 + u) * g)) by (apply Rmult_le_compat_l; lra).
  assert (Fin : Rabs (rnd t d - V) <= 2 * ((1 + u) * ((1 + u) * g)) - 2 * w + (1 + u) * K). { replace (rnd t d - V) with ((rnd t d - d) + (d - V)) by ring. eapply Rle_trans; [apply Rabs_triang|]. eapply Rle_trans; [apply Rplus_le_compat; [exact Es|exact B2]|]. eapply Rle_trans; [apply Rplus_le_compat_r; exact Ed|].
    replace (u * (w + ((1 + u) * (r * w) + (1 + u) * g - 2 * w + E)) + ((1 + u) * (r * w) + (1 + u) * g - 2 * w + E)) with ((1 + u) * ((1 + u) * (r * w)) + (1 + u) * ((1 + u) * g) - 2 * w - u * w + (1 + u) * E) by ring. lra. }
  destruct (fsub_val t q m2 Fq Fm2) as [V3 F3]. { fold d. replace (rnd t d) with ((rnd t d - V) + V) by ring. eapply Rle_lt_trans; [apply Rabs_triang|]. lra. }
  split; [exact F3|]. rewrite V3. fold d. exact Fin. Qed.
Lemma dev_rounds t (xs : list (float t)) v : xs <> [] -> varies_by xs v -> var_bound xs <= exact_var xs -> 0 < exact_var xs -> deviates_by xs (fsqrt v).
Proof. intros N [F E] B P. set (V := exact_var xs) in *. assert (v0 : 0 <= val v). { pose proof (Rle_abs (- (val v - V))) as H. rewrite Rabs_Ropp in H. lra. } destruct (fsqrt_val t v F v0) as [Vq Fq]. split; [exact Fq|]. rewrite Vq. fold V. set (z := sqrt (val v)) in *. pose proof (rnd_err t z) as Er. pose proof (sqrt_pos (val v)) as z0. fold z in z0. rewrite (Rabs_pos_eq z) in Er by lra.
  pose proof (sqrt_lt_R0 V P) as y0. pose proof (sqrt_sqrt (val v) v0) as zz. pose proof (sqrt_sqrt V (Rlt_le _ _ P)) as yy. fold z in zz. set (y := sqrt V) in *. assert (D : Rabs (z - y) <= var_bound xs / y). { apply Rmult_le_reg_r with y; [exact y0|]. unfold Rdiv. rewrite Rmult_assoc, Rinv_l, Rmult_1_r by lra. eapply Rle_trans; [|exact E]. rewrite <- zz, <- yy. replace (z * z - y * y) with ((z - y) * (z + y)) by ring. rewrite Rabs_mult. apply Rmult_le_compat_l; [apply Rabs_pos|]. rewrite Rabs_pos_eq by lra. lra. }
  pose proof (unit_pos t) as U. unfold rounded. rewrite pow_1. set (u := unit_roundoff t) in *. set (b := var_bound xs / y) in *. assert (Az : z <= y + b). { pose proof (Rle_abs (z - y)). lra. } assert (u * z <= u * (y + b)) by (apply Rmult_le_compat_l; lra).
  replace (rnd t z - y) with ((rnd t z - z) + (z - y)) by ring. eapply Rle_trans; [apply Rabs_triang|]. lra. Qed.
