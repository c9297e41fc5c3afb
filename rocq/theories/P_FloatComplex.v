(** Rounding errors of sums, quotients and products of complex floating-point numbers *)
From Coq Require Import ZArith Reals List Lia Lra Bool.
From Flocq Require Import Core Relative BinarySingleNaN.
From Verif Require Import Base Spec Spec_Float Spec_FloatReduce Spec_FloatMatmul Spec_FloatProd P_ArangeFloat M_Float P_FloatOps P_FloatLinspace M_FloatReduce P_FloatSum Q_FloatReduce P_FloatDot P_FloatProd P_FloatVar M_FloatComplex Spec_FloatComplex.
Import ListNotations.
Local Open Scope R_scope.

(** numbers that are multiples of the smallest one are rounded with a relative error *)
Lemma rel_err t z : multiple_of (3 - emax t - prec t) z -> Rabs (rnd t z - z) <= unit_roundoff t * Rabs z.
Proof. intros (m & ->). pose proof (prec_range t) as P.
  pose proof (relative_error_N_FLT_F2R_emin radix2 (3 - emax t - prec t) (prec t) ltac:(lia) (fun x => negb (Z.even x)) m) as H. unfold F2R in H. cbn [Fnum Fexp] in H.
  replace (/ 2 * bpow radix2 (- prec t + 1)) with (unit_roundoff t) in H; [exact H|]. unfold unit_roundoff, two. rewrite bpow_plus. change (bpow radix2 1) with 2. field. Qed.
Lemma val_multiple {t} (x : float t) : multiple_of (3 - emax t - prec t) (val x).
Proof. pose proof (val_format t x) as F. apply generic_format_FIX_FLT in F. apply FIX_format_generic in F. destruct F as [f E1 E2]. exists (Fnum f). rewrite E1. unfold F2R. now rewrite E2. Qed.
Lemma multiple_int k x n : multiple_of k x -> multiple_of k (x * IZR n).
Proof. intros (m & ->). exists (m * n)%Z. rewrite mult_IZR. ring. Qed.
Lemma int_multiple t n : multiple_of (3 - emax t - prec t) (IZR n).
Proof. exists (n * 2 ^ (emax t + prec t - 3))%Z. rewrite mult_IZR. assert (E : (0 <= emax t + prec t - 3)%Z) by (destruct t; cbn; lia). change (2 ^ (emax t + prec t - 3))%Z with (Zpower radix2 (emax t + prec t - 3)). rewrite IZR_Zpower by exact E. unfold two. rewrite Rmult_assoc, <- bpow_plus. replace (emax t + prec t - 3 + (3 - emax t - prec t))%Z with 0%Z by ring. cbn [bpow]. ring. Qed.
Lemma int_err t n : Rabs (rnd t (IZR n) - IZR n) <= unit_roundoff t * Rabs (IZR n). Proof. apply rel_err, int_multiple. Qed.
Lemma scale_err t (x : float t) n : Rabs (rnd t (val x * IZR n) - val x * IZR n) <= unit_roundoff t * Rabs (val x * IZR n).
Proof. apply rel_err, multiple_int, val_multiple. Qed.

(** ** sums of terms that are off: [e] exactly, [m] their magnitude *)
Lemma sum_off t {P} (f : P -> float t) (e m : P -> R) j c ps : 0 <= c -> (forall p, In p ps -> Rabs (e p) <= m p /\ finite (f p) /\ Rabs (val (f p) - e p) <= (rounded t j - 1) * m p + c) ->
  Forall finite (map f ps) /\ Rabs (exact_sum (map f ps) - rsum (map e ps)) <= (rounded t j - 1) * rsum (map m ps) + INR (length ps) * c /\
  magnitude (map f ps) <= rounded t j * rsum (map m ps) + INR (length ps) * c /\ 0 <= rsum (map m ps).
Proof. intros Hc. induction ps as [|p ps IH]; intro H. { unfold exact_sum, magnitude, rsum. cbn. rewrite Rminus_0_r, Rabs_R0. split; [constructor|lra]. }
  destruct IH as (I0 & I1 & I2 & I3). { intros q Hq. apply H. now right. } destruct (H p ltac:(now left)) as (H1 & H2 & H3). pose proof (Rabs_pos (e p)) as H0. pose proof (rounded_1 t j) as H4.
  unfold exact_sum, magnitude, rsum in *. cbn [map fold_right] in *. change (length (p :: ps)) with (S (length ps)). rewrite S_INR. split; [now constructor|].
  set (A := fold_right Rplus 0 (map val (map f ps))) in *. set (B := fold_right Rplus 0 (map e ps)) in *. set (G := fold_right Rplus 0 (map m ps)) in *. split; [|split; [|lra]].
  - replace (val (f p) + A - (e p + B)) with ((val (f p) - e p) + (A - B)) by ring. eapply Rle_trans; [apply Rabs_triang|]. lra.
  - assert (V : Rabs (val (f p)) <= rounded t j * m p + c). { replace (val (f p)) with ((val (f p) - e p) + e p) by ring. eapply Rle_trans; [apply Rabs_triang|]. lra. } lra. Qed.
Lemma off_sums t {P} (f : P -> float t) (e m : P -> R) j c ps (v : float t) : 0 <= c -> (forall p, In p ps -> Rabs (e p) <= m p /\ finite (f p) /\ Rabs (val (f p) - e p) <= (rounded t (S j) - 1) * m p + c) ->
  near v (total sh_zero sh_add (map (fun p => sh_of is_finite (f p)) ps)) -> let n := length ps in rounded t (n + j) * rsum (map m ps) + INR n * rounded t (n - 1) * c < two (emax t) ->
  finite v /\ Rabs (val v - rsum (map e ps)) <= (rounded t (n + j) - 1) * rsum (map m ps) + INR n * rounded t (n - 1) * c.
Proof. intros Hc H N n L. destruct (sum_off t f e m (S j) c ps Hc H) as (F & E1 & E2 & E3). fold n in E1, E2. set (A := rsum (map m ps)) in *. pose proof (rounded_1 t (n - 1)) as G1. pose proof (rounded_1 t (S j)) as G2. pose proof (pos_INR n) as N0.
  assert (GN : rounded t (n - 1) * rounded t (S j) * A <= rounded t (n + j) * A).
  { destruct n as [|k] eqn:EN.
    - unfold n in EN. destruct ps; [|discriminate EN]. unfold A, rsum. cbn. lra.
    - apply Rmult_le_compat_r; [exact E3|]. rewrite <- rounded_plus. apply rounded_le. lia. }
  assert (MG : rounded t (n - 1) * magnitude (map f ps) <= rounded t (n + j) * A + INR n * rounded t (n - 1) * c).
  { apply Rle_trans with (rounded t (n - 1) * (rounded t (S j) * A + INR n * c)); [apply Rmult_le_compat_l; lra|]. lra. }
  assert (NV : no_overflow (map f ps)). { unfold no_overflow. rewrite map_length. fold n. lra. }
  assert (R' : near v (total sh_zero sh_add (map (sh_of is_finite) (map f ps)))) by (rewrite map_map; exact N).
  destruct (near_sums t (map f ps) v R' F NV) as [FV EV]. split; [exact FV|]. rewrite map_length in EV. fold n in EV.
  replace (val v - rsum (map e ps)) with ((val v - exact_sum (map f ps)) + (exact_sum (map f ps) - rsum (map e ps))) by ring.
  eapply Rle_trans; [apply Rabs_triang|].
  assert ((rounded t (n - 1) - 1) * magnitude (map f ps) <= (rounded t (n - 1) - 1) * (rounded t (S j) * A + INR n * c)) by (apply Rmult_le_compat_l; lra). lra. Qed.

(** ** a sum or difference of two products *)
Definition two_products {t} (minus : bool) (a b c d : float t) : float t := if minus then fsub (fmul a b) (fmul c d) else fadd (fmul a b) (fmul c d).
Lemma two_products_err t (minus : bool) (a b c d : float t) : let e := if minus then val a * val b - val c * val d else val a * val b + val c * val d in let m := Rabs (val a * val b) + Rabs (val c * val d) in
  finite a -> finite b -> finite c -> finite d -> rounded t 2 * m + 2 * rounded t 1 * smallest t < two (emax t) ->
  Rabs e <= m /\ finite (two_products minus a b c d) /\ Rabs (val (two_products minus a b c d) - e) <= (rounded t 2 - 1) * m + 2 * rounded t 1 * smallest t.
Proof. intros e m Fa Fb Fc Fd L. pose proof (small_pos t) as S0. pose proof (unit_pos t) as U. pose proof (Rabs_pos (val a * val b)) as P1. pose proof (Rabs_pos (val c * val d)) as P2. rewrite rounded_S in *. assert (R1 : rounded t 1 = 1 + unit_roundoff t) by (unfold rounded; apply pow_1). rewrite R1 in *.
  set (u := unit_roundoff t) in *. set (s := smallest t) in *.
  assert (X : 0 <= u * (u * m)). { apply Rmult_le_pos; [lra|]. apply Rmult_le_pos; [lra|unfold m; lra]. } assert (Xs : 0 <= u * s) by (apply Rmult_le_pos; lra). assert (X1 : 0 <= u * Rabs (val a * val b)) by (apply Rmult_le_pos; lra). assert (X2 : 0 <= u * Rabs (val c * val d)) by (apply Rmult_le_pos; lra).
  destruct (fmul_err t a b Fa Fb) as [F1 E1]. { rewrite R1. fold u s. unfold m in *. lra. }
  destruct (fmul_err t c d Fc Fd) as [F2 E2]. { rewrite R1. fold u s. unfold m in *. lra. }
  fold u s in E1, E2. set (p := fmul a b) in *. set (q := fmul c d) in *. set (x := val a * val b) in *. set (y := val c * val d) in *.
  assert (He : Rabs e <= m). { unfold e, m. destruct minus; [unfold Rminus; eapply Rle_trans; [apply Rabs_triang|rewrite Rabs_Ropp; lra]|apply Rabs_triang]. }
  split; [exact He|]. set (z := if minus then val p - val q else val p + val q).
  assert (Ez : Rabs (z - e) <= u * m + 2 * s).
  { unfold z, e. destruct minus.
    - replace (val p - val q - (x - y)) with ((val p - x) + - (val q - y)) by ring. eapply Rle_trans; [apply Rabs_triang|]. rewrite Rabs_Ropp. unfold m. lra.
    - replace (val p + val q - (x + y)) with ((val p - x) + (val q - y)) by ring. eapply Rle_trans; [apply Rabs_triang|]. unfold m. lra. }
  assert (Az : Rabs z <= (1 + u) * m + 2 * s). { replace z with ((z - e) + e) by ring. eapply Rle_trans; [apply Rabs_triang|]. lra. }
  assert (Er : Rabs (rnd t z - z) <= u * Rabs z). { unfold z. destruct minus; [now apply sub_err|apply sum_err]. }
  assert (Er2 : Rabs (rnd t z - z) <= u * ((1 + u) * m + 2 * s)) by (eapply Rle_trans; [exact Er|apply Rmult_le_compat_l; lra]).
  assert (B : Rabs (rnd t z) < two (emax t)). { replace (rnd t z) with ((rnd t z - z) + z) by ring. eapply Rle_lt_trans; [apply Rabs_triang|]. eapply Rle_lt_trans; [|exact L]. lra. }
  assert (V : val (two_products minus a b c d) = rnd t z /\ finite (two_products minus a b c d)). { unfold two_products, z in *. fold p q. destruct minus; [now apply fsub_val|now apply fadd_val]. }
  destruct V as [-> F]. split; [exact F|]. replace (rnd t z - e) with ((rnd t z - z) + (z - e)) by ring. eapply Rle_trans; [apply Rabs_triang|]. lra. Qed.
Lemma rsum_member_le {P} (m : P -> R) ps p : (forall q, 0 <= m q) -> In p ps -> m p <= rsum (map m ps).
Proof. intros H. induction ps as [|q ps IH]; [easy|]. assert (X : 0 <= rsum (map m ps)). { clear IH. unfold rsum. induction ps as [|r ps IH]; cbn; [lra|]. pose proof (H r). lra. } cbn [map rsum fold_right]. unfold rsum in *. pose proof (H q). intros [->|I]; [lra|]. specialize (IH I). lra. Qed.
(** a part of a sum of complex products *)
Lemma part_rounds t (minus : bool) {P} (fa fb fc fd : P -> float t) ps (v : float t) :
  (forall p, In p ps -> finite (fa p) /\ finite (fb p) /\ finite (fc p) /\ finite (fd p)) ->
  near v (total sh_zero sh_add (map (fun p => sh_of is_finite (two_products minus (fa p) (fb p) (fc p) (fd p))) ps)) ->
  let m := rsum (map (fun p => Rabs (val (fa p) * val (fb p)) + Rabs (val (fc p) * val (fd p))) ps) in
  part_no_overflow t (length ps) m ->
  part_to (length ps) (rsum (map (fun p => if minus then val (fa p) * val (fb p) - val (fc p) * val (fd p) else val (fa p) * val (fb p) + val (fc p) * val (fd p)) ps)) m v.
Proof. intros F N m L. unfold part_no_overflow, part_to in *. set (n := length ps) in *. pose proof (small_pos t) as S0.
  assert (M0 : forall p, 0 <= Rabs (val (fa p) * val (fb p)) + Rabs (val (fc p) * val (fd p))) by (intro p; pose proof (Rabs_pos (val (fa p) * val (fb p))); pose proof (Rabs_pos (val (fc p) * val (fd p))); lra).
  assert (U : INR n * rounded t (n - 1) * (2 * rounded t 1 * smallest t) = cdot_underflow t n).
  { unfold cdot_underflow. destruct n as [|k]; [cbn [INR]; ring|]. replace (S k - 1)%nat with k by lia. rewrite (rounded_S t k). unfold rounded at 2. rewrite pow_1. ring. }
  rewrite <- U in L |- *. apply (off_sums t (fun p => two_products minus (fa p) (fb p) (fc p) (fd p)) _ (fun p => Rabs (val (fa p) * val (fb p)) + Rabs (val (fc p) * val (fd p))) 1 (2 * rounded t 1 * smallest t) ps v); auto.
  - pose proof (rounded_1 t 1). apply Rmult_le_pos; lra.
  - intros p Hp. destruct (F p Hp) as (F1 & F2 & F3 & F4). apply two_products_err; auto. eapply Rle_lt_trans; [|exact L]. assert (N1 : (1 <= n)%nat) by (unfold n; destruct ps; [easy|cbn; lia]). apply Rplus_le_compat.
    + apply Rmult_le_compat; [pose proof (rounded_1 t 2); lra|apply M0|apply rounded_le; lia|]. unfold m. now apply (rsum_member_le (fun p => Rabs (val (fa p) * val (fb p)) + Rabs (val (fc p) * val (fd p)))).
    + pose proof (rounded_1 t (n - 1)) as G1. pose proof (rounded_1 t 1) as G2. apply (le_INR 1 n) in N1. cbn in N1. assert (1 <= INR n * rounded t (n - 1)) by (rewrite <- (Rmult_1_l 1); apply Rmult_le_compat; lra). rewrite <- (Rmult_1_l (2 * rounded t 1 * smallest t)) at 1. apply Rmult_le_compat_r; [|lra]. apply Rmult_le_pos; lra. Qed.

Lemma opp_val {t} (x : float t) : val (Bopp x) = - val x. Proof. apply B2R_Bopp. Qed.
Lemma opp_finite {t} (x : float t) : finite (Bopp x) <-> finite x. Proof. unfold finite. rewrite is_finite_Bopp. tauto. Qed.
Lemma rsum_plus {P} (f g : P -> R) ps : rsum (map (fun p => f p + g p) ps) = rsum (map f ps) + rsum (map g ps).
Proof. unfold rsum. induction ps as [|p ps IH]; cbn; [ring|]. rewrite IH. ring. Qed.
Lemma rsum_minus {P} (f g : P -> R) ps : rsum (map (fun p => f p - g p) ps) = rsum (map f ps) - rsum (map g ps).
Proof. unfold rsum. induction ps as [|p ps IH]; cbn; [ring|]. rewrite IH. ring. Qed.
Lemma map_rsum {P} (f g : P -> R) ps : (forall p, f p = g p) -> rsum (map f ps) = rsum (map g ps).
Proof. intro H. f_equal. apply map_ext. exact H. Qed.

(** ** dot products *)
Definition near2 {t} (z : complex t) (s : shadow * shadow) : Prop := near (fst z) (fst s) /\ near (snd z) (snd s).
Definition add_2 (a b : shadow * shadow) : shadow * shadow := (sh_add (fst a) (fst b), sh_add (snd a) (snd b)).
Definition of_2 {t} (z : complex t) : shadow * shadow := (sh_of is_finite (fst z), sh_of is_finite (snd z)).
Lemma near2_zero {t} : near2 (czero : complex t) (sh_zero, sh_zero). Proof. split; apply near_zero. Qed.
Lemma near2_add {t} (x y : complex t) s s' : near2 x s -> near2 y s' -> near2 (cadd x y) (add_2 s s').
Proof. intros [A B] [A' B']. split; now apply near_add. Qed.
Lemma near2_of {t} (x : complex t) : near2 x (of_2 x). Proof. split; apply near_of. Qed.
Lemma total_2 {P} (f g : P -> shadow) ps : total (sh_zero, sh_zero) add_2 (map (fun p => (f p, g p)) ps) = (total sh_zero sh_add (map f ps), total sh_zero sh_add (map g ps)).
Proof. unfold total. induction ps as [|p ps IH]; [reflexivity|]. cbn [map fold_right]. rewrite IH. reflexivity. Qed.
Lemma near_cdots t (ps : list (complex t * complex t)) v : near2 v (total (sh_zero, sh_zero) add_2 (map (fun p => of_2 (cdot_mul (fst p) (snd p))) ps)) -> cfinite_pairs ps -> cdots_to ps v.
Proof. unfold of_2. rewrite total_2. intros [N1 N2] F. cbn [fst snd] in N1, N2. unfold cfinite_pairs, cfinite in F. rewrite Forall_forall in F. split; intro L.
  - pose proof (part_rounds t true (fun p => fst (fst p)) (fun p => fst (snd p)) (fun p => Bopp (snd (fst p))) (fun p => snd (snd p)) ps (fst v)) as H.
    assert (Em : rsum (map (fun p => Rabs (val (fst (fst p)) * val (fst (snd p))) + Rabs (val (Bopp (snd (fst p))) * val (snd (snd p)))) ps) = re_magnitude ps).
    { unfold re_magnitude, dot_magnitude, parts. rewrite !map_map. cbn [fst snd]. rewrite <- rsum_plus. apply map_rsum. intro p. rewrite opp_val, Ropp_mult_distr_l_reverse, Rabs_Ropp. reflexivity. }
    assert (Ee : rsum (map (fun p => val (fst (fst p)) * val (fst (snd p)) - val (Bopp (snd (fst p))) * val (snd (snd p))) ps) = re_dot ps).
    { unfold re_dot, exact_dot, parts. rewrite !map_map. cbn [fst snd]. rewrite <- rsum_plus. apply map_rsum. intro p. rewrite opp_val. unfold Rminus. rewrite Ropp_mult_distr_l_reverse, Ropp_involutive. reflexivity. }
    rewrite <- Em in L |- *. rewrite <- Ee. apply H; auto. intros p Hp. destruct (F p Hp) as [[A1 A2] [B1 B2]]. rewrite opp_finite. auto.
  - pose proof (part_rounds t false (fun p => fst (fst p)) (fun p => snd (snd p)) (fun p => Bopp (snd (fst p))) (fun p => fst (snd p)) ps (snd v)) as H.
    assert (Em : rsum (map (fun p => Rabs (val (fst (fst p)) * val (snd (snd p))) + Rabs (val (Bopp (snd (fst p))) * val (fst (snd p)))) ps) = im_magnitude ps).
    { unfold im_magnitude, dot_magnitude, parts. rewrite !map_map. cbn [fst snd]. rewrite <- rsum_plus. apply map_rsum. intro p. rewrite opp_val, Ropp_mult_distr_l_reverse, Rabs_Ropp. reflexivity. }
    assert (Ee : rsum (map (fun p => val (fst (fst p)) * val (snd (snd p)) + val (Bopp (snd (fst p))) * val (fst (snd p))) ps) = im_dot ps).
    { unfold im_dot, exact_dot, parts. rewrite !map_map. cbn [fst snd]. rewrite <- rsum_minus. apply map_rsum. intro p. rewrite opp_val, Ropp_mult_distr_l_reverse. reflexivity. }
    rewrite <- Em in L |- *. rewrite <- Ee. apply H; auto. intros p Hp. destruct (F p Hp) as [[A1 A2] [B1 B2]]. rewrite opp_finite. auto. Qed.

(** ** norms *)
Lemma fsub_parts t (x y : float t) : finite (fsub x y) -> finite x /\ finite y /\ val (fsub x y) = rnd t (val x - val y).
Proof. intro F. assert (Fx : finite x /\ finite y). { split; destruct x as [s|s| |s m e H], y as [s'|s'| |s' m' e' H']; try reflexivity; try discriminate F; revert F; unfold fsub; cbn; try destruct s; try destruct s'; cbn; discriminate. }
  destruct Fx as [Fx Fy]. split; [exact Fx|]. split; [exact Fy|]. destruct (Rlt_le_dec (Rabs (rnd t (val x - val y))) (two (emax t))) as [L|L]; [now apply fsub_val|].
  exfalso. pose proof (@Bminus_correct _ _ (prec_ok t) (emax_ok t) mode_NE x y Fx Fy) as H. cbv zeta in H. rewrite Rlt_bool_false in H by exact L. destruct H as [H _]. unfold finite, fsub in F. destruct (Bminus mode_NE x y) as [s|s| |s m e He]; cbn in H; try discriminate H; try discriminate F; destruct (Bsign x); discriminate H. Qed.
Lemma fmul_parts t (x y : float t) : finite (fmul x y) -> finite x /\ finite y /\ val (fmul x y) = rnd t (val x * val y).
Proof. intro F. assert (Fx : finite x /\ finite y). { split; destruct x as [s|s| |s m e H], y as [s'|s'| |s' m' e' H']; try reflexivity; discriminate F. }
  destruct Fx as [Fx Fy]. split; [exact Fx|]. split; [exact Fy|]. destruct (Rlt_le_dec (Rabs (rnd t (val x * val y))) (two (emax t))) as [L|L]; [now apply fmul_val|].
  exfalso. pose proof (@Bmult_correct _ _ (prec_ok t) (emax_ok t) mode_NE x y) as H. rewrite Rlt_bool_false in H by exact L. unfold finite, fmul in F. destruct (Bmult mode_NE x y) as [s|s| |s m e He]; cbn in H; try discriminate H; try discriminate F; destruct (xorb (Bsign x) (Bsign y)); discriminate H. Qed.
Definition cabs2 {t} (x : complex t) : float t := fst (cmul x (cconj x)).
Lemma rnd_0 t : rnd t 0 = 0. Proof. apply rnd_id, generic_format_0. Qed.
Lemma nonneg_abs2 t (x : complex t) : nonneg (cabs2 x).
Proof. intro F. unfold cabs2, cmul, cconj in *. cbn [fst snd] in *. destruct (fsub_parts t _ _ F) as (F1 & F2 & ->). destruct (fmul_parts t _ _ F1) as (_ & _ & ->). destruct (fmul_parts t _ _ F2) as (_ & _ & ->). rewrite opp_val, Ropp_mult_distr_r_reverse, rnd_opp.
  assert (Sq : forall y, 0 <= rnd t (y * y)) by (intro y; rewrite <- (rnd_0 t); apply rnd_le, Rle_0_sqr). rewrite <- (rnd_0 t) at 1. apply rnd_le. pose proof (Sq (val (fst x))). pose proof (Sq (val (snd x))). lra. Qed.
Lemma abs2_pos t (xs : list (complex t)) : 0 <= exact_abs2 xs.
Proof. unfold exact_abs2, exact_dot, squares, reals, imags. rewrite !map_map. cbn [fst snd]. rewrite <- rsum_plus. unfold rsum. induction xs as [|x xs IH]; cbn [map fold_right]; [lra|]. pose proof (Rle_0_sqr (val (fst x))) as A. pose proof (Rle_0_sqr (val (snd x))) as B. unfold Rsqr in A, B. lra. Qed.
Lemma near_cnorms t (xs : list (complex t)) (s : float t) : near s (total sh_zero sh_add (map (fun x => sh_of is_finite (cabs2 x)) xs)) -> nonneg s -> Forall cfinite xs -> part_no_overflow t (length xs) (exact_abs2 xs) -> cnorms_to xs (fsqrt s).
Proof. intros N NN F L. unfold cfinite in F. rewrite Forall_forall in F.
  pose proof (part_rounds t true (fun x => fst x) (fun x => fst x) (fun x => snd x) (fun x => Bopp (snd x)) xs s) as H.
  assert (Em : rsum (map (fun x => Rabs (val (fst x) * val (fst x)) + Rabs (val (snd x) * val (Bopp (snd x)))) xs) = exact_abs2 xs).
  { unfold exact_abs2, exact_dot, squares, reals, imags. rewrite !map_map. cbn [fst snd]. rewrite <- rsum_plus. apply map_rsum. intro x. rewrite opp_val, Ropp_mult_distr_r_reverse, Rabs_Ropp, !Rabs_pos_eq by apply Rle_0_sqr. reflexivity. }
  assert (Ee : rsum (map (fun x => val (fst x) * val (fst x) - val (snd x) * val (Bopp (snd x))) xs) = exact_abs2 xs).
  { unfold exact_abs2, exact_dot, squares, reals, imags. rewrite !map_map. cbn [fst snd]. rewrite <- rsum_plus. apply map_rsum. intro x. rewrite opp_val, Ropp_mult_distr_r_reverse. unfold Rminus. rewrite Ropp_involutive. reflexivity. }
  assert (D : part_to (length xs) (exact_abs2 xs) (exact_abs2 xs) s).
  { rewrite <- Ee at 1. rewrite <- Em in L |- *. apply H; auto. intros x Hx. destruct (F x Hx) as [A B]. rewrite opp_finite. auto. }
  clear H Em Ee N L F. destruct D as [Fs E]. specialize (NN Fs). pose proof (abs2_pos t xs) as X0. unfold cnorms_to. set (n := length xs) in *.
  assert (DU : 0 <= cdot_underflow t n). { unfold cdot_underflow. repeat apply Rmult_le_pos; [lra|apply pos_INR|pose proof (rounded_1 t n); lra|pose proof (smallest_pos t); lra]. }
  pose proof (sqrt_near _ _ _ _ NN X0 (rounded_1 t (n + 1)) DU E) as Q. destruct (fsqrt_val t s Fs NN) as [V Fq]. split; [exact Fq|]. rewrite V. set (e := sqrt (exact_abs2 xs)) in *. set (z := sqrt (val s)) in *. pose proof (rnd_err t z) as Er.
  assert (Z0 : 0 <= z) by apply sqrt_pos. assert (N0 : 0 <= e) by apply sqrt_pos. rewrite (Rabs_pos_eq z) in Er by exact Z0. pose proof (unit_pos t) as U. replace (n + 2)%nat with (S (n + 1)) by lia. rewrite rounded_S. unfold rounded at 2. rewrite pow_1. set (g := rounded t (n + 1)) in *. set (u := unit_roundoff t) in *. set (w := sqrt (cdot_underflow t n)) in *.
  replace (rnd t z - e) with ((rnd t z - z) + (z - e)) by ring. eapply Rle_trans; [apply Rabs_triang|]. pose proof (Rle_abs (z - e)). assert (u * z <= u * (g * e + w)) by (apply Rmult_le_compat_l; lra). lra. Qed.

(** ** means *)
Lemma unit_half t : unit_roundoff t <= / 2. Proof. unfold unit_roundoff, two. change (/ 2) with (bpow radix2 (-1)). apply bpow_le. destruct t; cbn; lia. Qed.
Lemma mul_zero t (y : float t) : finite y -> val (fmul y fzero) = 0 /\ finite (fmul y fzero).
Proof. intro F. assert (Z : val (fzero : float t) = 0) by reflexivity. destruct (fmul_val t y fzero F) as [A B]; [reflexivity| |]; rewrite Z, Rmult_0_r, rnd_0 in *; [rewrite Rabs_R0; apply bpow_gt_0|auto]. Qed.
Lemma square_count t n : (0 < n)%nat -> (Z.of_nat n <= 2 ^ prec t)%Z -> let N := of_int (Z.of_nat n) : float t in let D := fadd (fmul N N) (fmul fzero fzero) in
  finite D /\ 1 <= val D /\ Rabs (val D - INR n * INR n) <= unit_roundoff t * (INR n * INR n).
Proof. intros P L N D. destruct (int_val t (Z.of_nat n)) as [Vn Fn]; [lia|]. fold N in Vn, Fn. rewrite <- INR_IZR_INZ in Vn. assert (Rn : 1 <= INR n) by (apply (le_INR 1); lia).
  assert (Pp : (0 <= prec t)%Z) by (destruct t; cbn; lia). assert (Up : INR n <= two (prec t)). { rewrite INR_IZR_INZ. unfold two. rewrite <- IZR_Zpower by exact Pp. apply IZR_le. exact L. }
  assert (Sq : 1 <= INR n * INR n) by (rewrite <- (Rmult_1_l 1); apply Rmult_le_compat; lra).
  assert (B : Rabs (rnd t (val N * val N)) < two (emax t)). { rewrite Vn. apply Rle_lt_trans with (two (prec t + prec t)); [apply rnd_bound; [destruct t; cbn; lia|]|apply two_lt; destruct t; cbn; lia]. rewrite Rabs_pos_eq by lra. unfold two. rewrite bpow_plus. apply Rmult_le_compat; (lra || exact Up). }
  destruct (fmul_val t N N Fn Fn B) as [V1 F1]. rewrite Vn in V1. destruct (mul_zero t fzero) as [V0 F0]; [reflexivity|]. destruct (add_zero t (fmul N N) (fmul fzero fzero) F1 F0 V0) as [VD FD]. fold D in VD, FD. split; [exact FD|]. rewrite VD, V1. split.
  - rewrite <- (rnd_id t 1); [now apply rnd_le|]. change 1 with (bpow radix2 0). apply generic_format_bpow. unfold FLT_exp. destruct t; cbn; lia.
  - pose proof (int_err t (Z.of_nat n * Z.of_nat n)) as H. rewrite mult_IZR, <- INR_IZR_INZ in H. rewrite (Rabs_pos_eq (INR n * INR n)) in H by lra. exact H. Qed.
Lemma sum_le_magnitude t (xs : list (float t)) : Rabs (exact_sum xs) <= magnitude xs.
Proof. unfold exact_sum, magnitude. induction xs as [|x xs IH]; cbn [map rsum fold_right]; [rewrite Rabs_R0; lra|]. eapply Rle_trans; [apply Rabs_triang|]. apply Rplus_le_compat_l. exact IH. Qed.
(** the core: p is a rounded s n, d a rounded n^2 *)
Lemma quotient_core u s n p d : 0 < u <= / 2 -> 1 <= n -> 1 <= d -> Rabs (p - s * n) <= u * Rabs (s * n) -> Rabs (d - n * n) <= u * (n * n) ->
  Rabs (p / d - s / n) <= ((1 + u) * (1 + u) * (1 + u) - 1) * Rabs (s / n).
Proof. intros U N D Hp Hd. assert (Sq : 1 <= n * n) by (rewrite <- (Rmult_1_l 1); apply Rmult_le_compat; lra). set (w := n * n) in *. set (q := s * n) in *. assert (Dl : (1 - u) * w <= d). { pose proof (Rle_abs (- (d - w))) as X. rewrite Rabs_Ropp in X. lra. }
  assert (Eq : s / n = q / w) by (unfold q, w; field; lra). rewrite Eq. replace (p / d - q / w) with (((p - q) * w - q * (d - w)) * (/ d * / w)) by (field; lra).
  assert (I1 : 0 < / d) by (apply Rinv_0_lt_compat; lra). assert (I2 : 0 < / w) by (apply Rinv_0_lt_compat; lra). rewrite Rabs_mult, (Rabs_pos_eq (/ d * / w)) by (apply Rmult_le_pos; lra).
  assert (X : Rabs ((p - q) * w - q * (d - w)) <= 2 * u * Rabs q * w).
  { unfold Rminus at 1. eapply Rle_trans; [apply Rabs_triang|]. rewrite Rabs_Ropp, !Rabs_mult, (Rabs_pos_eq w) by lra. pose proof (Rabs_pos q) as Q0. assert (Rabs (p - q) * w <= u * Rabs q * w) by (apply Rmult_le_compat_r; lra). assert (Rabs q * Rabs (d - w) <= Rabs q * (u * w)) by (apply Rmult_le_compat_l; lra). lra. }
  assert (Y : 2 * u * w <= ((1 + u) * (1 + u) * (1 + u) - 1) * d).
  { assert (K : 2 * u <= ((1 + u) * (1 + u) * (1 + u) - 1) * (1 - u)) by nra. assert (G : 0 <= (1 + u) * (1 + u) * (1 + u) - 1) by nra. apply Rle_trans with (((1 + u) * (1 + u) * (1 + u) - 1) * ((1 - u) * w)); [|apply Rmult_le_compat_l; lra]. rewrite <- Rmult_assoc. apply Rmult_le_compat_r; lra. }
  set (g := (1 + u) * (1 + u) * (1 + u) - 1) in *. unfold Rdiv. rewrite Rabs_mult, (Rabs_pos_eq (/ w)) by lra.
  apply Rle_trans with (2 * u * Rabs q * w * (/ d * / w)); [apply Rmult_le_compat_r; [apply Rmult_le_pos; lra|exact X]|].
  replace (2 * u * Rabs q * w * (/ d * / w)) with (2 * u * w * / d * (Rabs q * / w)) by ring. apply Rmult_le_compat_r; [apply Rmult_le_pos; [apply Rabs_pos|lra]|]. apply Rmult_le_reg_r with d; [lra|]. rewrite Rmult_assoc, Rinv_l by lra. lra. Qed.
Lemma part_mean t (xs : list (float t)) (s p D m : float t) : sums_to xs s -> xs <> [] -> finite p -> val p = rnd t (val s * INR (length xs)) ->
  finite D -> 1 <= val D -> Rabs (val D - INR (length xs) * INR (length xs)) <= unit_roundoff t * (INR (length xs) * INR (length xs)) -> m = fdiv p D -> part_averages_to xs m.
Proof. intros [F E] N Fp Vp FD D1 ED ->. unfold part_averages_to. set (n := length xs) in *. assert (Pn : (0 < n)%nat) by (destruct xs; [congruence|cbn in n; lia]). assert (Rn : 1 <= INR n) by (apply (le_INR 1); lia).
  assert (In : 0 < / INR n <= 1) by (split; [apply Rinv_0_lt_compat; lra|rewrite <- Rinv_1; apply Rinv_le_contravar; lra]).
  assert (Id : 0 < / val D <= 1) by (split; [apply Rinv_0_lt_compat; lra|rewrite <- Rinv_1; apply Rinv_le_contravar; lra]).
  set (z := val p / val D). assert (Az : Rabs z = Rabs (val p) * / val D). { unfold z, Rdiv. rewrite Rabs_mult. f_equal. apply Rabs_pos_eq. lra. }
  assert (Rz : Rabs (rnd t z) <= Rabs (val p)). { apply abs_round_le_generic; auto with typeclass_instances. - apply generic_format_abs, val_format. - rewrite Az. pose proof (Rabs_pos (val p)). rewrite <- (Rmult_1_r (Rabs (val p))) at 2. apply Rmult_le_compat_l; lra. }
  destruct (fdiv_val t p D Fp) as [V Fd]. { lra. } { fold z. eapply Rle_lt_trans; [exact Rz|apply val_lt]. } split; [exact Fd|]. rewrite V. fold z. pose proof (rnd_err t z) as Er. pose proof (unit_pos t) as U. pose proof (unit_half t) as U2.
  assert (Ep : Rabs (val p - val s * INR n) <= unit_roundoff t * Rabs (val s * INR n)). { rewrite Vp, INR_IZR_INZ. apply scale_err. }
  pose proof (quotient_core (unit_roundoff t) (val s) (INR n) (val p) (val D) (conj U U2) Rn D1 Ep ED) as Q. fold z in Q.
  pose proof (sum_le_magnitude t xs) as MP. pose proof (rounded_1 t (n - 1)) as G1. set (A := magnitude xs) in *. set (W := exact_sum xs) in *.
  assert (R3 : rounded t (n + 3) = rounded t (n - 1) * (1 + unit_roundoff t) * (1 + unit_roundoff t) * (1 + unit_roundoff t) * (1 + unit_roundoff t)). { replace (n + 3)%nat with (S (S (S (S (n - 1))))) by lia. now rewrite !rounded_S. }
  rewrite R3. set (g := rounded t (n - 1)) in *. set (u := unit_roundoff t) in *. set (h := (1 + u) * (1 + u) * (1 + u)) in *. set (y := val s / INR n) in *.
  assert (As : Rabs (val s) <= g * A). { replace (val s) with ((val s - W) + W) by ring. eapply Rle_trans; [apply Rabs_triang|]. lra. }
  assert (Ay : Rabs y <= g * A * / INR n). { unfold y, Rdiv. rewrite Rabs_mult, (Rabs_pos_eq (/ INR n)) by lra. apply Rmult_le_compat_r; lra. }
  assert (E1 : Rabs (y - W / INR n) <= (g - 1) * A * / INR n). { replace (y - W / INR n) with ((val s - W) * / INR n) by (unfold y; field; lra). rewrite Rabs_mult, (Rabs_pos_eq (/ INR n)) by lra. apply Rmult_le_compat_r; lra. }
  assert (H1 : 1 <= h). { unfold h. rewrite <- (Rmult_1_l 1). apply Rmult_le_compat; try lra. rewrite <- (Rmult_1_l 1). apply Rmult_le_compat; lra. }
  assert (Zz : Rabs z <= h * Rabs y). { replace z with ((z - y) + y) by ring. eapply Rle_trans; [apply Rabs_triang|]. lra. }
  assert (E2 : u * Rabs z <= u * (h * Rabs y)) by (apply Rmult_le_compat_l; lra).
  assert (E3 : (h * (1 + u) - 1) * Rabs y <= (h * (1 + u) - 1) * (g * A * / INR n)). { apply Rmult_le_compat_l; [|exact Ay]. assert (0 <= h * u) by (apply Rmult_le_pos; lra). lra. }
  replace (rnd t z - W / INR n) with ((rnd t z - z) + (z - y) + (y - W / INR n)) by ring. eapply Rle_trans; [apply Rabs_triang|]. pose proof (Rabs_triang (rnd t z - z) (z - y)) as T. unfold Rdiv. replace ((g * (1 + u) * (1 + u) * (1 + u) * (1 + u) - 1) * (A * / INR n)) with ((h * (1 + u) - 1) * (g * A * / INR n) + (g - 1) * A * / INR n) by (unfold h; ring). lra. Qed.
Lemma scaled_sum t (xs : list (float t)) (s : float t) : sums_to xs s -> xs <> [] -> (Z.of_nat (length xs) <= 2 ^ prec t)%Z -> mean_no_overflow xs ->
  let p := fmul s (of_int (Z.of_nat (length xs))) in finite p /\ val p = rnd t (val s * INR (length xs)).
Proof. intros [F E] N L O p. unfold mean_no_overflow in O. set (n := length xs) in *. assert (Pn : (0 < n)%nat) by (destruct xs; [congruence|cbn in n; lia]). destruct (int_val t (Z.of_nat n)) as [Vn Fn]; [lia|]. assert (Rn : 1 <= INR n) by (apply (le_INR 1); lia).
  pose proof (scale_err t s (Z.of_nat n)) as Er. rewrite <- INR_IZR_INZ in Vn, Er. pose proof (sum_le_magnitude t xs) as MP. pose proof (rounded_1 t (n - 1)) as G1. pose proof (unit_pos t) as U. set (A := magnitude xs) in *. set (W := exact_sum xs) in *.
  assert (R3 : rounded t n = rounded t (n - 1) * (1 + unit_roundoff t)). { replace n with (S (n - 1)) at 1 by lia. now rewrite rounded_S. } rewrite R3 in O. set (g := rounded t (n - 1)) in *. set (u := unit_roundoff t) in *.
  assert (As : Rabs (val s) <= g * A). { replace (val s) with ((val s - W) + W) by ring. eapply Rle_trans; [apply Rabs_triang|]. lra. }
  assert (Az : Rabs (val s * INR n) <= g * A * INR n). { rewrite Rabs_mult, (Rabs_pos_eq (INR n)) by lra. apply Rmult_le_compat_r; lra. }
  destruct (fmul_val t s (of_int (Z.of_nat n)) F Fn) as [V Fm]; [|rewrite Vn in V; auto]. rewrite Vn. set (z := val s * INR n) in *. replace (rnd t z) with ((rnd t z - z) + z) by ring. eapply Rle_lt_trans; [apply Rabs_triang|]. eapply Rle_lt_trans; [|exact O].
  replace (g * (1 + u) * (INR n * A)) with (g * A * INR n + u * (g * A * INR n)) by ring. assert (u * Rabs z <= u * (g * A * INR n)) by (apply Rmult_le_compat_l; lra). lra. Qed.
Lemma cmean_rounds t (xs : list (complex t)) (s : complex t) : sums_to (reals xs) (fst s) -> sums_to (imags xs) (snd s) -> xs <> [] -> (Z.of_nat (length xs) <= 2 ^ prec t)%Z ->
  (mean_no_overflow (reals xs) -> part_averages_to (reals xs) (fst (cdiv_count s (length xs)))) /\ (mean_no_overflow (imags xs) -> part_averages_to (imags xs) (snd (cdiv_count s (length xs)))).
Proof. intros Hr Hi N L. assert (Lr : length (reals xs) = length xs) by apply map_length. assert (Li : length (imags xs) = length xs) by apply map_length. assert (Nr : reals xs <> []) by (destruct xs; [congruence|discriminate]). assert (Ni : imags xs <> []) by (destruct xs; [congruence|discriminate]).
  assert (Pn : (0 < length xs)%nat) by (destruct xs; [congruence|cbn; lia]). destruct (square_count t (length xs) Pn L) as (FD & D1 & ED). set (Nn := of_int (Z.of_nat (length xs)) : float t) in *. set (D := fadd (fmul Nn Nn) (fmul fzero fzero)) in *. split; intro O.
  - destruct (scaled_sum t _ _ Hr Nr ltac:(rewrite Lr; exact L) O) as [Fp Vp]. rewrite Lr in Fp, Vp. fold Nn in Fp, Vp. destruct (mul_zero t (snd s) (proj1 Hi)) as [V0 F0]. destruct (add_zero t (fmul (fst s) Nn) _ Fp F0 V0) as [V1 F1].
    apply (part_mean t _ (fst s) (fadd (fmul (fst s) Nn) (fmul (snd s) fzero)) D); auto; rewrite ?Lr; auto. congruence.
  - destruct (scaled_sum t _ _ Hi Ni ltac:(rewrite Li; exact L) O) as [Fp Vp]. rewrite Li in Fp, Vp. fold Nn in Fp, Vp. destruct (mul_zero t (fst s) (proj1 Hr)) as [V0 F0].
    destruct (fsub_val t (fmul (snd s) Nn) (fmul (fst s) fzero) Fp F0) as [V1 F1]. { rewrite V0, Rminus_0_r, rnd_id by apply val_format. apply val_lt. } rewrite V0, Rminus_0_r, rnd_id in V1 by apply val_format.
    apply (part_mean t _ (snd s) (fsub (fmul (snd s) Nn) (fmul (fst s) fzero)) D); auto; rewrite ?Li; auto. congruence. Qed.
