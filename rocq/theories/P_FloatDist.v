(** Rounding errors of distances *)
From Coq Require Import ZArith Reals List Lia Lra Bool.
From Flocq Require Import Core Relative BinarySingleNaN Plus_error.
From Verif Require Import Base Spec Spec_Float Spec_FloatReduce Spec_FloatMatmul Spec_Dist Spec_FloatDist P_ArangeFloat M_Float P_FloatOps M_FloatReduce M_FloatClose P_FloatSum P_FloatLinspace P_FloatDot P_FloatProd M_FloatDist.
Import ListNotations.
Local Open Scope R_scope.

Lemma sub_err t (x y : float t) : Rabs (rnd t (val x - val y) - (val x - val y)) <= unit_roundoff t * Rabs (val x - val y).
Proof. pose proof (sum_err t x (Bopp y)) as H. unfold val in H. rewrite B2R_Bopp in H. exact H. Qed.
Lemma fabs_val t (x : float t) : val (fabs x) = Rabs (val x). Proof. apply B2R_Babs. Qed.
Lemma fabs_finite t (x : float t) : finite (fabs x) <-> finite x. Proof. unfold finite, fabs. rewrite is_finite_Babs. tauto. Qed.
Lemma gap_pos {t} (p : float t * float t) : 0 <= gap p. Proof. apply Rabs_pos. Qed.
(** one difference *)
Lemma fsub_gap t (p : float t * float t) : finite (fst p) -> finite (snd p) -> rounded t 1 * gap p < two (emax t) ->
  finite (fsub (fst p) (snd p)) /\ val (fsub (fst p) (snd p)) = rnd t (val (fst p) - val (snd p)) /\ Rabs (Rabs (val (fsub (fst p) (snd p))) - gap p) <= unit_roundoff t * gap p.
Proof. intros F1 F2 H. pose proof (sub_err t (fst p) (snd p)) as E. fold (gap p) in E. assert (A : Rabs (Rabs (rnd t (val (fst p) - val (snd p))) - gap p) <= unit_roundoff t * gap p) by (eapply Rle_trans; [apply Rabs_triang_inv2|exact E]).
  destruct (fsub_val t (fst p) (snd p) F1 F2) as [V F]; [|rewrite V; auto]. eapply Rle_lt_trans; [|exact H]. unfold rounded. rewrite pow_1. pose proof (Rle_abs (Rabs (rnd t (val (fst p) - val (snd p))) - gap p)). lra. Qed.
(** sums of terms that are rounded themselves *)
Lemma sum_terms t {P} (f : P -> float t) (e : P -> R) j c ps : 0 <= c -> (forall p, In p ps -> 0 <= e p /\ finite (f p) /\ Rabs (val (f p) - e p) <= (rounded t j - 1) * e p + c) ->
  rounded t (length ps - 1) * (rounded t j * rsum (map e ps) + INR (length ps) * c) < two (emax t) ->
  let v := fold_left fadd (map f ps) fzero in finite v /\ Rabs (val v - rsum (map e ps)) <= (rounded t (length ps - 1 + j) - 1) * rsum (map e ps) + INR (length ps) * rounded t (length ps - 1) * c.
Proof. intros C TE NO v. set (n := length ps) in *. assert (Ee : rsum (map (fun p => Rabs (e p)) ps) = rsum (map e ps)). { f_equal. apply map_ext_in. intros p Hp. apply Rabs_pos_eq. now apply TE. }
  destruct (terms_err f e (rounded t j) c (rounded_1 t j) C ps) as (E1 & E2 & E3). { apply Forall_forall. intros p Hp. destruct (TE p Hp) as (P0 & _ & H). unfold off. now rewrite (Rabs_pos_eq (e p)) by exact P0. }
  rewrite Ee in *. fold n in E1, E2. set (W := rsum (map e ps)) in *. pose proof (rounded_1 t (n - 1)) as G1.
  assert (FT : Forall finite (map f ps)). { apply Forall_forall. intros y Hy. apply in_map_iff in Hy as (p & <- & Hp). now apply TE. }
  assert (NV : no_overflow (map f ps)). { unfold no_overflow. rewrite map_length. fold n. eapply Rle_lt_trans; [|exact NO]. apply Rmult_le_compat_l; lra. }
  destruct (sum_null (fun ts x => fold_left (fun v p => fadd v p) ts x) (map f ps) fzero (or_intror eq_refl) eq_refl eq_refl FT NV) as [FV EV]. split; [exact FV|]. rewrite map_length in EV. fold n in EV.
  replace (val v - W) with ((val v - exact_sum (map f ps)) + (exact_sum (map f ps) - W)) by ring. eapply Rle_trans; [apply Rabs_triang|]. rewrite rounded_plus.
  assert ((rounded t (n - 1) - 1) * magnitude (map f ps) <= (rounded t (n - 1) - 1) * (rounded t j * W + INR n * c)) by (apply Rmult_le_compat_l; lra). change (fold_left (fun v p => fadd v p) (map f ps) fzero) with v in EV. lra. Qed.
Lemma rsum_member {P} (e : P -> R) ps p : (forall q, In q ps -> 0 <= e q) -> In p ps -> e p <= rsum (map e ps).
Proof. intros H. unfold rsum. assert (N : forall qs, (forall q, In q qs -> 0 <= e q) -> 0 <= fold_right Rplus 0 (map e qs)). { induction qs as [|q qs IH]; cbn; intros; [lra|]. assert (0 <= e q) by auto. assert (0 <= fold_right Rplus 0 (map e qs)) by auto. lra. }
  induction ps as [|q ps IH]; [easy|]. intros [-> |I]; cbn [map fold_right].
  - assert (0 <= fold_right Rplus 0 (map e ps)) by (apply N; intros; apply H; now right). lra.
  - assert (e p <= fold_right Rplus 0 (map e ps)) by (apply IH; auto; intros; apply H; now right). assert (0 <= e q) by (apply H; now left). lra. Qed.
Lemma rsum_pos {P} (e : P -> R) ps : (forall q, In q ps -> 0 <= e q) -> 0 <= rsum (map e ps).
Proof. intro H. unfold rsum. induction ps as [|q ps IH]; cbn; [lra|]. assert (0 <= e q) by (apply H; now left). assert (0 <= fold_right Rplus 0 (map e ps)) by (apply IH; intros; apply H; now right). lra. Qed.
Lemma len_pos {A} (ps : list A) : ps <> [] -> (1 <= length ps)%nat. Proof. destruct ps; [congruence|cbn; lia]. Qed.
(** ** the city block distance *)
Definition city_term {t} (p : float t * float t) : float t := fabs (fsub (fst p) (snd p)).
Lemma city_terms t (ps : list (float t * float t)) p : finite_pairs ps -> city_no_overflow ps -> In p ps -> 0 <= gap p /\ finite (city_term p) /\ Rabs (val (city_term p) - gap p) <= (rounded t 1 - 1) * gap p + 0.
Proof. intros F NO Hp. unfold finite_pairs in F. rewrite Forall_forall in F. destruct (F p Hp) as [F1 F2]. pose proof (gap_pos p) as P0. pose proof (rsum_member gap ps p (fun q _ => gap_pos q) Hp) as M. fold (exact_city ps) in M.
  destruct (fsub_gap t p F1 F2) as (A & _ & B). { eapply Rle_lt_trans; [|exact NO]. apply Rmult_le_compat; auto. - pose proof (rounded_1 t 1). lra. - apply rounded_le. destruct ps; [easy|cbn; lia]. }
  split; [exact P0|]. split; [now apply fabs_finite|]. unfold city_term. rewrite fabs_val. unfold rounded. rewrite pow_1. lra. Qed.
Lemma city_rounds t (ps : list (float t * float t)) : ps <> [] -> finite_pairs ps -> city_no_overflow ps -> city_to ps (fold_left fadd (map city_term ps) fzero).
Proof. intros N F NO. pose proof (len_pos ps N) as L. destruct (sum_terms t city_term gap 1 0 ps (Rle_refl 0) (fun p Hp => city_terms t ps p F NO Hp)) as [A B].
  - rewrite Rmult_0_r, Rplus_0_r, <- Rmult_assoc, <- rounded_plus. replace (length ps - 1 + 1)%nat with (length ps) by lia. exact NO.
  - rewrite Rmult_0_r, Rplus_0_r in B. replace (length ps - 1 + 1)%nat with (length ps) in B by lia. split; [exact A|exact B]. Qed.
(** ** the squared Euclidean distance *)
Definition sq_term {t} (p : float t * float t) : float t := fsquare (fsub (fst p) (snd p)).
Lemma one_big t : 4 < two (emax t). Proof. change 4 with (two 2). apply two_lt. destruct t; reflexivity. Qed.
Lemma unit_1 t : unit_roundoff t <= 1. Proof. change 1 with (two 0). apply bpow_le. destruct t; cbn; discriminate. Qed.
Lemma sq_terms t (ps : list (float t * float t)) p : finite_pairs ps -> sq_no_overflow ps -> In p ps -> 0 <= gap p * gap p /\ finite (sq_term p) /\ Rabs (val (sq_term p) - gap p * gap p) <= (rounded t 3 - 1) * (gap p * gap p) + smallest t.
Proof. intros F NO Hp. unfold finite_pairs in F. rewrite Forall_forall in F. destruct (F p Hp) as [F1 F2]. pose proof (gap_pos p) as P0. pose proof (rsum_member (fun p => gap p * gap p) ps p (fun q _ => Rmult_le_pos _ _ (gap_pos q) (gap_pos q)) Hp) as M. fold (exact_sq ps) in M. cbn beta in M.
  assert (L : (1 <= length ps)%nat) by (destruct ps; [easy|cbn; lia]). pose proof (unit_pos t) as U. pose proof (unit_1 t) as U1. pose proof (small_pos t) as S0. unfold sq_no_overflow in NO. set (n := length ps) in *. set (g := gap p) in *. assert (G2 : 0 <= g * g) by nra.
  assert (RN : rounded t 3 <= rounded t (n + 2)) by (apply rounded_le; lia). pose proof (rounded_1 t 3) as R3. assert (D0 : smallest t <= dot_underflow t n). { unfold dot_underflow. pose proof (rounded_1 t (n - 1)) as R1. apply (le_INR 1) in L. cbn in L. assert (1 <= INR n * rounded t (n - 1)) by nra. nra. }
  assert (B3 : rounded t 3 * (g * g) + smallest t < two (emax t)). { eapply Rle_lt_trans; [|exact NO]. apply Rplus_le_compat; [|exact D0]. apply Rmult_le_compat; lra. }
  assert (E3 : rounded t 3 = (1 + unit_roundoff t) * ((1 + unit_roundoff t) * (1 + unit_roundoff t))) by (unfold rounded; cbn [pow]; ring). set (u := unit_roundoff t) in *.
  destruct (fsub_gap t p F1 F2) as (A & _ & B). { unfold rounded. rewrite pow_1. fold u g. destruct (Rle_lt_dec g 1) as [C|C]; [pose proof (one_big t); assert ((1 + u) * g <= 2 * 1) by (apply Rmult_le_compat; lra); lra|]. eapply Rle_lt_trans; [|exact B3]. assert (g <= g * g) by nra. assert (1 + u <= rounded t 3) by (rewrite E3; nra). assert ((1 + u) * g <= rounded t 3 * (g * g)) by (apply Rmult_le_compat; lra). lra. }
  fold u g in B. set (d := fsub (fst p) (snd p)) in *. set (m := Rabs (val d)) in *. assert (m0 : 0 <= m) by apply Rabs_pos. assert (Dm : val d * val d = m * m). { unfold m. rewrite <- Rabs_mult. symmetry. apply Rabs_pos_eq. nra. }
  assert (Um : m <= (1 + u) * g) by (pose proof (Rle_abs (m - g)); lra). assert (Lm : (1 - u) * g <= m) by (pose proof (Rle_abs (- (m - g))) as H; rewrite Rabs_Ropp in H; lra).
  assert (M2 : m * m <= (1 + u) * g * ((1 + u) * g)) by (apply Rmult_le_compat; lra). assert (L2 : (1 - u) * g * ((1 - u) * g) <= m * m) by (apply Rmult_le_compat; nra).
  assert (Q : Rabs (m * m - g * g) <= ((1 + u) * (1 + u) - 1) * (g * g)) by (apply Rabs_le; nra).
  destruct (fmul_err t d d A A) as [F3 Er]. { rewrite Dm, Rabs_pos_eq by nra. unfold rounded. rewrite pow_1. fold u. eapply Rle_lt_trans; [|exact B3]. rewrite E3. apply Rplus_le_compat_r. rewrite Rmult_assoc. apply Rmult_le_compat_l; lra. }
  rewrite Dm, (Rabs_pos_eq (m * m)) in Er by nra. fold u in Er. split; [exact G2|]. split; [exact F3|]. change (sq_term p) with (fmul d d). replace (val (fmul d d) - g * g) with ((val (fmul d d) - m * m) + (m * m - g * g)) by ring. eapply Rle_trans; [apply Rabs_triang|]. rewrite E3. assert (u * (m * m) <= u * ((1 + u) * g * ((1 + u) * g))) by (apply Rmult_le_compat_l; lra). lra. Qed.
Lemma sq_rounds t (ps : list (float t * float t)) : ps <> [] -> finite_pairs ps -> sq_no_overflow ps -> sq_to ps (fold_left fadd (map sq_term ps) fzero).
Proof. intros N F NO. pose proof (len_pos ps N) as L. pose proof (small_pos t) as S0. destruct (sum_terms t sq_term (fun p => gap p * gap p) 3 (smallest t) ps (Rlt_le _ _ S0) (fun p Hp => sq_terms t ps p F NO Hp)) as [A B]; fold (exact_sq ps) in *.
  - rewrite Rmult_plus_distr_l, <- Rmult_assoc, <- rounded_plus. replace (length ps - 1 + 3)%nat with (length ps + 2)%nat by lia. unfold sq_no_overflow, dot_underflow in NO. lra.
  - replace (length ps - 1 + 3)%nat with (length ps + 2)%nat in B by lia. split; [exact A|exact B]. Qed.
Lemma fold_nonneg t (ts : list (float t)) : (forall x, In x ts -> nonneg x) -> forall s, nonneg s -> nonneg (fold_left fadd ts s).
Proof. induction ts as [|x ts IH]; intros H s Hs; [exact Hs|]. cbn. apply IH; [intros; apply H; now right|]. apply nonneg_add; auto. apply H. now left. Qed.
Lemma euclid_rounds t (ps : list (float t * float t)) : ps <> [] -> finite_pairs ps -> sq_no_overflow ps -> euclid_to ps (fsqrt (fold_left fadd (map sq_term ps) fzero)).
Proof. intros N F NO. destruct (sq_rounds t ps N F NO) as [Fs E]. set (s := fold_left fadd (map sq_term ps) fzero) in *. assert (S0 : 0 <= val s). { apply (fold_nonneg t (map sq_term ps)); auto. - intros x Hx. apply in_map_iff in Hx as (p & <- & _). apply nonneg_square. - intros _. unfold val. cbn. lra. }
  assert (X0 : 0 <= exact_sq ps) by (apply rsum_pos; intros; apply Rmult_le_pos; apply gap_pos). assert (DU : 0 <= dot_underflow t (length ps)). { unfold dot_underflow. repeat apply Rmult_le_pos; [apply pos_INR|pose proof (rounded_1 t (length ps - 1)); lra|pose proof (smallest_pos t); lra]. }
  pose proof (sqrt_near _ _ _ _ S0 X0 (rounded_1 t (length ps + 2)) DU E) as Q. destruct (fsqrt_val t s Fs S0) as [V Fq]. split; [exact Fq|]. rewrite V. fold (exact_euclid ps) in Q. set (z := sqrt (val s)) in *. pose proof (rnd_err t z) as Er.
  assert (Z0 : 0 <= z) by apply sqrt_pos. assert (N0 : 0 <= exact_euclid ps) by apply sqrt_pos. rewrite (Rabs_pos_eq z) in Er by exact Z0. pose proof (unit_pos t) as U. replace (length ps + 3)%nat with (S (length ps + 2)) by lia. rewrite rounded_S. unfold rounded at 2. rewrite pow_1. set (g := rounded t (length ps + 2)) in *. set (u := unit_roundoff t) in *. set (w := sqrt (dot_underflow t (length ps))) in *.
  replace (rnd t z - exact_euclid ps) with ((rnd t z - z) + (z - exact_euclid ps)) by ring. eapply Rle_trans; [apply Rabs_triang|]. pose proof (Rle_abs (z - exact_euclid ps)). assert (u * z <= u * (g * exact_euclid ps + w)) by (apply Rmult_le_compat_l; lra). lra. Qed.
(** ** the Chebyshev distance *)
Lemma cheb_pos {t} (ps : list (float t * float t)) : 0 <= exact_chebyshev ps. Proof. unfold exact_chebyshev. induction ps; cbn; [lra|]. eapply Rle_trans; [exact IHps|apply Rmax_r]. Qed.
Lemma fmax_val t (x y : float t) : finite x -> finite y -> finite (fmax x y) /\ val (fmax x y) = Rmax (val x) (val y).
Proof. intros Fx Fy. assert (Nx : is_nan x = false) by (destruct x; auto; discriminate Fx). assert (Ny : is_nan y = false) by (destruct y; auto; discriminate Fy). unfold fmax. rewrite Nx, Ny, flt_val by auto. destruct (Rlt_bool_spec (val x) (val y)); split; auto; [rewrite Rmax_right|rewrite Rmax_left]; auto; lra. Qed.
Lemma cheb_rounds t (ps : list (float t * float t)) : finite_pairs ps -> chebyshev_no_overflow ps -> chebyshev_to ps (fold_left fmax (map city_term ps) fzero).
Proof. intros F NO. unfold chebyshev_to. assert (K : forall x c, finite x -> 0 <= c -> Rabs (val x - c) <= unit_roundoff t * c -> let d := fold_left fmax (map city_term ps) x in finite d /\ Rabs (val d - Rmax c (exact_chebyshev ps)) <= unit_roundoff t * Rmax c (exact_chebyshev ps)).
  { unfold chebyshev_no_overflow in NO. induction ps as [|p ps IH]; intros x c Fx C E.
    - cbn. unfold exact_chebyshev. cbn. rewrite Rmax_left by lra. auto.
    - cbn [map fold_left]. inversion F as [|q qs [F1 F2] F3]; subst. unfold exact_chebyshev in *. cbn [map fold_right] in *. fold (exact_chebyshev ps) in *. pose proof (rounded_1 t 1) as R1. pose proof (gap_pos p) as P0. destruct (fsub_gap t p F1 F2) as (A & _ & B). { eapply Rle_lt_trans; [|exact NO]. apply Rmult_le_compat_l; [lra|apply Rmax_l]. }
      assert (Ft : finite (city_term p)) by now apply fabs_finite. assert (Vt : Rabs (val (city_term p) - gap p) <= unit_roundoff t * gap p) by (unfold city_term; rewrite fabs_val; exact B).
      destruct (fmax_val t x (city_term p) Fx Ft) as [Fm Vm]. rewrite Rmax_assoc. apply IH; auto.
      + eapply Rle_lt_trans; [|exact NO]. apply Rmult_le_compat_l; [lra|apply Rmax_r].
      + eapply Rle_trans; [exact C|apply Rmax_l].
      + rewrite Vm. pose proof (unit_pos t) as U. pose proof (Rle_abs (val x - c)). pose proof (Rle_abs (- (val x - c))) as H2. rewrite Rabs_Ropp in H2. pose proof (Rle_abs (val (city_term p) - gap p)). pose proof (Rle_abs (- (val (city_term p) - gap p))) as H4. rewrite Rabs_Ropp in H4. apply Rabs_le.
        set (u := unit_roundoff t) in *. assert (u * c <= u * Rmax c (gap p)) by (apply Rmult_le_compat_l; [lra|apply Rmax_l]). assert (u * gap p <= u * Rmax c (gap p)) by (apply Rmult_le_compat_l; [lra|apply Rmax_r]).
        pose proof (Rmax_l c (gap p)). pose proof (Rmax_r c (gap p)). split; [|unfold Rmax at 1; destruct (Rle_dec (val x) (val (city_term p))); lra]. pose proof (Rmax_l (val x) (val (city_term p))). pose proof (Rmax_r (val x) (val (city_term p))). unfold Rmax at 3. destruct (Rle_dec c (gap p)); unfold Rmax at 1; destruct (Rle_dec c (gap p)); lra. }
  specialize (K fzero 0 eq_refl (Rle_refl 0)). rewrite (Rmax_right 0) in K by apply cheb_pos. apply K. unfold val. cbn. rewrite Rminus_0_r, Rabs_R0. lra. Qed.
