(** Rounding errors of sums of products *)
From Coq Require Import ZArith Reals List Lia Lra Bool.
From Flocq Require Import Core Relative BinarySingleNaN.
From Verif Require Import Base Spec Spec_Float Spec_FloatReduce Spec_FloatMatmul P_ArangeFloat M_Float P_FloatOps M_FloatReduce P_FloatSum P_FloatLinspace.
Import ListNotations.
Local Open Scope R_scope.

Lemma fmul_comm t (x y : float t) : fmul x y = fmul y x.
Proof. apply B2SF_inj. unfold fmul, Bmult. destruct x as [sx|sx| |sx mx ex Hx], y as [sy|sy| |sy my ey Hy]; cbn [B2SF]; try reflexivity; try (rewrite xorb_comm; reflexivity).
  rewrite !B2SF_SF2B. now rewrite xorb_comm, Pos.mul_comm, Z.add_comm. Qed.
Lemma small_pos t : 0 < smallest t. Proof. apply bpow_gt_0. Qed.
Lemma round_err t x : Rabs (rnd t x - x) <= unit_roundoff t * Rabs x + smallest t.
Proof. apply rnd_err. Qed.

Lemma rsum_app xs ys : rsum (xs ++ ys) = rsum xs + rsum ys.
Proof. unfold rsum. induction xs as [|x xs IH]; cbn; [ring|]. rewrite IH. ring. Qed.
Lemma magnitude_pos {t} (xs : list (float t)) : 0 <= magnitude xs.
Proof. unfold magnitude, rsum. induction xs as [|x xs IH]; cbn; [lra|]. pose proof (Rabs_pos (val x)). lra. Qed.
(** ** folds *)
Definition folds {t} (s : list (float t) -> float t -> float t) : Prop :=
  s = (fun ts x => fold_left (fun v p => fadd p v) ts x) \/ s = (fun ts x => fold_left (fun v p => fadd v p) ts x).
Section Fold.
  Context {t : float_type} (R : float t -> shadow -> Prop) (of : float t -> shadow)
    (Radd : forall x y s s', R x s -> R y s' -> R (fadd x y) (sh_add s s')) (Rof : forall x, R x (of x)).
  Lemma sh_comm x y : sh_add x y = sh_add y x. Proof. apply sh_monoid. Qed.
  Lemma fold_rel s ts : folds s -> forall x sx, R x sx -> R (s ts x) (sh_add (total sh_zero sh_add (map of ts)) sx).
  Proof. intro F. assert (L : s ts = (fun x => s ts x)) by reflexivity. unfold total. destruct F as [-> | ->]; clear L.
    - induction ts as [|p ts IH]; intros x sx H; cbn [fold_left map fold_right]. { replace (sh_add sh_zero sx) with sx; [auto|]. symmetry. apply sh_monoid. }
      replace (sh_add (sh_add (of p) (fold_right sh_add sh_zero (map of ts))) sx) with (sh_add (fold_right sh_add sh_zero (map of ts)) (sh_add (of p) sx)); [apply IH; auto|]. rewrite (sh_comm (of p) (fold_right _ _ _)). apply sh_monoid.
    - induction ts as [|p ts IH]; intros x sx H; cbn [fold_left map fold_right]. { replace (sh_add sh_zero sx) with sx; [auto|]. symmetry. apply sh_monoid. }
      replace (sh_add (sh_add (of p) (fold_right sh_add sh_zero (map of ts))) sx) with (sh_add (fold_right sh_add sh_zero (map of ts)) (sh_add sx (of p))); [apply IH; auto|]. rewrite (sh_comm sx (of p)), (sh_comm (of p) (fold_right _ _ _)). apply sh_monoid. Qed.
End Fold.
Lemma near_null {t} (x : float t) : finite x -> val x = 0 -> near x sh_zero.
Proof. intros F E. split; [split; [lra|split; [rewrite Rabs_R0; lra|reflexivity]]|]. cbn. intros _ _. split; [exact F|]. rewrite E, Rminus_0_r, Rabs_R0. lra. Qed.
Lemma all_finite {t} (ts : list (float t)) : Forall finite ts -> length (filter (fun x => negb (is_finite x)) ts) = 0%nat.
Proof. intro F. apply (sh_good is_finite). intros x Hx. rewrite Forall_forall in F. now apply F. Qed.
(** sums that start with a zero, of either sign *)
Lemma sum_null {t} s (ts : list (float t)) x : folds s -> finite x -> val x = 0 -> Forall finite ts -> no_overflow ts -> sums_to ts (s ts x).
Proof. intros F Fx Ex Ft NO. destruct (fold_rel near (sh_of is_finite) (fun x y s s' => near_add x y s s') near_of s ts F x sh_zero (near_null x Fx Ex)) as [_ H].
  rewrite (sh_total is_finite) in H. unfold sh_add, sh_zero in H. cbn [fst snd] in H. rewrite !Rplus_0_r, !Nat.add_0_r in H. apply H; [now apply all_finite|exact NO]. Qed.
(** sums that start with any number *)
Lemma sum_start {t} s (ts : list (float t)) x : folds s -> finite x -> Forall finite ts -> rounded t (length ts) * (magnitude ts + Rabs (val x)) < two (emax t) ->
  finite (s ts x) /\ Rabs (val (s ts x) - (exact_sum ts + val x)) <= (rounded t (length ts) - 1) * (magnitude ts + Rabs (val x)).
Proof. intros F Fx Ft NO. destruct (fold_rel near (sh_of is_finite) (fun x y s s' => near_add x y s s') near_of s ts F x _ (near_of x)) as [_ H].
  rewrite (sh_total is_finite) in H. unfold sh_add, sh_of in H. cbn [fst snd] in H. replace (length ts + 1 - 1)%nat with (length ts) in H by lia. apply H; [|exact NO]. rewrite Fx, Nat.add_0_r. exact (all_finite ts Ft). Qed.
(** exact sums *)
Lemma hit_null {t} k (x : float t) : finite x -> val x = 0 -> hit k x sh_zero.
Proof. intros F E. split; [split; [lra|split; [rewrite Rabs_R0; lra|reflexivity]]|]. cbn. intros _ _. split; [exact F|]. split; [exact E|]. exists 0%Z. ring. Qed.
Lemma sum_exact {t} k s (ts : list (float t)) x : (3 - emax t - prec t <= k)%Z -> (k + prec t < emax t)%Z -> folds s -> finite x -> val x = 0 -> multiples k ts -> magnitude ts <= two (k + prec t) -> finite (s ts x) /\ val (s ts x) = exact_sum ts.
Proof. intros K1 K2 F Fx Ex Ft NO. destruct (fold_rel (hit k) (sh_of (is_multiple k)) (fun x y s s' => hit_add k x y s s' K1 K2) (hit_of k) s ts F x sh_zero (hit_null k x Fx Ex)) as [_ H].
  rewrite (sh_total (is_multiple k)) in H. unfold sh_add, sh_zero in H. cbn [fst snd] in H. rewrite !Rplus_0_r, !Nat.add_0_r in H. destruct H as (H1 & H2 & _); auto.
  apply (sh_good (is_multiple k)). intros y Hy. unfold multiples in Ft. rewrite Forall_forall in Ft. destruct (Ft y Hy). now apply multiple_bool. Qed.

(** ** summands that are rounded themselves *)
Section Terms.
  Context {t : float_type} {P : Type} (f : P -> float t) (e : P -> R) (h c : R) (Hh : 1 <= h) (Hc : 0 <= c).
  Definition off (p : P) : Prop := Rabs (val (f p) - e p) <= (h - 1) * Rabs (e p) + c.
  Lemma terms_err ps : Forall off ps -> Rabs (exact_sum (map f ps) - rsum (map e ps)) <= (h - 1) * rsum (map (fun p => Rabs (e p)) ps) + INR (length ps) * c /\
    magnitude (map f ps) <= h * rsum (map (fun p => Rabs (e p)) ps) + INR (length ps) * c /\ 0 <= rsum (map (fun p => Rabs (e p)) ps).
  Proof using Hh Hc. induction 1 as [|p ps H F (I1 & I2 & I3)]. { unfold exact_sum, magnitude, rsum. cbn. rewrite Rminus_0_r, Rabs_R0. lra. }
    unfold exact_sum, magnitude, rsum in *. cbn [map fold_right] in *. rewrite S_INR || idtac. change (length (p :: ps)) with (S (length ps)). rewrite S_INR. unfold off in H. pose proof (Rabs_pos (e p)).
    set (A := fold_right Rplus 0 (map val (map f ps))) in *. set (B := fold_right Rplus 0 (map e ps)) in *. set (G := fold_right Rplus 0 (map (fun p => Rabs (e p)) ps)) in *. split; [|split; [|lra]].
    - replace (val (f p) + A - (e p + B)) with ((val (f p) - e p) + (A - B)) by ring. eapply Rle_trans; [apply Rabs_triang|]. lra.
    - assert (V : Rabs (val (f p)) <= h * Rabs (e p) + c). { replace (val (f p)) with ((val (f p) - e p) + e p) by ring. eapply Rle_trans; [apply Rabs_triang|]. lra. } lra. Qed.
End Terms.

Lemma fmul_err t (x y : float t) : finite x -> finite y -> rounded t 1 * Rabs (val x * val y) + smallest t < two (emax t) ->
  finite (fmul x y) /\ Rabs (val (fmul x y) - val x * val y) <= unit_roundoff t * Rabs (val x * val y) + smallest t.
Proof. intros Fx Fy L. unfold rounded in L. rewrite pow_1 in L. pose proof (round_err t (val x * val y)) as E. set (p := val x * val y) in *.
  assert (B : Rabs (rnd t p) < two (emax t)). { replace (rnd t p) with ((rnd t p - p) + p) by ring. eapply Rle_lt_trans; [apply Rabs_triang|]. lra. }
  destruct (fmul_val t x y Fx Fy B) as [-> F]. split; [exact F|exact E]. Qed.
Lemma fmul_one t (x : float t) : finite x -> finite (fmul (of_int 1) x) /\ val (fmul (of_int 1) x) = val x.
Proof. intro F. destruct (int_val t 1) as [V1 F1]. { destruct t; cbn; lia. } destruct (fmul_val t (of_int 1) x F1 F) as [V G]; rewrite V1, Rmult_1_l, rnd_id in * by apply val_format; auto. apply val_lt. Qed.
Lemma fmul_null t (x : float t) : finite x -> finite (fmul fzero x) /\ val (fmul fzero x) = 0.
Proof. intro F. destruct x; try discriminate F; unfold fmul, Bmult, fzero; cbn; auto. Qed.
Lemma fold_map_l {t} (alpha : float t) vs x : fold_left (fun v p => fadd (fmul alpha p) v) vs x = fold_left (fun v p => fadd p v) (map (fmul alpha) vs) x.
Proof. revert x. induction vs as [|v vs IH]; intro x; cbn; auto. Qed.
Lemma fold_map_r {t} (alpha : float t) vs x : fold_left (fun v p => fadd v (fmul alpha p)) vs x = fold_left (fun v p => fadd v p) (map (fmul alpha) vs) x.
Proof. revert x. induction vs as [|v vs IH]; intro x; cbn; auto. Qed.
(** the two orders of the operands of the addition that the kernels use *)
Definition runs {t} (alpha beta z : float t) (vs : list (float t)) (v : float t) : Prop :=
  v = fold_left (fun v p => fadd (fmul alpha p) v) vs (fmul beta z) \/ v = fold_left (fun v p => fadd v (fmul alpha p)) vs (fmul beta z).
Lemma runs_fold {t} (alpha beta z : float t) vs v : runs alpha beta z vs v -> exists s, folds s /\ v = s (map (fmul alpha) vs) (fmul beta z).
Proof. intros [-> | ->]; eexists; (split; [|first [apply fold_map_l|apply fold_map_r]]); [left|right]; reflexivity. Qed.
Notation mulp := (fun p => fmul (fst p) (snd p)).
Lemma dot_member {t} (ps : list (float t * float t)) p : In p ps -> Rabs (val (fst p) * val (snd p)) <= dot_magnitude ps.
Proof. unfold dot_magnitude, rsum. induction ps as [|q ps IH]; [easy|]. intros [-> |H]; cbn [map fold_right].
  - assert (0 <= fold_right Rplus 0 (map (fun p => Rabs (val (fst p) * val (snd p))) ps)); [|lra]. clear. induction ps as [|q ps IH]; cbn; [lra|]. pose proof (Rabs_pos (val (fst q) * val (snd q))). lra.
  - specialize (IH H). pose proof (Rabs_pos (val (fst q) * val (snd q))). lra. Qed.
Lemma dot_magnitude_pos {t} (ps : list (float t * float t)) : 0 <= dot_magnitude ps.
Proof. unfold dot_magnitude, rsum. induction ps as [|q ps IH]; cbn; [lra|]. pose proof (Rabs_pos (val (fst q) * val (snd q))). lra. Qed.

(** ** 1 * (sum of products) + 0 * z *)
Lemma dot_ok {t} (z : float t) ps v : runs (of_int 1) fzero z (map mulp ps) v -> finite z -> finite_pairs ps -> dot_no_overflow ps -> dots_to ps v.
Proof. intros R Fz Fp NO. apply runs_fold in R as (s & Fs & ->). destruct (fmul_null t z Fz) as [F0 V0]. rewrite map_map. set (f := fun p : float t * float t => fmul (of_int 1) (fmul (fst p) (snd p))). set (n := length ps).
  pose proof (unit_pos t) as U. pose proof (small_pos t) as S0. pose proof (dot_magnitude_pos ps) as M0. unfold dot_no_overflow in NO. fold n in NO.
  assert (TE : forall p, In p ps -> finite (f p) /\ Rabs (val (f p) - val (fst p) * val (snd p)) <= unit_roundoff t * Rabs (val (fst p) * val (snd p)) + smallest t).
  { intros p Hp. unfold finite_pairs in Fp. rewrite Forall_forall in Fp. destruct (Fp p Hp) as [F1 F2].
    assert (N1 : (1 <= n)%nat) by (unfold n; destruct ps; [easy|cbn; lia]).
    destruct (fmul_err t (fst p) (snd p) F1 F2) as [F3 E3].
    { eapply Rle_lt_trans; [|exact NO]. apply Rplus_le_compat.
      - apply Rmult_le_compat; [pose proof (rounded_1 t 1); lra|apply Rabs_pos|now apply rounded_le|now apply dot_member].
      - unfold dot_underflow. pose proof (rounded_1 t (n - 1)) as G1. apply (le_INR 1 n) in N1. cbn in N1. assert (1 <= INR n * rounded t (n - 1)) by nra. nra. }
    destruct (fmul_one t _ F3) as [F4 E4]. unfold f. rewrite E4. auto. }
  assert (FT : Forall finite (map f ps)). { apply Forall_forall. intros y Hy. apply in_map_iff in Hy as (p & <- & Hp). now apply TE. }
  destruct (terms_err f (fun p => val (fst p) * val (snd p)) (1 + unit_roundoff t) (smallest t) ltac:(lra) ltac:(lra) ps) as (E1 & E2 & _).
  { apply Forall_forall. intros p Hp. unfold off. destruct (TE p Hp) as [_ H]. replace (1 + unit_roundoff t - 1) with (unit_roundoff t) by ring. exact H. }
  fold (dot_magnitude ps) in E1, E2. fold (exact_dot ps) in E1. fold n in E1, E2. set (A := dot_magnitude ps) in *. replace (1 + unit_roundoff t - 1) with (unit_roundoff t) in E1 by ring.
  pose proof (rounded_1 t (n - 1)) as G1. pose proof (pos_INR n) as N0.
  assert (GN : rounded t (n - 1) * (1 + unit_roundoff t) * A <= rounded t n * A).
  { destruct n as [|m] eqn:EN.
    - unfold n in EN. destruct ps; [|discriminate EN]. unfold A, dot_magnitude, rsum. cbn. lra.
    - apply Rmult_le_compat_r; [exact M0|]. replace (Datatypes.S m - 1)%nat with m by lia. rewrite rounded_S. lra. }
  assert (MG : rounded t (n - 1) * magnitude (map f ps) <= rounded t n * A + dot_underflow t n).
  { unfold dot_underflow. apply Rle_trans with (rounded t (n - 1) * ((1 + unit_roundoff t) * A + INR n * smallest t)); [apply Rmult_le_compat_l; lra|]. lra. }
  assert (NV : no_overflow (map f ps)). { unfold no_overflow. rewrite map_length. fold n. lra. }
  destruct (sum_null s (map f ps) (fmul fzero z) Fs F0 V0 FT NV) as [FV EV]. split; [exact FV|]. rewrite map_length in EV. fold n in EV. fold n.
  replace (val (s (map f ps) (fmul fzero z)) - exact_dot ps) with ((val (s (map f ps) (fmul fzero z)) - exact_sum (map f ps)) + (exact_sum (map f ps) - exact_dot ps)) by ring.
  eapply Rle_trans; [apply Rabs_triang|]. fold A. unfold dot_underflow in *. 
  assert ((rounded t (n - 1) - 1) * magnitude (map f ps) <= (rounded t (n - 1) - 1) * ((1 + unit_roundoff t) * A + INR n * smallest t)) by (apply Rmult_le_compat_l; lra). lra. Qed.

(** ** beta * z + alpha * (sum of products) *)
Lemma scaled_ok {t} (alpha beta z : float t) ps v : runs alpha beta z (map mulp ps) v -> finite alpha -> finite beta -> finite z -> finite_pairs ps -> scaled_no_overflow alpha beta z ps -> accumulates_to alpha beta z ps v.
Proof. intros R Fa Fb Fz Fp [NO PO]. apply runs_fold in R as (s & Fs & ->). rewrite map_map. set (f := fun p : float t * float t => fmul alpha (fmul (fst p) (snd p))). set (n := length ps) in *.
  pose proof (unit_pos t) as U. pose proof (small_pos t) as S0. pose proof (dot_magnitude_pos ps) as M0. set (u := unit_roundoff t) in *. set (eta := smallest t) in *. set (A := Rabs (val alpha)) in *. set (D := dot_magnitude ps) in *.
  assert (A0 : 0 <= A) by apply Rabs_pos. set (c := (1 + (1 + u) * A) * eta). assert (UA : 0 <= (1 + u) * A * eta) by (apply Rmult_le_pos; [apply Rmult_le_pos|]; lra). assert (C1 : eta <= c) by (unfold c; lra). set (g2 := (1 + u) * (1 + u)). assert (G2 : 1 + u <= g2) by (unfold g2; nra).
  assert (R1 : rounded t 1 = 1 + u) by (unfold rounded; rewrite pow_1; reflexivity).
  set (Gn := rounded t n). pose proof (rounded_1 t n) as Gn1. fold Gn in Gn1.
  assert (Rn : rounded t (n + 2) = Gn * g2). { replace (n + 2)%nat with (S (S n)) by lia. rewrite !rounded_S. unfold Gn, g2, u. ring. }
  assert (UF : scaled_underflow alpha n = INR (n + 1) * Gn * c). { unfold scaled_underflow. rewrite R1. unfold c. fold A eta Gn. ring. }
  unfold scaled_no_overflow, scaled_magnitude in NO. fold n A D in NO. rewrite Rn, UF in NO. set (B := Rabs (val beta * val z)) in *. assert (B0 : 0 <= B) by apply Rabs_pos. pose proof (pos_INR n) as N0. pose proof (plus_INR n 1) as N1. change (INR 1) with 1 in N1.
  assert (Gc : forall k, 0 <= k <= INR n + 1 -> k * c <= INR (n + 1) * Gn * c). { intros k Hk. rewrite N1. apply Rmult_le_compat_r; [lra|]. nra. }
  assert (AD : 0 <= A * D) by nra. assert (GG : 0 <= (Gn - 1) * g2) by nra.
  (* the first summand *)
  destruct (fmul_err t beta z Fb Fz) as [F0 E0]. { rewrite R1. fold B eta. eapply Rle_lt_trans; [|exact NO]. specialize (Gc 1). nra. }
  fold B u eta in E0.
  assert (E0' : Rabs (val (fmul beta z) - val beta * val z) <= (g2 - 1) * B + c) by nra.
  assert (TE : forall p, In p ps -> finite (f p) /\ Rabs (val (f p) - val alpha * (val (fst p) * val (snd p))) <= (g2 - 1) * Rabs (val alpha * (val (fst p) * val (snd p))) + c).
  { intros p Hp. unfold finite_pairs in Fp. rewrite Forall_forall in Fp, PO. destruct (Fp p Hp) as [F1 F2]. destruct (fmul_err t (fst p) (snd p) F1 F2 (PO p Hp)) as [F3 E3].
    pose proof (dot_member ps p Hp) as DM. fold D in DM. set (q := fmul (fst p) (snd p)) in *. set (x := val (fst p) * val (snd p)) in *. fold u eta in E3. pose proof (Rabs_pos x) as X0.
    assert (NN : 1 <= INR n). { unfold n. destruct ps; [easy|]. cbn [length]. rewrite S_INR. pose proof (pos_INR (length ps)). lra. }
    assert (Q : Rabs (val q) <= (1 + u) * Rabs x + eta). { replace (val q) with ((val q - x) + x) by ring. eapply Rle_trans; [apply Rabs_triang|]. lra. }
    assert (AX : A * Rabs x <= A * D) by nra. assert (AQ : A * Rabs (val q) <= (1 + u) * (A * Rabs x) + A * eta) by nra.
    destruct (fmul_err t alpha q Fa F3) as [F4 E4].
    { rewrite R1, Rabs_mult. fold A eta. eapply Rle_lt_trans; [|exact NO]. specialize (Gc 1). assert (c = eta + (1 + u) * (A * eta)) by (unfold c; ring). assert ((1 + u) * (A * Rabs (val q)) <= g2 * (A * Rabs x) + (1 + u) * (A * eta)) by (unfold g2; nra). nra. }
    split; [exact F4|]. unfold f. fold q. rewrite Rabs_mult in E4. fold A u eta in E4. rewrite (Rabs_mult (val alpha) x). fold A.
    replace (val (fmul alpha q) - val alpha * x) with ((val (fmul alpha q) - val alpha * val q) + val alpha * (val q - x)) by ring. eapply Rle_trans; [apply Rabs_triang|]. rewrite (Rabs_mult (val alpha) (val q - x)). fold A.
    assert (A * Rabs (val q - x) <= u * (A * Rabs x) + A * eta) by nra. assert (u * (A * Rabs (val q)) <= u * ((1 + u) * (A * Rabs x) + A * eta)) by nra. unfold c, g2. lra. }
  assert (FT : Forall finite (map f ps)). { apply Forall_forall. intros y Hy. apply in_map_iff in Hy as (p & <- & Hp). now apply TE. }
  destruct (terms_err f (fun p => val alpha * (val (fst p) * val (snd p))) g2 c ltac:(lra) ltac:(lra) ps) as (E1 & E2 & _). { apply Forall_forall. intros p Hp. apply TE. exact Hp. }
  assert (X1 : rsum (map (fun p : float t * float t => val alpha * (val (fst p) * val (snd p))) ps) = val alpha * exact_dot ps). { unfold exact_dot, rsum. clear. induction ps as [|p ps IH]; cbn; [ring|]. rewrite IH. ring. }
  assert (X2 : rsum (map (fun p : float t * float t => Rabs (val alpha * (val (fst p) * val (snd p)))) ps) = A * D). { unfold D, dot_magnitude, rsum, A. clear. induction ps as [|p ps IH]; cbn; [ring|]. rewrite IH, Rabs_mult. ring. }
  rewrite X1, X2 in E1. rewrite X2 in E2. fold n in E1, E2.
  assert (V0 : Rabs (val (fmul beta z)) <= g2 * B + c). { replace (val (fmul beta z)) with ((val (fmul beta z) - val beta * val z) + val beta * val z) by ring. eapply Rle_trans; [apply Rabs_triang|]. fold B. lra. }
  assert (MG : magnitude (map f ps) + Rabs (val (fmul beta z)) <= g2 * (B + A * D) + INR (n + 1) * c) by (rewrite N1; lra).
  destruct (sum_start s (map f ps) (fmul beta z) Fs F0 FT) as [FV EV].
  { rewrite map_length. fold n Gn. eapply Rle_lt_trans; [|exact NO]. apply Rle_trans with (Gn * (g2 * (B + A * D) + INR (n + 1) * c)); [apply Rmult_le_compat_l; lra|]. lra. }
  rewrite map_length in EV. fold n Gn in EV. split; [exact FV|]. set (w := val (s (map f ps) (fmul beta z))) in *. unfold scaled_magnitude. fold n A D B. rewrite Rn, UF.
  replace (w - (val beta * val z + val alpha * exact_dot ps)) with ((w - (exact_sum (map f ps) + val (fmul beta z))) + ((exact_sum (map f ps) - val alpha * exact_dot ps) + (val (fmul beta z) - val beta * val z))) by ring.
  eapply Rle_trans; [apply Rabs_triang|]. pose proof (Rabs_triang (exact_sum (map f ps) - val alpha * exact_dot ps) (val (fmul beta z) - val beta * val z)) as TR.
  assert ((Gn - 1) * (magnitude (map f ps) + Rabs (val (fmul beta z))) <= (Gn - 1) * (g2 * (B + A * D) + INR (n + 1) * c)) by (apply Rmult_le_compat_l; lra).
  rewrite N1 in *. lra. Qed.

(** ** products without rounding *)
Lemma dot_exact {t} j k (z : float t) ps v : (3 - emax t - prec t <= j + k)%Z -> (j + k + prec t < emax t)%Z -> runs (of_int 1) fzero z (map mulp ps) v -> finite z ->
  multiple_pairs j k ps -> dot_magnitude ps <= two (j + k + prec t) -> finite v /\ val v = exact_dot ps.
Proof. intros K1 K2 R Fz Mp L. apply runs_fold in R as (s & Fs & ->). destruct (fmul_null t z Fz) as [F0 V0]. rewrite map_map. set (f := fun p : float t * float t => fmul (of_int 1) (fmul (fst p) (snd p))).
  assert (TE : forall p, In p ps -> (finite (f p) /\ multiple_of (j + k) (val (f p))) /\ val (f p) = val (fst p) * val (snd p)).
  { intros p Hp. unfold multiple_pairs in Mp. rewrite Forall_forall in Mp. destruct (Mp p Hp) as [[F1 (m & E1)] [F2 (m' & E2)]]. pose proof (dot_member ps p Hp) as DM.
    assert (MP : multiple_of (j + k) (val (fst p) * val (snd p))). { exists (m * m')%Z. rewrite E1, E2, mult_IZR. unfold two. rewrite bpow_plus. ring. }
    assert (ID : rnd t (val (fst p) * val (snd p)) = val (fst p) * val (snd p)). { apply rnd_id, (multiple_format t (j + k)); auto. lra. }
    destruct (fmul_val t (fst p) (snd p) F1 F2) as [E3 F3]. { rewrite ID. eapply Rle_lt_trans; [exact DM|]. eapply Rle_lt_trans; [exact L|]. now apply two_lt. }
    rewrite ID in E3. destruct (fmul_one t _ F3) as [F4 E4]. unfold f. rewrite E4, E3. auto. }
  assert (S1 : exact_sum (map f ps) = exact_dot ps). { unfold exact_sum, exact_dot. rewrite map_map. f_equal. apply map_ext_in. intros p Hp. now apply TE. }
  assert (S2 : magnitude (map f ps) = dot_magnitude ps). { unfold magnitude, dot_magnitude. rewrite map_map. f_equal. apply map_ext_in. intros p Hp. f_equal. now apply TE. }
  rewrite <- S1. apply (sum_exact (j + k)); auto; [|now rewrite S2]. unfold multiples. apply Forall_forall. intros y Hy. apply in_map_iff in Hy as (p & <- & Hp). now apply TE. Qed.
