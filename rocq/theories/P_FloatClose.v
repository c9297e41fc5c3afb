(** Closeness of floating-point numbers. *)
From Coq Require Import ZArith Reals List Lia Lra Bool.
From Flocq Require Import Core BinarySingleNaN.
From Verif Require Import Base Spec M_Layout M_Tensor M_Reduce M_Binary M_Float Spec_Float Spec_FloatReduce Spec_FloatClose M_FloatClose P_FloatOps P_FloatSum P_FloatLinspace P_FloatDot.
Import ListNotations.
Local Open Scope R_scope.

Lemma unit_small t : unit_roundoff F64 <= unit_roundoff t <= / 16.
Proof. unfold unit_roundoff, two. split; [apply bpow_le; destruct t; cbn; lia|]. change (/ 16) with (bpow radix2 (-4)). apply bpow_le. destruct t; cbn; lia. Qed.
Lemma fabs_val t (x : float t) : val (fabs x) = Rabs (val x) /\ is_finite (fabs x) = is_finite x.
Proof. split; [apply B2R_Babs|apply is_finite_Babs]. Qed.

(** ** sums and products of nonnegative numbers, with overflow *)
Definition inf {t} : float t := B754_infinity false.
Lemma sf_inf t (x : float t) : B2SF x = SpecFloat.S754_infinity false -> x = inf.
Proof. destruct x; cbn; intro H; try discriminate. injection H as ->. reflexivity. Qed.
Lemma sign_pos t (x : float t) : finite x -> 0 < val x -> Bsign x = false.
Proof. destruct x as [b|b| |b m e H]; cbn; intros F P; try discriminate; [unfold val in P; cbn in P; lra|]. destruct b; auto. exfalso. unfold val in P. cbn in P. assert (F2R (beta := radix2) {| Fnum := Zneg m; Fexp := e |} < 0) by now apply F2R_lt_0. lra. Qed.
Lemma sign_neg t (x : float t) : finite x -> Bsign x = true -> val x <= 0.
Proof. intros F S. destruct (Rle_or_lt (val x) 0); auto. rewrite (sign_pos t x) in S; auto. discriminate. Qed.
Lemma fadd_pos t (x y : float t) : finite x -> finite y -> 0 <= val x -> 0 <= val y ->
  (finite (fadd x y) /\ val (fadd x y) = rnd t (val x + val y)) \/ (fadd x y = inf /\ two (emax t) <= rnd t (val x + val y)).
Proof. intros Fx Fy Px Py. pose proof (@Bplus_correct (prec t) (emax t) _ _ mode_NE x y Fx Fy) as C.
  destruct (Rlt_bool_spec (Rabs (round radix2 (SpecFloat.fexp (prec t) (emax t)) (round_mode mode_NE) (B2R x + B2R y))) (bpow radix2 (emax t))) as [L|L].
  - left. destruct C as (C1 & C2 & _). split; [exact C2|exact C1].
  - right. destruct C as [C1 C2]. assert (0 <= rnd t (val x + val y)) as P. { rewrite <- (round_0 radix2 (fexpt t) ZnearestE). apply rnd_le. lra. }
    assert (L' : two (emax t) <= rnd t (val x + val y)). { replace (rnd t (val x + val y)) with (Rabs (rnd t (val x + val y))) by now apply Rabs_pos_eq. exact L. }
    split; [|exact L']. apply sf_inf. etransitivity; [exact C1|]. destruct (Bsign x) eqn:Sx; [|reflexivity]. exfalso.
    apply sign_neg in Sx; auto. symmetry in C2. apply sign_neg in C2; auto. replace (val x + val y) with 0 in L' by lra. rewrite round_0 in L' by auto with typeclass_instances. pose proof (bpow_gt_0 radix2 (emax t)). unfold two in L'. lra. Qed.
Lemma fmul_pos t (x y : float t) : finite x -> finite y -> 0 <= val x -> 0 <= val y ->
  (finite (fmul x y) /\ val (fmul x y) = rnd t (val x * val y)) \/ (fmul x y = inf /\ two (emax t) <= rnd t (val x * val y)).
Proof. intros Fx Fy Px Py. pose proof (@Bmult_correct (prec t) (emax t) _ _ mode_NE x y) as C.
  destruct (Rlt_bool_spec (Rabs (round radix2 (SpecFloat.fexp (prec t) (emax t)) (round_mode mode_NE) (B2R x * B2R y))) (bpow radix2 (emax t))) as [L|L].
  - left. destruct C as (C1 & C2 & _). unfold finite in *. rewrite Fx, Fy in C2. split; [exact C2|exact C1].
  - right. assert (0 <= val x * val y) as P0 by now apply Rmult_le_pos. assert (0 <= rnd t (val x * val y)) as P. { rewrite <- (round_0 radix2 (fexpt t) ZnearestE). now apply rnd_le. }
    assert (L' : two (emax t) <= rnd t (val x * val y)). { replace (rnd t (val x * val y)) with (Rabs (rnd t (val x * val y))) by now apply Rabs_pos_eq. exact L. }
    split; [|exact L']. apply sf_inf. etransitivity; [exact C|].
    assert (N : val x * val y <> 0). { intro E. rewrite E in L'. rewrite round_0 in L' by auto with typeclass_instances. pose proof (bpow_gt_0 radix2 (emax t)). unfold two in L'. lra. }
    assert (Bsign x = false). { apply sign_pos; auto. destruct (Rle_lt_or_eq_dec 0 (val x) Px) as [|E]; auto. rewrite <- E in N. lra. }
    assert (Bsign y = false). { apply sign_pos; auto. destruct (Rle_lt_or_eq_dec 0 (val y) Py) as [|E]; auto. rewrite <- E in N. lra. }
    rewrite H, H0. reflexivity. Qed.
(** the tolerance: finite, or infinite because it is large *)
Lemma bound_pos (rtol atol B : float F64) : tolerance rtol -> tolerance atol -> finite B -> 0 <= val B ->
  let v := fadd atol (fmul rtol B) in
  (finite v /\ val v = rnd F64 (val atol + rnd F64 (val rtol * val B)) /\ val (fmul rtol B) = rnd F64 (val rtol * val B)) \/
  (v = inf /\ (two 1024 <= rnd F64 (val rtol * val B) \/ two 1024 <= rnd F64 (val atol + rnd F64 (val rtol * val B)) /\ val (fmul rtol B) = rnd F64 (val rtol * val B))).
Proof. intros [Fr Pr] [Fa Pa] Fb Pb v. destruct (fmul_pos F64 rtol B) as [[F V]|[E L]]; auto.
  - assert (0 <= val (fmul rtol B)). { rewrite V, <- (round_0 radix2 (fexpt F64) ZnearestE). apply rnd_le. now apply Rmult_le_pos. }
    destruct (fadd_pos F64 atol (fmul rtol B)) as [[F' V']|[E' L']]; auto; rewrite V in *; [left|right]; auto.
  - right. split; [|now left]. unfold v. rewrite E. destruct atol as [b|b| |b m e H]; try discriminate; destruct b; reflexivity. Qed.
Lemma fle_inf t (x : float t) : finite x -> fle x inf = true.
Proof. destruct x as [b|b| |b m e H]; intro F; try discriminate; destruct b; reflexivity. Qed.
Lemma fle_true t (x y : float t) : finite x -> finite y -> val x <= val y -> fle x y = true.
Proof. intros Fx Fy L. rewrite fle_val by auto. now apply Rle_bool_true. Qed.
Lemma fle_false t (x y : float t) : finite x -> finite y -> val y < val x -> fle x y = false.
Proof. intros Fx Fy L. rewrite fle_val by auto. now apply Rle_bool_false. Qed.

Section Core.
  Variables (rtol atol D B : float F64) (u d b : R).
  Hypotheses (Hr : tolerance rtol) (Ha : tolerance atol) (FD : finite D) (FB : finite B) (Hu : unit_roundoff F64 <= u <= / 16) (d0 : 0 <= d) (b0 : 0 <= b)
    (ED : Rabs (val D - d) <= u * d) (EB : Rabs (val B - b) <= u * b).
  Let T := val atol + val rtol * b.
  Lemma core : (d <= (1 - 5 * u) * T - 4 * smallest F64 -> fwithin rtol atol D B = true) /\ ((1 + 5 * u) * T + 4 * smallest F64 < d -> fwithin rtol atol D B = false).
  Proof. unfold fwithin. pose proof (small_pos F64) as e0. pose proof (unit_pos F64) as u0. set (eta := smallest F64) in *.
    apply Rabs_le_inv in ED. apply Rabs_le_inv in EB. pose proof Hr as [Fr Pr]. pose proof Ha as [Fa Pa].
    assert (Ub : 0 <= u * b) by (apply Rmult_le_pos; lra). assert (Ub' : u * b <= / 16 * b) by (apply Rmult_le_compat_r; lra).
    assert (PB : 0 <= val B) by lra. set (P := val rtol * val B). set (Q := val rtol * b) in *. assert (Q0 : 0 <= Q) by now apply Rmult_le_pos. assert (P0 : 0 <= P) by now apply Rmult_le_pos.
    assert (uQ : 0 <= u * Q) by (apply Rmult_le_pos; lra).
    assert (PQ1 : P <= Q + u * Q). { unfold P. replace (Q + u * Q) with (val rtol * (b + u * b)) by (unfold Q; ring). apply Rmult_le_compat_l; lra. }
    assert (PQ2 : Q - u * Q <= P). { unfold P. replace (Q - u * Q) with (val rtol * (b - u * b)) by (unfold Q; ring). apply Rmult_le_compat_l; lra. }
    pose proof (round_err F64 P) as EP. rewrite (Rabs_pos_eq P P0) in EP. fold eta in EP. apply Rabs_le_inv in EP. set (M := rnd F64 P) in *.
    assert (uP : unit_roundoff F64 * P <= u * P) by (apply Rmult_le_compat_r; lra).
    assert (M0 : 0 <= M). { unfold M. rewrite <- (round_0 radix2 (fexpt F64) ZnearestE). now apply rnd_le. }
    assert (ES : val (fmul rtol B) = M -> Rabs (rnd F64 (val atol + M) - (val atol + M)) <= u * (val atol + M)).
    { intro E. rewrite <- E. eapply Rle_trans; [apply sum_err|]. rewrite E. rewrite Rabs_pos_eq by lra. apply Rmult_le_compat_r; lra. }
    assert (T0 : 0 <= T) by (unfold T; lra). assert (uT : 0 <= u * T) by (apply Rmult_le_pos; lra). assert (uuT : u * (u * T) <= / 16 * (u * T)) by (apply Rmult_le_compat_r; lra). assert (uuT0 : 0 <= u * (u * T)) by (apply Rmult_le_pos; lra).
    assert (ua : 0 <= u * val atol) by (apply Rmult_le_pos; lra).
    assert (uP1 : u * P <= u * Q + u * (u * Q)). { replace (u * Q + u * (u * Q)) with (u * (Q + u * Q)) by ring. apply Rmult_le_compat_l; lra. }
    assert (uuQ : u * (u * Q) <= / 16 * (u * Q)) by (apply Rmult_le_compat_r; lra). assert (uuQ0 : 0 <= u * (u * Q)) by (apply Rmult_le_pos; lra).
    assert (ue : 0 <= u * eta <= / 16 * eta) by (split; [apply Rmult_le_pos|apply Rmult_le_compat_r]; lra).
    (* M between Q (1 - u)^2 - eta and Q (1 + u)^2 + eta *)
    assert (M1 : M <= Q + 2 * (u * Q) + u * (u * Q) + eta) by lra. assert (M2 : Q - 2 * (u * Q) - u * (u * Q) - eta <= M) by lra.
    assert (TQ : T = val atol + Q) by reflexivity. assert (uTQ : u * T = u * val atol + u * Q) by (rewrite TQ; ring). assert (uuTQ : u * (u * T) = u * (u * val atol) + u * (u * Q)) by (rewrite TQ; ring).
    assert (uua : 0 <= u * (u * val atol)) by (apply Rmult_le_pos; lra). 
    assert (uuuT : 0 <= u * (u * (u * T)) <= / 16 * (u * (u * T))) by (split; [apply Rmult_le_pos|apply Rmult_le_compat_r]; lra).
    assert (uuua : 0 <= u * (u * (u * val atol)) ) by (apply Rmult_le_pos; lra). assert (uuuTQ : u * (u * (u * T)) = u * (u * (u * val atol)) + u * (u * (u * Q))) by (rewrite TQ; ring).
    assert (S1 : val atol + M <= T + 2 * (u * T) + u * (u * T) + eta) by lra.
    assert (S2 : T - 2 * (u * T) - u * (u * T) - eta <= val atol + M) by lra.
    assert (uS1 : u * (val atol + M) <= u * T + 2 * (u * (u * T)) + u * (u * (u * T)) + u * eta). { replace (u * T + 2 * (u * (u * T)) + u * (u * (u * T)) + u * eta) with (u * (T + 2 * (u * T) + u * (u * T) + eta)) by ring. apply Rmult_le_compat_l; lra. }
    assert (Ud : 0 <= u * d <= / 16 * d) by (split; [apply Rmult_le_pos|apply Rmult_le_compat_r]; lra).
    destruct (bound_pos rtol atol B Hr Ha FB PB) as [(FV & EV & EM)|(EI & L)].
    - fold P in EV, EM. fold M in EV, EM. specialize (ES EM). apply Rabs_le_inv in ES. rewrite <- EV in ES. split; intro H.
      + apply fle_true; auto. assert (u * d <= u * T - 5 * (u * (u * T))). { replace (u * T - 5 * (u * (u * T))) with (u * (T - 5 * (u * T))) by ring. apply Rmult_le_compat_l; [lra|]. clear - H e0. lra. }
        assert (H' : d <= T - 5 * (u * T) - 4 * eta) by (clear - H; lra). clear - ES uS1 S2 ED H' H0 uuuT uuT uuT0 ue uT T0 e0. lra.
      + apply fle_false; auto. assert (H' : T + 5 * (u * T) + 4 * eta < d) by (clear - H; lra). assert (val D >= (1 - u) * d) by lra. assert ((1 - u) * (T + 5 * (u * T) + 4 * eta) < (1 - u) * d) by (apply Rmult_lt_compat_l; lra).
        assert (Z : (1 - u) * (T + 5 * (u * T) + 4 * eta) = T + 4 * (u * T) - 5 * (u * (u * T)) + 4 * eta - 4 * (u * eta)) by ring. rewrite Z in H1. clear - ES uS1 S1 H0 H1 uuuT uuT uuT0 ue uT T0 e0. lra.
    - fold P in L. fold M in L. split; intro H; [rewrite EI; now apply fle_inf|]. exfalso. pose proof (val_lt F64 D) as LD. change (emax F64) with 1024%Z in LD. apply Rabs_lt_inv in LD.
      assert (H' : T + 5 * (u * T) + 4 * eta < d) by (clear - H; lra). assert (val D >= (1 - u) * d) by lra. assert ((1 - u) * (T + 5 * (u * T) + 4 * eta) < (1 - u) * d) by (apply Rmult_lt_compat_l; lra).
      assert (Z : (1 - u) * (T + 5 * (u * T) + 4 * eta) = T + 4 * (u * T) - 5 * (u * (u * T)) + 4 * eta - 4 * (u * eta)) by ring. rewrite Z in H1.
      destruct L as [L|[L EM]]; [clear - L LD H0 H1 S1 Pa uuuT uuT uuT0 ue uT T0 e0; lra|].
      fold P in EM. fold M in EM. specialize (ES EM). apply Rabs_le_inv in ES. clear - L LD ES H0 H1 uS1 S1 Pa uuuT uuT uuT0 ue uT T0 e0. lra. Qed.
End Core.
