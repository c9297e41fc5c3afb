(** Lemmas behind Properties_FloatClose.v *)
From Coq Require Import ZArith Reals List Lia Lra Bool.
From Flocq Require Import Core Relative BinarySingleNaN Plus_error.
From Verif Require Import Base Spec P_Index P_Kernel P_Broadcast P_Tensor Q_Tensor M_Layout M_Tensor M_Reduce M_Binary Q_Binary M_Float Spec_Float Spec_FloatReduce Spec_FloatClose M_FloatClose P_FloatOps P_FloatSum P_FloatLinspace P_FloatDot P_FloatClose.
Import ListNotations.
Local Open Scope R_scope.

Lemma promoted_wider s t : promoted s t = wider s t. Proof. destruct s, t; reflexivity. Qed.
Lemma conv_l s t (x : float s) : finite x -> val (convert s (promoted s t) x) = val x /\ finite (convert s (promoted s t) x).
Proof. intro F. destruct s, t; cbn [promoted]; try (now apply to64). destruct (convert_val F32 F32 x F) as [C1 C2]; rewrite rnd_id in * by apply val_format; auto using val_lt. Qed.
Lemma conv_r s t (x : float t) : finite x -> val (convert t (promoted s t) x) = val x /\ finite (convert t (promoted s t) x).
Proof. intro F. destruct s, t; cbn [promoted]; try (now apply to64). destruct (convert_val F32 F32 x F) as [C1 C2]; rewrite rnd_id in * by apply val_format; auto using val_lt. Qed.
Lemma fopp_val t (x : float t) : val (Bopp x) = - val x. Proof. apply B2R_Bopp. Qed.
Lemma diff_err t (x y : float t) : Rabs (rnd t (val x - val y) - (val x - val y)) <= unit_roundoff t * Rabs (val x - val y).
Proof. pose proof (sum_err t x (Bopp y)) as H. rewrite fopp_val in H. exact H. Qed.
(** the difference of two finite numbers: finite, or too large *)
Lemma fsub_cases t (x y : float t) : finite x -> finite y ->
  (finite (fsub x y) /\ val (fsub x y) = rnd t (val x - val y)) \/ (fabs (fsub x y) = inf /\ two (emax t) <= Rabs (rnd t (val x - val y))).
Proof. intros Fx Fy. pose proof (@Bminus_correct (prec t) (emax t) _ _ mode_NE x y Fx Fy) as C.
  destruct (Rlt_bool_spec (Rabs (round radix2 (SpecFloat.fexp (prec t) (emax t)) (round_mode mode_NE) (B2R x - B2R y))) (bpow radix2 (emax t))) as [L|L].
  - left. destruct C as (C1 & C2 & _). split; [exact C2|exact C1].
  - right. split; [|exact L]. destruct C as [C1 _]. unfold fabs, fsub, inf. destruct (Bminus mode_NE x y) as [b|b| |b m e H]; cbn in C1; try discriminate. reflexivity. Qed.
Lemma diff_64 t (x y : float t) : finite x -> finite y -> difference_fits t (val x) (val y) ->
  let D := convert t F64 (fabs_diff x y) in finite D /\ Rabs (val D - Rabs (val x - val y)) <= unit_roundoff t * Rabs (val x - val y).
Proof. intros Fx Fy NO D. unfold D, fabs_diff. pose proof (diff_err t x y) as E. destruct (fsub_cases t x y Fx Fy) as [[F V]|[_ L]].
  - destruct (fabs_val t (fsub x y)) as [V1 F1]. destruct (to64 t (fabs (fsub x y))) as [V2 F2]. { unfold finite in *. congruence. }
    split; [exact F2|]. rewrite V2, V1, V. eapply Rle_trans; [|exact E]. apply Rabs_triang_inv2.
  - exfalso. unfold difference_fits in NO. apply Rabs_le_inv in E. assert (Rabs (rnd t (val x - val y)) <= (1 + unit_roundoff t) * Rabs (val x - val y)); [|lra].
    pose proof (unit_pos t). pose proof (Rle_abs (val x - val y)). pose proof (Rle_abs (- (val x - val y))). rewrite Rabs_Ropp in H1. apply Rabs_le. lra. Qed.
Lemma abs_64 t (x : float t) : finite x -> let B := convert t F64 (fabs x) in finite B /\ val B = Rabs (val x).
Proof. intros F B. destruct (fabs_val t x) as [V1 F1]. destruct (to64 t (fabs x)) as [V2 F2]; [unfold finite in *; congruence|]. split; [exact F2|]. unfold B. now rewrite V2. Qed.
Lemma not_nan t (x : float t) : finite x -> is_nan x = false. Proof. destruct x; intro H; try discriminate; reflexivity. Qed.

(** ** the verdict *)
Lemma l_isclose : forall s t (a : float s) (b : float t) rtol atol equal_nan, finite a -> finite b -> tolerance rtol -> tolerance atol -> difference_fits (wider s t) (val a) (val b) ->
  close_up_to (unit_roundoff (wider s t)) rtol atol (val a) (val b) (fisclose rtol atol equal_nan a b).
Proof. intros s t a b rtol atol en Fa Fb Hr Ht NO. unfold fisclose. destruct (conv_l s t a Fa) as [Va Fa']. destruct (conv_r s t b Fb) as [Vb Fb']. rewrite <- promoted_wider in *. set (p := promoted s t) in *.
  rewrite <- Va, <- Vb in NO. destruct (diff_64 p _ _ Fa' Fb' NO) as [FD ED]. destruct (abs_64 p _ Fb') as [FB VB]. rewrite (not_nan _ _ Fa'), andb_false_r. cbn [andb]. rewrite orb_false_r. rewrite Va, Vb in *.
  unfold close_up_to, allowed. apply core; auto using Rabs_pos. { destruct (unit_small p). lra. }
  rewrite VB, Rminus_diag_eq, Rabs_R0 by reflexivity. pose proof (unit_pos p). pose proof (Rabs_pos (val b)). apply Rmult_le_pos; lra. Qed.
Lemma l_uisclose : forall (a b : Z) rtol atol, (0 <= a < 2 ^ 128)%Z -> (0 <= b < 2 ^ 128)%Z -> tolerance rtol -> tolerance atol ->
  close_up_to (unit_roundoff F64) rtol atol (IZR a) (IZR b) (uisclose rtol atol a b).
Proof. intros a b rtol atol Ra Rb Hr Ht. unfold uisclose. set (d := (if b <? a then a - b else b - a)%Z). assert (Hd : (0 <= d < 2 ^ 128)%Z) by (unfold d; destruct (b <? a)%Z eqn:E; lia).
  assert (G : forall z, (0 <= z < 2 ^ 128)%Z -> finite (of_int z : float F64) /\ Rabs (val (of_int z : float F64) - IZR z) <= unit_roundoff F64 * IZR z).
  { intros z Hz. assert (RE : Rabs (rnd F64 (IZR z) - IZR z) <= unit_roundoff F64 * Rabs (IZR z)).
    { destruct (Z.eq_dec z 0) as [-> |Nz]. { rewrite round_0, Rminus_0_r, Rabs_R0, Rmult_0_r by auto with typeclass_instances. lra. }
      pose proof (relative_error_N_FLT radix2 (3 - emax F64 - prec F64) (prec F64) ltac:(cbn; lia) (fun x => negb (Z.even x)) (IZR z)) as H.
      replace (/ 2 * bpow radix2 (- prec F64 + 1)) with (unit_roundoff F64) in H; [apply H|unfold unit_roundoff, two; rewrite bpow_plus; change (bpow radix2 1) with 2; field].
      rewrite Rabs_pos_eq by (apply IZR_le; lia). apply Rle_trans with (IZR 1); [|apply IZR_le; lia]. change 1 with (bpow radix2 0). apply bpow_le. cbn. lia. }
    assert (Z0 : 0 <= IZR z) by (apply IZR_le; lia). rewrite (Rabs_pos_eq _ Z0) in RE.
    destruct (of_int_val F64 z) as [V F]. { eapply Rle_lt_trans; [apply (rnd_bound F64 128)|]. { cbn; lia. } { rewrite Rabs_pos_eq by auto. change (two 128) with (IZR (2 ^ 128)). apply IZR_le. lia. } apply two_lt. cbn. lia. }
    split; [exact F|]. rewrite V. exact RE. }
  destruct (G d Hd) as [FD ED]. destruct (G b Rb) as [FB EB]. assert (Ed : IZR d = Rabs (IZR a - IZR b)). { rewrite <- minus_IZR, <- abs_IZR. f_equal. unfold d. destruct (b <? a)%Z eqn:E; lia. }
  assert (Eb : IZR b = Rabs (IZR b)) by (symmetry; apply Rabs_pos_eq; apply IZR_le; lia). unfold close_up_to, allowed. rewrite <- Ed. rewrite <- Eb.
  apply core; auto. { destruct (unit_small F64). lra. } { apply IZR_le; lia. } { apply IZR_le; lia. } Qed.

(** ** NaN *)
Lemma conv_nan s t (x : float s) : is_nan x = true -> convert s t x = B754_nan. Proof. destruct x; intro H; try discriminate; reflexivity. Qed.
Lemma nan_conv s t (x : float s) : is_nan (convert s t x) = is_nan x.
Proof. destruct x as [b|b| |b m e H]; cbn [convert is_nan]; auto. apply (is_nan_binary_normalize (prec t) (emax t)). Qed.
Lemma fsub_nan_l t (y : float t) : fsub B754_nan y = B754_nan. Proof. destruct y; reflexivity. Qed.
Lemma fsub_nan_r t (x : float t) : fsub x B754_nan = B754_nan. Proof. destruct x; reflexivity. Qed.
Lemma l_isclose_nan : forall s t (a : float s) (b : float t) rtol atol equal_nan, is_nan a = true \/ is_nan b = true ->
  fisclose rtol atol equal_nan a b = equal_nan && is_nan a && is_nan b.
Proof. intros s t a b rtol atol en H. unfold fisclose. rewrite !nan_conv. replace (fwithin _ _ _ _) with false; [reflexivity|]. symmetry. unfold fwithin, fabs_diff.
  replace (fsub (convert s (promoted s t) a) (convert t (promoted s t) b)) with (B754_nan : float (promoted s t)); [reflexivity|].
  destruct H as [H|H]; rewrite (conv_nan _ _ _ H); [now rewrite fsub_nan_l|now rewrite fsub_nan_r]. Qed.

(** ** equal numbers *)
Lemma bound_nonneg (rtol atol B : float F64) : tolerance rtol -> tolerance atol -> finite B -> 0 <= val B -> forall D : float F64, finite D -> val D = 0 -> fwithin rtol atol D B = true.
Proof. intros Hr Ha FB PB D FD VD. unfold fwithin. destruct (bound_pos rtol atol B Hr Ha FB PB) as [(FV & EV & _)|(-> & _)]; [|now apply fle_inf]. apply fle_true; auto. rewrite VD, EV. destruct Hr as [_ Pr], Ha as [_ Pa].
  rewrite <- (round_0 radix2 (fexpt F64) ZnearestE) at 1. apply rnd_le. assert (0 <= rnd F64 (val rtol * val B)); [|lra]. rewrite <- (round_0 radix2 (fexpt F64) ZnearestE) at 1. apply rnd_le. now apply Rmult_le_pos. Qed.
Lemma equal_diff t (x y : float t) : finite x -> finite y -> val x = val y -> finite (convert t F64 (fabs_diff x y)) /\ val (convert t F64 (fabs_diff x y)) = 0.
Proof. intros Fx Fy E. destruct (diff_64 t x y Fx Fy) as [FD ED]. { unfold difference_fits. rewrite E, Rminus_diag_eq, Rabs_R0, Rmult_0_r by reflexivity. apply bpow_gt_0. }
  split; [exact FD|]. rewrite E, (Rminus_diag_eq (val y)), Rabs_R0, Rmult_0_r, Rminus_0_r in ED by reflexivity. apply Rabs_le_inv in ED. lra. Qed.
Lemma l_isclose_self : forall s t (a : float s) (b : float t) rtol atol equal_nan, finite a -> finite b -> val a = val b -> tolerance rtol -> tolerance atol -> fisclose rtol atol equal_nan a b = true.
Proof. intros s t a b rtol atol en Fa Fb E Hr Ha. unfold fisclose. destruct (conv_l s t a Fa) as [Va Fa']. destruct (conv_r s t b Fb) as [Vb Fb']. destruct (equal_diff _ _ _ Fa' Fb') as [FD VD]; [congruence|].
  destruct (abs_64 _ _ Fb') as [FB VB]. rewrite bound_nonneg; auto. rewrite VB. apply Rabs_pos. Qed.
Lemma l_isclose_exact : forall s t (a : float s) (b : float t) rtol atol equal_nan, finite a -> finite b -> finite rtol -> finite atol -> val rtol = 0 -> val atol = 0 ->
  (fisclose rtol atol equal_nan a b = true <-> val a = val b).
Proof. intros s t a b rtol atol en Fa Fb Fr Ft Er Et. assert (Hr : tolerance rtol) by (split; auto; lra). assert (Ht : tolerance atol) by (split; auto; lra).
  split; [|intro; now apply l_isclose_self]. unfold fisclose. destruct (conv_l s t a Fa) as [Va Fa']. destruct (conv_r s t b Fb) as [Vb Fb']. set (p := promoted s t) in *. rewrite (not_nan _ _ Fa'), andb_false_r. cbn [andb]. rewrite orb_false_r. rewrite <- Va, <- Vb.
  set (x := convert s p a) in *. set (y := convert t p b) in *. intro H. destruct (abs_64 p y Fb') as [FB VB]. assert (PB : 0 <= val (convert p F64 (fabs y))) by (rewrite VB; apply Rabs_pos).
  unfold fwithin in H. destruct (bound_pos rtol atol _ Hr Ht FB PB) as [(FV & EV & _)|(_ & L)].
  - rewrite Er, Et, Rmult_0_l, round_0, Rplus_0_l, round_0 in EV by auto with typeclass_instances. unfold fabs_diff in H. destruct (fsub_cases p x y Fa' Fb') as [[F V]|[E _]].
    + destruct (fabs_val p (fsub x y)) as [V1 F1]. destruct (to64 p (fabs (fsub x y))) as [V2 F2]; [unfold finite in *; congruence|]. rewrite fle_val in H by auto. rewrite EV, V2, V1, V in H. destruct (Rle_bool_spec (Rabs (rnd p (val x - val y))) 0) as [L|L]; [|discriminate].
      assert (R0 : rnd p (val x - val y) = 0). { pose proof (Rabs_pos (rnd p (val x - val y))). destruct (Req_dec (rnd p (val x - val y)) 0); auto. apply Rabs_no_R0 in H1. lra. }
      apply Rminus_diag_uniq. unfold Rminus in *. apply (round_plus_eq_0 radix2 (fexpt p) ZnearestE); auto using val_format with typeclass_instances. apply generic_format_opp, val_format.
    + rewrite E in H. exfalso. destruct (fadd atol (fmul rtol (convert p F64 (fabs y)))) as [b'|b'| |b' m e G]; try discriminate FV; cbn in H; try destruct b'; discriminate.
  - exfalso. pose proof (bpow_gt_0 radix2 1024) as P0. unfold two in L. rewrite Er, Et, Rmult_0_l, round_0, Rplus_0_l, round_0 in L by auto with typeclass_instances. lra. Qed.

(** ** larger tolerances *)
Lemma within_mono (rtol atol rtol' atol' D B : float F64) : tolerance rtol -> tolerance atol -> tolerance rtol' -> tolerance atol' -> val rtol <= val rtol' -> val atol <= val atol' ->
  B = B754_nan \/ B = inf \/ (finite B /\ 0 <= val B) -> fwithin rtol atol D B = true -> fwithin rtol' atol' D B = true.
Proof. intros Hr Ha Hr' Ha' Lr La HB. unfold fwithin. destruct HB as [-> |[-> |[FB PB]]].
  - replace (fmul rtol B754_nan) with (B754_nan : float F64) by (destruct rtol; reflexivity). replace (fadd atol B754_nan) with (B754_nan : float F64) by (destruct atol; reflexivity). destruct D as [[]|[]| |[]]; discriminate.
  - assert (Z : forall r t, tolerance r -> tolerance t -> fadd t (fmul r inf) = if Req_bool (val r) 0 then B754_nan else inf).
    { intros r t [F P] [F' P']. destruct (Req_bool_spec (val r) 0) as [E|E].
      - destruct r as [b|b| |b m e G]; try discriminate F; [destruct t; try discriminate F'; destruct b; reflexivity|]. exfalso. unfold val in E. cbn in E. apply (eq_0_F2R radix2) in E. destruct b; discriminate.
      - assert (Bsign r = false) by (apply sign_pos; auto; lra). destruct r as [b|b| |b m e G]; try discriminate F; [unfold val in E; cbn in E; lra|]. cbn in H. subst b. destruct t as [b|b| |b m' e' G']; try discriminate F'; destruct b; reflexivity. }
    rewrite (Z rtol atol), (Z rtol' atol') by auto. destruct (Req_bool_spec (val rtol) 0) as [E|E]. { destruct D as [[]|[]| |[]]; discriminate. }
    destruct Hr as [_ Pr]. rewrite Req_bool_false by lra. auto.
  - assert (M1 : val rtol * val B <= val rtol' * val B) by now apply Rmult_le_compat_r. assert (M2 : rnd F64 (val rtol * val B) <= rnd F64 (val rtol' * val B)) by now apply rnd_le.
    assert (M3 : rnd F64 (val atol + rnd F64 (val rtol * val B)) <= rnd F64 (val atol' + rnd F64 (val rtol' * val B))) by (apply rnd_le; lra).
    intro H. destruct (bound_pos rtol' atol' B Hr' Ha' FB PB) as [(FV' & EV' & EM')|(EI' & _)]; [|rewrite EI'; destruct D as [b|b| |b m e G]; try (destruct b; reflexivity); now destruct (fadd atol (fmul rtol B)) as [[]|[]| |[]]].
    destruct (bound_pos rtol atol B Hr Ha FB PB) as [(FV & EV & _)|(EI & L)].
    + assert (L : val (fadd atol (fmul rtol B)) <= val (fadd atol' (fmul rtol' B))) by (rewrite EV, EV'; exact M3). clear EV EV'. set (v := fadd atol (fmul rtol B)) in *. set (v' := fadd atol' (fmul rtol' B)) in *. clearbody v v'.
      destruct (is_finite D) eqn:FD. { apply fle_true; auto. rewrite fle_val in H by auto. destruct (Rle_bool_spec (val D) (val v)); [lra|discriminate]. }
      destruct D as [b|[]| |b m e G]; try discriminate FD; [|destruct v as [[]|[]| |[]]; discriminate|destruct v as [[]|[]| |[]]; discriminate]. destruct v' as [[]|[]| |[]]; try discriminate FV'; reflexivity.
    + exfalso. pose proof (val_lt F64 (fadd atol' (fmul rtol' B))) as X. rewrite EV' in X. apply Rabs_lt_inv in X. change (two (emax F64)) with (two 1024) in X. destruct L as [L|[L _]]; [|lra].
      pose proof (val_lt F64 (fmul rtol' B)) as Y. rewrite EM' in Y. apply Rabs_lt_inv in Y. change (two (emax F64)) with (two 1024) in Y. lra. Qed.
Lemma abs_kind t (x : float t) : convert t F64 (fabs x) = B754_nan \/ convert t F64 (fabs x) = inf \/ (finite (convert t F64 (fabs x)) /\ 0 <= val (convert t F64 (fabs x))).
Proof. destruct (is_finite x) eqn:F. { right. right. destruct (abs_64 t x F) as [F' ->]. split; [exact F'|apply Rabs_pos]. } destruct x as [b|b| |b m e G]; try discriminate F; auto. Qed.
Lemma l_isclose_mono : forall s t (a : float s) (b : float t) rtol atol rtol' atol' equal_nan, tolerance rtol -> tolerance atol -> tolerance rtol' -> tolerance atol' -> val rtol <= val rtol' -> val atol <= val atol' ->
  fisclose rtol atol equal_nan a b = true -> fisclose rtol' atol' equal_nan a b = true.
Proof. intros s t a b rtol atol rtol' atol' en Hr Ha Hr' Ha' Lr La. unfold fisclose. rewrite !orb_true_iff. intros [H|H]; [left|now right]. revert H. apply within_mono; auto. apply abs_kind. Qed.

(** ** operands exchanged *)
Lemma l_isclose_sym : forall s (a b : float s) rtol atol equal_nan, finite a -> finite b -> finite rtol -> val rtol = 0 -> tolerance atol ->
  fisclose rtol atol equal_nan a b = fisclose rtol atol equal_nan b a.
Proof. assert (W : forall rtol atol D D' B B' : float F64, finite rtol -> val rtol = 0 -> tolerance atol -> finite B -> 0 <= val B -> finite B' -> 0 <= val B' -> (D = inf /\ D' = inf) \/ (finite D /\ finite D' /\ val D = val D') -> fwithin rtol atol D B = fwithin rtol atol D' B').
  { intros rtol atol D D' B B' Fr Er Ht FB PB FB' PB' HD. assert (Hr : tolerance rtol) by (split; auto; lra). unfold fwithin.
    assert (Z : forall X, finite X -> 0 <= val X -> finite (fadd atol (fmul rtol X)) /\ val (fadd atol (fmul rtol X)) = val atol).
    { intros X FX PX. destruct (bound_pos rtol atol X Hr Ht FX PX) as [(FV & EV & _)|(_ & L)].
      - split; auto. rewrite Er, Rmult_0_l, round_0, Rplus_0_r, rnd_id in EV by (auto using val_format with typeclass_instances). exact EV.
      - exfalso. pose proof (bpow_gt_0 radix2 1024) as P0. unfold two in L. rewrite Er, Rmult_0_l, round_0, Rplus_0_r, rnd_id in L by (auto using val_format with typeclass_instances). destruct L as [L|[L _]]; [lra|]. pose proof (val_lt F64 atol) as X'. apply Rabs_lt_inv in X'. unfold two in X'. change (emax F64) with 1024%Z in X'. lra. }
    destruct (Z B FB PB) as [F1 V1], (Z B' FB' PB') as [F2 V2]. destruct HD as [[-> ->]|(FD & FD' & ED)].
    - destruct (fadd atol (fmul rtol B)) as [[]|[]| |[]]; try discriminate F1; destruct (fadd atol (fmul rtol B')) as [[]|[]| |[]]; try discriminate F2; reflexivity.
    - rewrite !fle_val, V1, V2, ED by auto. reflexivity. }
  intros s a b rtol atol en Fa Fb Fr Er Ht. unfold fisclose. destruct (conv_l s s a Fa) as [Va Fa']. destruct (conv_r s s b Fb) as [Vb Fb']. set (p := promoted s s) in *.
  set (x := convert s p a) in *. set (y := convert s p b) in *. rewrite (not_nan _ _ Fa'), (not_nan _ _ Fb'), !andb_false_r. cbn [andb]. rewrite !orb_false_r.
  destruct (abs_64 p x Fa') as [FA VA], (abs_64 p y Fb') as [FB VB]. apply W; auto; [rewrite VB; apply Rabs_pos|rewrite VA; apply Rabs_pos|]. unfold fabs_diff.
  assert (RN : Rabs (rnd p (val y - val x)) = Rabs (rnd p (val x - val y))). { replace (val y - val x) with (- (val x - val y)) by ring. now rewrite rnd_opp, Rabs_Ropp. }
  destruct (fsub_cases p x y Fa' Fb') as [[F V]|[E L]], (fsub_cases p y x Fb' Fa') as [[F' V']|[E' L']].
  - right. destruct (fabs_val p (fsub x y)) as [V1 F1]. destruct (to64 p (fabs (fsub x y))) as [V2 F2]; [unfold finite in *; congruence|]. destruct (fabs_val p (fsub y x)) as [V3 F3]. destruct (to64 p (fabs (fsub y x))) as [V4 F4]; [unfold finite in *; congruence|].
    split; [exact F2|]. split; [exact F4|]. rewrite V2, V1, V4, V3, V, V'. now rewrite RN.
  - exfalso. rewrite RN, <- V in L'. pose proof (val_lt p (fsub x y)). lra.
  - exfalso. rewrite <- RN, <- V' in L. pose proof (val_lt p (fsub y x)). lra.
  - left. rewrite E, E'. split; reflexivity. Qed.

(** ** tensors *)
Lemma l_fallclose : forall s t o (a : tensor (float s)) (b : tensor (float t)) rtol atol equal_nan sh, tensor_ok a -> tensor_ok b -> tolerance rtol -> tolerance atol ->
  broadcasts o (t_shape a) (t_shape b) sh -> size sh <> 0%nat ->
  exists r, fallclose o rtol atol equal_nan a b = Ok r /\
    ((forall jx, valid sh jx -> exists x y, at_ a (source_index o (t_shape a) jx) = Some x /\ at_ b (source_index o (t_shape b) jx) = Some y /\ finite x /\ finite y /\ difference_fits (wider s t) (val x) (val y) /\
        Rabs (val x - val y) <= (1 - 5 * unit_roundoff (wider s t)) * allowed rtol atol (val y) - 4 * smallest F64) -> r = true) /\
    (forall jx x y, valid sh jx -> at_ a (source_index o (t_shape a) jx) = Some x -> at_ b (source_index o (t_shape b) jx) = Some y -> finite x -> finite y -> difference_fits (wider s t) (val x) (val y) ->
        (1 + 5 * unit_roundoff (wider s t)) * allowed rtol atol (val y) + 4 * smallest F64 < Rabs (val x - val y) -> r = false) /\
    (forall jx x y, valid sh jx -> at_ a (source_index o (t_shape a) jx) = Some x -> at_ b (source_index o (t_shape b) jx) = Some y -> is_nan x <> is_nan y -> r = false).
Proof. intros s t o a b rtol atol en sh Ta Tb Hr Ht Bs N. unfold fallclose. pose proof (l_allclose _ _ o (fisclose rtol atol en) a b Ta Tb) as H.
  destruct (allclose o (fisclose rtol atol en) a b) as [r|e|]; [|exfalso; apply N; now apply H|contradiction]. destruct H as (sh' & Bs' & _ & H). rewrite <- (broadcasts_fun _ _ _ _ _ Bs Bs') in H. exists r. split; [reflexivity|].
  assert (NF : forall jx x y, valid sh jx -> at_ a (source_index o (t_shape a) jx) = Some x -> at_ b (source_index o (t_shape b) jx) = Some y -> fisclose rtol atol en x y = false -> r = false).
  { intros jx x y V Hx Hy E. destruct r; auto. destruct H as [H _]. destruct (H eq_refl jx V) as (x' & y' & Hx' & Hy' & E'). congruence. }
  split; [|split].
  - intro G. apply H. intros jx V. destruct (G jx V) as (x & y & Hx & Hy & Fx & Fy & NO & L). exists x, y. split; [exact Hx|]. split; [exact Hy|]. apply (l_isclose s t x y rtol atol en); auto.
  - intros jx x y V Hx Hy Fx Fy NO L. apply (NF jx x y); auto. apply (l_isclose s t x y rtol atol en); auto.
  - intros jx x y V Hx Hy D. apply (NF jx x y); auto. rewrite l_isclose_nan; destruct (is_nan x), (is_nan y); auto; try (now contradiction D); now rewrite !andb_false_r. Qed.
Lemma source_self o sh jx : valid sh jx -> source_index o sh jx = jx.
Proof. intro V. unfold source_index. pose proof (valid_length _ _ V) as L. replace (match o with RowMajor => skipn (length jx - length sh) jx | ColMajor => firstn (length sh) jx end) with jx.
  - clear L. unfold clip. induction V as [|i n jx sh H V IH]; [reflexivity|]. cbn [combine map fst snd]. rewrite IH. f_equal. destruct (Nat.eqb_spec n 1); [lia|reflexivity].
  - rewrite L, Nat.sub_diag, <- L, firstn_all. now destruct o. Qed.
Lemma broadcasts_self o s : broadcasts o s s s.
Proof. split; [now rewrite Nat.max_id|]. intros k. left. auto. Qed.
Lemma l_fallclose_self : forall t o (a : tensor (float t)) rtol atol equal_nan, tensor_ok a -> size (t_shape a) <> 0%nat -> tolerance rtol -> tolerance atol ->
  (forall ix x, valid (t_shape a) ix -> at_ a ix = Some x -> finite x \/ (equal_nan = true /\ is_nan x = true)) -> fallclose o rtol atol equal_nan a a = Ok true.
Proof. intros t o a rtol atol en Ta N Hr Ht F. unfold fallclose. pose proof (l_allclose _ _ o (fisclose rtol atol en) a a Ta Ta) as H. pose proof (broadcasts_self o (t_shape a)) as Bs.
  destruct (allclose o (fisclose rtol atol en) a a) as [r|e|]; [|exfalso; apply N; now apply H|contradiction]. destruct H as (sh' & Bs' & _ & H). rewrite <- (broadcasts_fun _ _ _ _ _ Bs Bs') in H. f_equal. apply H.
  intros jx V. rewrite source_self by auto. apply tensor_ok_good in Ta as [_ I]. destruct (proj1 (peek_inside (t_data a) (addr (t_layout a) jx)) (I jx V)) as (x & Hx). exists x, x. split; [exact Hx|]. split; [exact Hx|].
  destruct (F jx x V Hx) as [Fx|[-> Nx]]; [now apply l_isclose_self|]. rewrite l_isclose_nan by auto. now rewrite Nx. Qed.
Lemma l_fallclose_rayon : forall s t chunk tr ti o (a : tensor (float s)) (b : tensor (float t)) rtol atol equal_nan, chunk <> 0%nat -> tensor_ok a -> tensor_ok b ->
  fallclose_rayon chunk tr ti o rtol atol equal_nan a b = fallclose o rtol atol equal_nan a b.
Proof. intros. now apply l_allclose_rayon. Qed.

(** ** refutations *)
Lemma l_isclose_overflow : 
  (exists (a b : float F32) atol, finite a /\ finite b /\ tolerance atol /\ Rabs (val a - val b) <= / 2 * allowed fzero atol (val b) /\ fisclose fzero atol false a b = false) /\
  (exists (a b rtol : float F64), finite a /\ finite b /\ tolerance rtol /\ 4 / 3 * allowed rtol fzero (val b) <= Rabs (val a - val b) /\ 0 < Rabs (val a - val b) /\ fisclose rtol fzero false a b = true).
Proof. split.
  - set (a := @Bmax_float _ _ (prec_ok F32) (emax_ok F32) : float F32). exists a, (Bopp a), (of_int (2 ^ 200)). split; [reflexivity|]. split; [reflexivity|].
    assert (R : rnd F64 (IZR (2 ^ 200)) = two 200). { change (IZR (2 ^ 200)) with (bpow radix2 200). apply rnd_id, generic_format_bpow. cbn. lia. }
    destruct (of_int_val F64 (2 ^ 200)) as [V F]. { rewrite R, Rabs_pos_eq by apply bpow_ge_0. apply two_lt. cbn. lia. }
    rewrite R in V. split. { split; [exact F|]. rewrite V. apply bpow_ge_0. }
    split; [|vm_compute; reflexivity]. rewrite fopp_val. unfold allowed. rewrite V. change (val (fzero : float F64)) with 0. rewrite Rmult_0_l, Rplus_0_r.
    pose proof (val_lt F32 a) as L. change (emax F32) with 128%Z in L. apply Rabs_lt_inv in L. assert (X : two 128 <= / 4 * two 200). { change (/ 4) with (bpow radix2 (-2)). unfold two. rewrite <- bpow_plus. apply bpow_le. lia. } apply Rabs_le. lra.
  - set (a := @Bmax_float _ _ (prec_ok F64) (emax_ok F64) : float F64). exists a, (Bopp a), (fdiv (of_int 3) (of_int 2)). split; [reflexivity|]. split; [reflexivity|].
    assert (R : rnd F64 (3 / 2) = 3 / 2). { apply rnd_id. apply generic_format_FLT. exists (Float radix2 3 (-1)); cbn; [unfold F2R; cbn; lra|lia|lia]. }
    destruct (int_val F64 3) as [V3 F3]; [cbn; lia|]. destruct (int_val F64 2) as [V2 F2]; [cbn; lia|]. destruct (fdiv_val F64 (of_int 3) (of_int 2) F3) as [V F]. { rewrite V2. lra. }
    { rewrite V3, V2, R. rewrite Rabs_pos_eq by lra. apply Rlt_trans with (two 1); [change (two 1) with 2; lra|apply two_lt; cbn; lia]. }
    rewrite V3, V2, R in V. split. { split; [exact F|]. rewrite V. lra. }
    assert (P : 0 < val a). { apply (F2R_gt_0 radix2). reflexivity. }
    split; [|split; [|vm_compute; reflexivity]]; rewrite fopp_val; [unfold allowed; rewrite V, Rabs_Ropp; change (val (fzero : float F64)) with 0; rewrite (Rabs_pos_eq (val a)) by lra|]; rewrite Rabs_pos_eq by lra; lra. Qed.
