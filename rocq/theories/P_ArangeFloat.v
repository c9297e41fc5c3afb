(** Rounding errors of arange for floating-point numbers, on real numbers. *)
From Coq Require Import ZArith Reals Lia Lra.
From Flocq Require Import Core Relative.
Local Open Scope R_scope.

Notation fexp64 := (FLT_exp (3 - 1024 - 53) 53).
Notation RN64 := (round radix2 fexp64 ZnearestE).
#[export] Instance prec53 : Prec_gt_0 53. Proof. reflexivity. Qed.
Definition u64 := bpow radix2 (- 53).

(** multiples of the smallest positive number: no underflow *)
Definition grid (x : R) : Prop := exists m : Z, x = IZR m * bpow radix2 (3 - 1024 - 53).
Lemma grid_format x : generic_format radix2 fexp64 x -> grid x.
Proof. intro F. apply generic_format_FIX_FLT in F. apply FIX_format_generic in F. destruct F as [f E1 E2]. exists (Fnum f). rewrite E1. unfold F2R. now rewrite E2. Qed.
Lemma grid_plus x y : grid x -> grid y -> grid (x + y).
Proof. intros (m & ->) (n & ->). exists (m + n)%Z. rewrite plus_IZR. ring. Qed.
Lemma grid_opp x : grid x -> grid (- x).
Proof. intros (m & ->). exists (- m)%Z. rewrite opp_IZR. ring. Qed.
Lemma grid_mult k x : grid x -> grid (IZR k * x).
Proof. intros (m & ->). exists (k * m)%Z. rewrite mult_IZR. ring. Qed.
Lemma err64 x : grid x -> Rabs (RN64 x - x) <= u64 * Rabs x.
Proof. intros (m & ->). pose proof (relative_error_N_FLT_F2R_emin radix2 (3 - 1024 - 53) 53 eq_refl (fun x => negb (Z.even x)) m) as H. unfold F2R in H. cbn [Fnum Fexp] in H.
  replace (/ 2 * bpow radix2 (- (53) + 1)) with u64 in H; [exact H|]. unfold u64. rewrite bpow_plus. change (- (53))%Z with (-53)%Z. change (bpow radix2 1) with 2. field. Qed.
Lemma RN64_format x : generic_format radix2 fexp64 (RN64 x).
Proof. apply generic_format_round; auto with typeclass_instances. Qed.
Lemma RN64_le x y : x <= y -> RN64 x <= RN64 y.
Proof. apply round_le; auto with typeclass_instances. Qed.
Lemma RN64_id x : generic_format radix2 fexp64 x -> RN64 x = x.
Proof. apply round_generic; auto with typeclass_instances. Qed.
Lemma int_format z : (Z.abs z <= 2 ^ 53)%Z -> generic_format radix2 fexp64 (IZR z).
Proof. intro H. destruct (Z.eq_dec (Z.abs z) (2 ^ 53)) as [E|E].
  - assert (G : generic_format radix2 fexp64 (bpow radix2 53)) by (apply generic_format_bpow; cbn; lia). change (bpow radix2 53) with (IZR (2 ^ 53)) in G. destruct (Z.abs_spec z) as [[_ S]|[_ S]]; rewrite S in E.
    + now rewrite E.
    + replace z with (- 2 ^ 53)%Z by lia. rewrite opp_IZR. now apply generic_format_opp.
  - apply generic_format_FLT. exists (Float radix2 z 0); cbn; [unfold F2R; cbn; ring| |lia]. change (radix2 ^ 53)%Z with (2 ^ 53)%Z. lia. Qed.

Section Core.
  Context (p e : Z) (Hp : (3 <= p <= 53)%Z) (He : (p < e)%Z) (He2 : (e <= 1024)%Z).
  Let emin := (3 - e - p)%Z.
  Let RT := round radix2 (FLT_exp emin p) ZnearestE.
  Local Instance precp : Prec_gt_0 p. Proof. unfold Prec_gt_0. lia. Qed.
  Let u := bpow radix2 (- p).
  Let eta := bpow radix2 emin.
  Lemma u_pos : 0 < u. Proof. apply bpow_gt_0. Qed.
  Lemma u_small : u <= / 8. Proof. change (/ 8) with (bpow radix2 (- (3))). apply bpow_le. lia. Qed.
  Lemma u64_u : 0 < u64 <= u. Proof. split; [apply bpow_gt_0|apply bpow_le; lia]. Qed.
  Lemma eta_pos : 0 < eta. Proof. apply bpow_gt_0. Qed.
  Lemma errT x : Rabs (RT x - x) <= u * Rabs x + eta.
  Proof. destruct (error_N_FLT radix2 emin p ltac:(lia) (fun x => negb (Z.even x)) x) as (ep & et & H1 & H2 & _ & E). unfold RT. rewrite E. replace (x * (1 + ep) + et - x) with (ep * x + et) by ring.
    eapply Rle_trans; [apply Rabs_triang|]. rewrite Rabs_mult. apply Rplus_le_compat.
    - apply Rmult_le_compat_r; [apply Rabs_pos|]. eapply Rle_trans; [exact H1|]. right. unfold u. rewrite bpow_plus. change (bpow radix2 1) with 2. field.
    - eapply Rle_trans; [exact H2|]. fold eta. pose proof eta_pos. lra. Qed.
  Lemma RT_le x y : x <= y -> RT x <= RT y. Proof. apply round_le; auto with typeclass_instances. Qed.
  Lemma RT_id x : generic_format radix2 (FLT_exp emin p) x -> RT x = x. Proof. apply round_generic; auto with typeclass_instances. Qed.

  Context (a b h M : R) (Fa : generic_format radix2 fexp64 a) (Fb : generic_format radix2 fexp64 b) (Fh : generic_format radix2 fexp64 h).
  Context (Fa' : generic_format radix2 (FLT_exp emin p) a).
  Context (Hh : 0 < h) (Hab : a < b) (Ma : Rabs a <= M) (Mb : Rabs b <= M).
  Let tol := 8 * u * M + 2 * eta.
  Context (Ht : 4 * tol <= h) (Hb : bpow radix2 (- 1000) * h <= b - a).
  Let d := RN64 (b - a).
  Let q := RN64 (d / h).
  Let n := Zceil q.
  Let y (i : Z) := RN64 (IZR i * h).
  Let z (i : Z) := RN64 (a + y i).
  Let x (i : Z) := RT (z i).
  Lemma M_pos : 0 < M. Proof. pose proof (Rabs_pos a). destruct (Rle_or_lt M 0); [|auto]. assert (Rabs a = 0) by lra. assert (Rabs b = 0) by (pose proof (Rabs_pos b); lra). pose proof (Rle_abs a). pose proof (Rle_abs b). pose proof (Rle_abs (- a)). rewrite Rabs_Ropp in *. lra. Qed.
  Lemma ab : - M <= a <= M /\ - M <= b <= M. Proof. split; apply Rabs_le_inv; auto. Qed.
  Lemma uM : 0 < u * M <= / 8 * M. Proof. pose proof M_pos. pose proof u_pos. pose proof u_small. split; [now apply Rmult_lt_0_compat|]. apply Rmult_le_compat_r; lra. Qed.
  Lemma d_err : Rabs (d - (b - a)) <= 2 * (u * M).
  Proof. unfold d. eapply Rle_trans; [apply err64; apply grid_plus; [now apply grid_format|apply grid_opp; now apply grid_format]|]. pose proof ab. pose proof u64_u. pose proof M_pos. rewrite (Rabs_pos_eq (b - a)) by lra.
    apply Rle_trans with (u * (b - a)); [apply Rmult_le_compat_r; lra|]. replace (2 * (u * M)) with (u * (2 * M)) by ring. apply Rmult_le_compat_l; [pose proof u_pos; lra|lra]. Qed.
  Lemma d_bound : 0 < d <= 2 * M + 2 * (u * M).
  Proof. pose proof d_err as E. apply Rabs_le_inv in E. pose proof ab. split; [|lra]. unfold d. apply Rlt_le_trans with (bpow radix2 (3 - 1024 - 53)); [apply bpow_gt_0|]. rewrite <- (RN64_id (bpow radix2 (3 - 1024 - 53))) by (apply generic_format_bpow; cbn; lia). apply RN64_le.
    destruct (grid_plus b (- a)) as (m & Em); [now apply grid_format|apply grid_opp; now apply grid_format|]. replace (b - a) with (b + - a) by ring. rewrite Em. rewrite <- (Rmult_1_l (bpow radix2 (3 - 1024 - 53))) at 1. apply Rmult_le_compat_r; [apply bpow_ge_0|]. apply IZR_le.
    assert (0 < IZR m * bpow radix2 (3 - 1024 - 53)) by lra. assert (0 < IZR m). { apply Rmult_lt_reg_r with (bpow radix2 (3 - 1024 - 53)); [apply bpow_gt_0|]. lra. } apply lt_IZR in H1. lia. Qed.
  Lemma q_range : 0 < q < IZR (2 ^ 52).
  Proof. pose proof d_bound as [D1 D2]. pose proof uM as [U1 U2]. pose proof M_pos as MP. split.
    - unfold q. assert (B : bpow radix2 (- 1001) <= d / h). { apply Rmult_le_reg_r with h; auto. unfold Rdiv. rewrite Rmult_assoc, Rinv_l, Rmult_1_r by lra. replace (bpow radix2 (- 1001)) with (bpow radix2 (- 1000) * / 2). 2:{ change (- 1001)%Z with (- 1000 + - (1))%Z. rewrite bpow_plus. reflexivity. }
        pose proof d_err as E. apply Rabs_le_inv in E. pose proof (err64 (b - a)) as E2. fold d in E2. assert (G : grid (b - a)) by (apply grid_plus; [now apply grid_format|apply grid_opp; now apply grid_format]). apply E2 in G. rewrite (Rabs_pos_eq (b - a)) in G by lra. apply Rabs_le_inv in G.
        assert (u64 <= / 8) by (pose proof u64_u; pose proof u_small; lra). assert (u64 * (b - a) <= / 8 * (b - a)) by (apply Rmult_le_compat_r; lra). lra. }
      apply RN64_le in B. rewrite (RN64_id (bpow radix2 (- 1001))) in B by (apply generic_format_bpow; cbn; lia). pose proof (bpow_gt_0 radix2 (- 1001)). lra.
    - apply Rle_lt_trans with (IZR (2 ^ 51)); [|apply IZR_lt; lia]. unfold q. rewrite <- (RN64_id (IZR (2 ^ 51))) by (apply int_format; lia). apply RN64_le. apply Rmult_le_reg_r with h; auto. unfold Rdiv. rewrite Rmult_assoc, Rinv_l, Rmult_1_r by lra.
      apply Rle_trans with (IZR (2 ^ 51) * (32 * (u * M))).
      + apply Rle_trans with (3 * M); [lra|]. assert (bpow radix2 (- 53) <= u) by (apply bpow_le; lia). apply Rle_trans with (IZR (2 ^ 51) * (32 * (bpow radix2 (- 53) * M))).
        * replace (bpow radix2 (- 53)) with (/ IZR (2 ^ 53)) by reflexivity. replace (IZR (2 ^ 51) * (32 * (/ IZR (2 ^ 53) * M))) with (8 * M); [lra|]. change (2 ^ 53)%Z with (2 ^ 51 * 4)%Z. rewrite mult_IZR. field. apply not_0_IZR. lia.
        * apply Rmult_le_compat_l; [apply IZR_le; lia|]. apply Rmult_le_compat_l; [lra|]. apply Rmult_le_compat_r; lra.
      + apply Rmult_le_compat_l; [apply IZR_le; lia|]. unfold tol in Ht. pose proof eta_pos. lra. Qed.
  Lemma n_range : (1 <= n <= 2 ^ 52)%Z /\ q <= IZR n < q + 1.
  Proof. pose proof q_range as [Q1 Q2]. unfold n. split; [split|].
    - assert (0 < Zceil q)%Z; [|lia]. apply lt_IZR. eapply Rlt_le_trans; [exact Q1|apply Zceil_ub].
    - apply Zceil_glb. lra.
    - split; [apply Zceil_ub|]. pose proof (Zceil_lb q). lra. Qed.
  Lemma step_lt i : (0 <= i < n)%Z -> IZR i * h < d.
  Proof. intro I. pose proof n_range as [N1 N2]. assert (IZR i < q). { assert (IZR i <= IZR (n - 1)) by (apply IZR_le; lia). rewrite minus_IZR in H. lra. }
    destruct (Rlt_or_le (IZR i * h) d) as [|L]; auto. exfalso. assert (d / h <= IZR i). { apply Rmult_le_reg_r with h; auto. unfold Rdiv. rewrite Rmult_assoc, Rinv_l, Rmult_1_r; lra. }
    apply RN64_le in H0. rewrite (RN64_id (IZR i)) in H0 by (apply int_format; lia). fold q in H0. lra. Qed.
  Lemma core_elem i : (0 <= i < n)%Z -> 0 <= IZR i * h < d /\ 0 <= y i <= 3 * M /\ a <= z i /\ Rabs (z i) <= 2 * M /\ Rabs (x i) <= 3 * M + eta /\ a <= x i /\ Rabs (x i - (a + IZR i * h)) <= tol.
  Proof. intro I. pose proof (step_lt i I) as S. pose proof d_bound as [D1 D2]. pose proof d_err as DE. apply Rabs_le_inv in DE. pose proof uM as [U1 U2]. pose proof M_pos as MP. pose proof ab as [A B]. pose proof u64_u as [V1 V2]. pose proof u_pos as UP. pose proof u_small as US. pose proof eta_pos as EP.
    assert (P0 : 0 <= IZR i * h) by (apply Rmult_le_pos; [apply IZR_le; lia|lra]).
    assert (GY : grid (IZR i * h)) by (apply grid_mult; now apply grid_format). pose proof (err64 _ GY) as EY. fold (y i) in EY. rewrite (Rabs_pos_eq (IZR i * h)) in EY by auto.
    assert (EY' : u64 * (IZR i * h) <= / 8 * M * (5 / 2) /\ u64 * (IZR i * h) <= 9 / 4 * (u * M)).
    { assert (X : u64 * (IZR i * h) <= u * (9 / 4 * M)). { apply Rle_trans with (u * (IZR i * h)); [apply Rmult_le_compat_r; lra|]. apply Rmult_le_compat_l; lra. } split; lra. }
    destruct EY' as [EY1 EY2]. apply Rabs_le_inv in EY.
    assert (Y0 : 0 <= y i). { unfold y. rewrite <- (RN64_id 0) by apply generic_format_0. now apply RN64_le. }
    assert (GZ : grid (a + y i)) by (apply grid_plus; [now apply grid_format|apply grid_format, RN64_format]). pose proof (err64 _ GZ) as EZ. fold (z i) in EZ.
    assert (AY : Rabs (a + y i) <= 13 / 8 * M) by (apply Rabs_le; lra).
    assert (EZ1 : u64 * Rabs (a + y i) <= 13 / 8 * (u * M)). { apply Rle_trans with (u * (13 / 8 * M)); [|lra]. apply Rmult_le_compat; try lra. apply Rabs_pos. }
    assert (Z0 : a <= z i). { unfold z. rewrite <- (RN64_id a) at 1 by auto. apply RN64_le. lra. }
    assert (EZ' := EZ). apply Rabs_le_inv in EZ'. assert (AZ : Rabs (z i) <= 2 * M) by (apply Rabs_le; apply Rabs_le_inv in AY; lra).
    pose proof (errT (z i)) as EX. fold (x i) in EX. assert (EX1 : u * Rabs (z i) <= 2 * (u * M)). { replace (2 * (u * M)) with (u * (2 * M)) by ring. apply Rmult_le_compat_l; lra. }
    apply Rabs_le_inv in EX. apply Rabs_le_inv in AZ as AZ'.
    split; [lra|]. split; [lra|]. split; auto. split; auto. split; [apply Rabs_le; lra|]. split.
    - unfold x. rewrite <- (RT_id a) at 1 by auto. apply RT_le. auto.
    - unfold tol. apply Rabs_le. lra. Qed.
  Lemma core_below i : (0 <= i < n - 1)%Z -> x i < b.
  Proof. intro I. destruct (core_elem i ltac:(lia)) as (_ & _ & _ & _ & _ & _ & E). apply Rabs_le_inv in E. pose proof (step_lt (i + 1) ltac:(lia)) as S. rewrite plus_IZR in S. pose proof d_err as DE. apply Rabs_le_inv in DE. pose proof uM. pose proof eta_pos. unfold tol in *. lra. Qed.
  Lemma core_end : b <= a + IZR n * h + tol.
  Proof. pose proof n_range as [_ [N _]]. pose proof d_err as DE. apply Rabs_le_inv in DE. pose proof uM as [U1 U2]. pose proof d_bound as [D1 D2]. pose proof u64_u as [V1 V2]. pose proof eta_pos. pose proof M_pos.
    assert (Q : d / h * (1 - u64) <= q).
    { assert (B : bpow radix2 (3 - 1024 - 53 + 53 - 1) <= Rabs (d / h)). { rewrite Rabs_pos_eq by (apply Rlt_le, Rdiv_lt_0_compat; auto). apply Rle_trans with (bpow radix2 (- 1001)); [apply bpow_le; lia|].
        apply Rmult_le_reg_r with h; auto. unfold Rdiv. rewrite Rmult_assoc, Rinv_l, Rmult_1_r by lra. replace (bpow radix2 (- 1001)) with (bpow radix2 (- 1000) * / 2). 2:{ change (- 1001)%Z with (- 1000 + - (1))%Z. rewrite bpow_plus. reflexivity. }
        pose proof (err64 (b - a)) as E2. fold d in E2. assert (G : grid (b - a)) by (apply grid_plus; [now apply grid_format|apply grid_opp; now apply grid_format]). apply E2 in G. rewrite (Rabs_pos_eq (b - a)) in G by lra. apply Rabs_le_inv in G.
        assert (u64 <= / 8) by (pose proof u_small; lra). assert (u64 * (b - a) <= / 8 * (b - a)) by (apply Rmult_le_compat_r; lra). lra. }
      pose proof (relative_error_N_FLT radix2 (3 - 1024 - 53) 53 ltac:(lia) (fun x => negb (Z.even x)) (d / h) B) as E. fold q in E. replace (/ 2 * bpow radix2 (- (53) + 1)) with u64 in E by (unfold u64; rewrite bpow_plus; change (- (53))%Z with (-53)%Z; change (bpow radix2 1) with 2; field). rewrite (Rabs_pos_eq (d / h)) in E by (apply Rlt_le, Rdiv_lt_0_compat; auto). apply Rabs_le_inv in E. lra. }
    assert (Q2 : d * (1 - u64) <= IZR n * h). { apply Rmult_le_reg_r with (/ h); [now apply Rinv_0_lt_compat|]. replace (d * (1 - u64) * / h) with (d / h * (1 - u64)) by (unfold Rdiv; ring). rewrite Rmult_assoc, Rinv_r, Rmult_1_r by lra. lra. }
    assert (u64 * d <= u * (9 / 4 * M)) by (apply Rmult_le_compat; lra). unfold tol. lra. Qed.
End Core.
