(** arange in steps *)
From Coq Require Import ZArith Reals List Lia Lra Bool.
From Flocq Require Import Core Relative BinarySingleNaN.
From Verif Require Import Base P_ArangeFloat M_Float Spec_Float P_FloatOps.
Import ListNotations.
Local Open Scope R_scope.

Section Steps.
  Context (t : float_type) (start stop step : float t) (sg : R) (Hsg : sg = 1 \/ sg = -1).
  Context (F1 : finite start) (F2 : finite stop) (F3 : finite step).
  Let a := sg * val start. Let b := sg * val stop. Let h := sg * val step. Let M := larger (val start) (val stop). Let tol := arange_tol t (val start) (val stop).
  Context (Hh : 0 < h) (Hab : a < b) (HM : M <= two (emax t - 3)) (Ht : 4 * tol <= h) (Hb : two (-1000) * h <= b - a).
  Lemma sg_fmt f x : generic_format radix2 f x -> generic_format radix2 f (sg * x).
  Proof. clear - Hsg. intro G. destruct Hsg as [-> | ->]; [now rewrite Rmult_1_l|]. replace (-1 * x) with (- x) by ring. now apply generic_format_opp. Qed.
  Lemma sg_rnd s x : rnd s (sg * x) = sg * rnd s x.
  Proof. clear - Hsg. destruct Hsg as [-> | ->]; [now rewrite !Rmult_1_l|]. replace (-1 * x) with (- x) by ring. rewrite rnd_opp. ring. Qed.
  Lemma sg_abs x : Rabs (sg * x) = Rabs x. Proof. clear - Hsg. destruct Hsg as [-> | ->]; [now rewrite !Rmult_1_l|]. replace (-1 * x) with (- x) by ring. apply Rabs_Ropp. Qed.
  Lemma sg_sg x : sg * (sg * x) = x. Proof. clear - Hsg. destruct Hsg as [-> | ->]; ring. Qed.
  Lemma sg_move x y : sg * x = y -> x = sg * y. Proof. intros <-. now rewrite sg_sg. Qed.
  Let Ma : Rabs a <= M. Proof. unfold a, M, larger. rewrite sg_abs. apply Rmax_l. Qed.
  Let Mb : Rabs b <= M. Proof. unfold b, M, larger. rewrite sg_abs. apply Rmax_r. Qed.
  Let Fa : generic_format radix2 fexp64 a. Proof. apply sg_fmt, val_format64. Qed.
  Let Fb : generic_format radix2 fexp64 b. Proof. apply sg_fmt, val_format64. Qed.
  Let Fh : generic_format radix2 fexp64 h. Proof. apply sg_fmt, val_format64. Qed.
  Let Fa' : generic_format radix2 (fexpt t) a. Proof. apply sg_fmt, val_format. Qed.
  Let Hp := prec_range t. Let He := proj1 (emax_range t). Let He2 := proj2 (emax_range t).
  Let d := RN64 (b - a). Let q := RN64 (d / h). Let n := Zceil q.
  Let y (i : Z) := RN64 (IZR i * h). Let z (i : Z) := RN64 (a + y i). Let x (i : Z) := rnd t (z i).
  Lemma QR : 0 < q < IZR (2 ^ 52). Proof. exact (q_range (prec t) (emax t) Hp a b h M Fa Fb Hh Hab Ma Mb Ht Hb). Qed.
  Lemma NR : (1 <= n <= 2 ^ 52)%Z. Proof. exact (proj1 (n_range (prec t) (emax t) Hp a b h M Fa Fb Hh Hab Ma Mb Ht Hb)). Qed.
  Lemma DB : 0 < d <= 2 * M + 2 * (two (- prec t) * M). Proof. exact (d_bound (prec t) (emax t) Hp a b h M Fa Fb Hab Ma Mb). Qed.
  Lemma UM : 0 < two (- prec t) * M <= / 8 * M. Proof. exact (uM (prec t) (emax t) Hp a b M Hab Ma Mb). Qed.
  Lemma EL i : (0 <= i < n)%Z -> 0 <= IZR i * h < d /\ 0 <= y i <= 3 * M /\ a <= z i /\ Rabs (z i) <= 2 * M /\ Rabs (x i) <= 3 * M + smallest t /\ a <= x i /\ Rabs (x i - (a + IZR i * h)) <= tol.
  Proof. exact (core_elem (prec t) (emax t) Hp a b h M Fa Fb Fh Fa' Hh Hab Ma Mb Ht Hb i). Qed.
  Lemma BE i : (0 <= i < n - 1)%Z -> x i < b. Proof. exact (core_below (prec t) (emax t) Hp a b h M Fa Fb Fh Fa' Hh Hab Ma Mb Ht Hb i). Qed.
  Lemma EN : b <= a + IZR n * h + tol. Proof. exact (core_end (prec t) (emax t) Hp a b h M Fa Fb Hh Hab Ma Mb Ht Hb). Qed.
  Lemma M_moderate : 0 < M /\ 4 * M <= two (emax t - 1) /\ two (emax t - 1) < two (emax t) /\ two (emax t - 1) <= two 1023 /\ smallest t <= M.
  Proof. pose proof UM as [U _]. assert (MP : 0 < M). { destruct (Rle_or_lt M 0) as [L|]; auto. exfalso. assert (two (- prec t) * M <= two (- prec t) * 0) by (apply Rmult_le_compat_l; [apply bpow_ge_0|lra]). lra. }
    split; auto. split. { replace (two (emax t - 1)) with (4 * two (emax t - 3)); [lra|]. unfold two. replace (emax t - 1)%Z with (2 + (emax t - 3))%Z by ring. rewrite bpow_plus. reflexivity. }
    split; [apply two_lt; lia|]. split; [apply bpow_le; lia|].
    (* the larger of two different numbers is not below the smallest positive one *)
    assert (forall v : float t, val v <> 0 -> smallest t <= Rabs (val v)) as S.
    { intros v N. pose proof (val_format t v) as G. apply generic_format_FIX_FLT in G. apply FIX_format_generic in G. destruct G as [f E1 E2]. rewrite E1 in *. unfold F2R in *. rewrite E2 in *. rewrite Rabs_mult, (Rabs_pos_eq (bpow _ _)) by apply bpow_ge_0. rewrite <- (Rmult_1_l (smallest t)). apply Rmult_le_compat_r; [apply bpow_ge_0|]. rewrite <- abs_IZR. apply IZR_le. assert (Fnum f <> 0)%Z by (intro Z0; rewrite Z0 in N; apply N; ring). lia. }
    destruct (Req_dec (val start) 0) as [Z1|N1]; [destruct (Req_dec (val stop) 0) as [Z2|N2]|].
    - exfalso. unfold a, b in Hab. rewrite Z1, Z2 in Hab. lra.
    - eapply Rle_trans; [apply (S stop N2)|apply Rmax_r].
    - eapply Rle_trans; [apply (S start N1)|apply Rmax_l]. Qed.
  Let s64 := convert t F64 start. Let e64 := convert t F64 stop. Let h64 := convert t F64 step.
  Lemma count : to_usize (fceil (fdiv (fsub e64 s64) h64)) = Some n.
  Proof. destruct (to64 t start F1) as [V1 G1], (to64 t stop F2) as [V2 G2], (to64 t step F3) as [V3 G3]. fold s64 in V1, G1. fold e64 in V2, G2. fold h64 in V3, G3. pose proof M_moderate as (MP & M4 & MI & M10 & MS). pose proof UM as [U1 U2]. pose proof DB as [D1 D2]. pose proof QR as [Q1 Q2].
    assert (Ed : rnd F64 (val e64 - val s64) = sg * d). { rewrite V1, V2. apply sg_move. rewrite <- sg_rnd. unfold d. f_equal. unfold a, b. ring. }
    assert (Eh : val h64 = sg * h). { rewrite V3. apply sg_move. reflexivity. } assert (S0 : sg <> 0) by (destruct Hsg; lra).
    destruct (fsub_val F64 e64 s64 G2 G1) as [A1 A2]. { rewrite Ed, sg_abs, Rabs_pos_eq by lra. apply Rle_lt_trans with (two 1023); [lra|]. apply two_lt. cbn; lia. } rewrite Ed in A1.
    assert (Eq : val (fsub e64 s64) / val h64 = d / h). { rewrite A1, Eh. field. split; auto. lra. }
    destruct (fdiv_val F64 (fsub e64 s64) h64 A2) as [B1 B2]. { rewrite Eh. apply Rmult_integral_contrapositive. split; auto. lra. } { rewrite Eq. change (rnd F64 (d / h)) with q. rewrite Rabs_pos_eq by lra. apply Rlt_le_trans with (IZR (2 ^ 52)); auto. change (IZR (2 ^ 52)) with (two 52). apply bpow_le. cbn; lia. }
    rewrite Eq in B1. change (rnd F64 (d / h)) with q in B1. rewrite to_usize_val by auto. rewrite B1. fold n. pose proof NR as NR'. replace ((-1 <? n)%Z && (n <? 2 ^ 64)%Z) with true; auto. symmetry. apply andb_true_iff. split; apply Z.ltb_lt; lia. Qed.
  Let elem (i : nat) := convert F64 t (fadd s64 (fmul (of_int (Z.of_nat i)) h64)).
  Lemma elem_val i : (Z.of_nat i < n)%Z -> sg * val (elem i) = x (Z.of_nat i) /\ finite (elem i).
  Proof. intro I. destruct (to64 t start F1) as [V1 G1], (to64 t step F3) as [V3 G3]. fold s64 in V1, G1. fold h64 in V3, G3. pose proof M_moderate as (MP & M4 & MI & M10 & MS). pose proof NR as NR'. destruct (EL (Z.of_nat i) ltac:(lia)) as (P1 & P2 & P3 & P4 & P5 & P6 & P7).
    assert (T : two 1023 < two (emax F64)) by (apply two_lt; cbn; lia).
    destruct (int_val F64 (Z.of_nat i)) as [I1 I2]; [cbn [prec]; lia|].
    assert (Ey : rnd F64 (val (of_int (Z.of_nat i) : float F64) * val h64) = sg * y (Z.of_nat i)). { rewrite I1, V3. apply sg_move. rewrite <- sg_rnd. unfold y. f_equal. unfold h. ring. }
    destruct (fmul_val F64 (of_int (Z.of_nat i)) h64 I2 G3) as [Y1 Y2]. { rewrite Ey, sg_abs, Rabs_pos_eq; lra. } rewrite Ey in Y1.
    assert (Ez : rnd F64 (val s64 + val (fmul (of_int (Z.of_nat i)) h64)) = sg * z (Z.of_nat i)). { rewrite V1, Y1. apply sg_move. rewrite <- sg_rnd. unfold z. f_equal. rewrite Rmult_plus_distr_l, sg_sg. reflexivity. }
    destruct (fadd_val F64 s64 _ G1 Y2) as [Z1 Z2]. { rewrite Ez, sg_abs. lra. } rewrite Ez in Z1.
    assert (Ex : rnd t (val (fadd s64 (fmul (of_int (Z.of_nat i)) h64))) = sg * x (Z.of_nat i)). { rewrite Z1. apply sg_rnd. }
    destruct (convert_val F64 t _ Z2) as [X1 X2]. { rewrite Ex, sg_abs. lra. }
    split; auto. unfold elem. rewrite X1, Ex. apply sg_sg. Qed.
  Lemma tol_pos : 0 < tol. Proof. pose proof UM. assert (0 < smallest t) by apply bpow_gt_0. unfold tol, arange_tol, unit_roundoff. fold M. lra. Qed.
  Lemma x_zero : x 0 = a. Proof. unfold x, z, y. rewrite Rmult_0_l. rewrite (RN64_id 0) by apply generic_format_0. rewrite Rplus_0_r, (RN64_id a) by auto. now apply rnd_id. Qed.
  Lemma arange_steps : exists v, arange_f64 start stop step = Some v /\ Forall finite v /\ half_open_steps a b h tol (map (fun x => sg * val x) v).
  Proof. pose proof NR as NR'. pose proof tol_pos as TP. assert (K : exists k, Z.to_nat n = S k /\ n = (Z.of_nat k + 1)%Z). { exists (Z.to_nat n - 1)%nat. lia. } destruct K as (k & K1 & K2).
    (* what is left after the last value may have been removed *)
    assert (R : forall len, (len = S k /\ x (Z.of_nat k) < b) \/ (len = k /\ b <= x (Z.of_nat k)) -> Forall finite (map elem (seq 0 len)) /\ half_open_steps a b h tol (map (fun x => sg * val x) (map elem (seq 0 len)))).
    { intros len C. assert (L : forall i, (i < len)%nat -> (Z.of_nat i < n)%Z /\ x (Z.of_nat i) < b). { intros i I. destruct C as [[-> C]|[-> C]]; (split; [lia|]); [destruct (Nat.eq_dec i k) as [->|]; auto|]; apply BE; lia. }
      assert (NE : forall i v, nth_error (map (fun x => sg * val x) (map elem (seq 0 len))) i = Some v -> (i < len)%nat /\ v = x (Z.of_nat i)).
      { intros i v E. assert (I : (i < len)%nat). { assert (nth_error (map (fun x => sg * val x) (map elem (seq 0 len))) i <> None) as N by congruence. apply nth_error_Some in N. rewrite !map_length, seq_length in N. auto. }
        split; auto. rewrite map_map in E. rewrite nth_error_map in E. rewrite nth_error_nth' with (d := 0%nat) in E by (rewrite seq_length; auto). rewrite seq_nth in E by auto. cbn in E. inversion E. now apply elem_val, L. }
      split. { apply Forall_forall. intros f If. apply in_map_iff in If. destruct If as (i & <- & Ii). apply in_seq in Ii. apply elem_val, L. lia. }
      split; [|split; [|split]].
      - intros i v E. apply NE in E. destruct E as [I ->]. destruct (L i I) as [L1 L2]. destruct (EL (Z.of_nat i) ltac:(lia)) as (_ & _ & _ & _ & _ & P6 & P7). rewrite INR_IZR_INZ. auto.
      - intros i v w E1 E2. apply NE in E1, E2. destruct E1 as [I1 ->], E2 as [I2 ->]. destruct (L i I1) as [L1 _], (L (S i) I2) as [L2 _]. destruct (EL (Z.of_nat i) ltac:(lia)) as (_ & _ & _ & _ & _ & _ & P1). destruct (EL (Z.of_nat (S i)) ltac:(lia)) as (_ & _ & _ & _ & _ & _ & P2). apply Rabs_le_inv in P1, P2. rewrite Nat2Z.inj_succ, succ_IZR in P2. rewrite Nat2Z.inj_succ. lra.
      - assert (LP : (0 < len)%nat). { destruct C as [[-> C]|[-> C]]; [lia|]. destruct k; [|lia]. exfalso. cbn in C. rewrite x_zero in C. lra. }
        destruct (nth_error (map (fun x => sg * val x) (map elem (seq 0 len))) 0) eqn:E. 2:{ apply nth_error_None in E. rewrite !map_length, seq_length in E. lia. } apply NE in E. destruct E as [_ ->]. f_equal. apply x_zero.
      - rewrite !map_length, seq_length. pose proof EN as EN'. rewrite INR_IZR_INZ. destruct C as [[-> C]|[-> C]].
        + replace (Z.of_nat (S k)) with n by lia. auto.
        + destruct (EL (Z.of_nat k) ltac:(lia)) as (_ & _ & _ & _ & _ & _ & P). apply Rabs_le_inv in P. lra. }
    unfold arange_f64. fold s64 e64 h64. rewrite count. cbv zeta. rewrite K1. change (fun i : nat => convert F64 t (fadd s64 (fmul (of_int (Z.of_nat i)) h64))) with elem. rewrite seq_S, map_app. cbn [map Nat.add]. rewrite rev_app_distr. cbn [rev app]. rewrite removelast_last. replace (map elem (seq 0 k) ++ [elem k]) with (map elem (seq 0 (S k))) by (rewrite seq_S, map_app; reflexivity).
    destruct (to64 t step F3) as [V3 G3]. fold h64 in V3, G3. destruct (elem_val k ltac:(lia)) as [X1 X2].
    assert (FZ : finite (fzero : float F64)) by reflexivity. rewrite !flt_val, !fle_val, V3 by auto. change (val (fzero : float F64)) with 0.
    assert (B : Rlt_bool 0 (val step) && Rle_bool (val stop) (val (elem k)) || Rlt_bool (val step) 0 && Rle_bool (val (elem k)) (val stop) = Rle_bool b (x (Z.of_nat k))).
    { rewrite <- X1. unfold b. clear - Hsg Hh. unfold h in Hh. destruct Hsg as [-> | ->].
      - rewrite !Rmult_1_l in *. rewrite Rlt_bool_true by auto. rewrite (Rlt_bool_false (val step) 0) by lra. cbn. now rewrite orb_false_r.
      - rewrite (Rlt_bool_false 0 (val step)) by lra. rewrite (Rlt_bool_true (val step) 0) by lra. cbn. destruct (Rle_bool_spec (val (elem k)) (val stop)); symmetry; [apply Rle_bool_true|apply Rle_bool_false]; lra. }
    rewrite B. destruct (Rle_bool_spec b (x (Z.of_nat k))) as [L|L].
    - exists (map elem (seq 0 k)). split; auto.
    - exists (map elem (seq 0 (S k))). split; auto. Qed.
End Steps.
