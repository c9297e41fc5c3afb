(** Proofs about SpecFloat: rounding of representable numbers, comparison *)
From Coq Require Import QArith Qpower SpecFloat.
From Verif Require Import Base Spec_DType.
Local Open Scope Z_scope.

Lemma digits_log2 m : Zpos (digits2_pos m) = Z.log2 (Zpos m) + 1.
Proof. induction m as [m IH|m IH|]; cbn [digits2_pos]; [| |reflexivity]; rewrite Pos2Z.inj_succ, IH.
  - change (Zpos m~1) with (2 * Zpos m + 1). rewrite Z.log2_succ_double by lia. lia.
  - change (Zpos m~0) with (2 * Zpos m). rewrite Z.log2_double by lia. lia. Qed.
Lemma digits_mul_pow m k : 0 <= k -> Zdigits2 (Zpos m * 2 ^ k) = Zpos (digits2_pos m) + k.
Proof. intros K. assert (H : 0 < Zpos m * 2 ^ k) by (apply Z.mul_pos_pos; [lia|apply Z.pow_pos_nonneg; lia]). destruct (Zpos m * 2 ^ k) as [|q|q] eqn:E; try lia. cbn [Zdigits2]. rewrite !digits_log2, <- E. rewrite Z.log2_mul_pow2; lia. Qed.
Lemma digits_bounds m : 2 ^ (Zpos (digits2_pos m) - 1) <= Zpos m < 2 ^ Zpos (digits2_pos m).
Proof. rewrite digits_log2. pose proof (Z.log2_spec (Zpos m) ltac:(lia)) as H. replace (Z.log2 (Zpos m) + 1 - 1) with (Z.log2 (Zpos m)) by lia. unfold Z.succ in H. lia. Qed.

Lemma iter_pos_iter (A : Type) (f : A -> A) n x : SpecFloat.iter_pos f n x = Pos.iter f x n.
Proof. revert x. induction n as [n IH|n IH|]; intros x; cbn [SpecFloat.iter_pos Pos.iter]; [|now rewrite !IH|reflexivity]. rewrite !IH. rewrite <- !Pos.iter_swap. reflexivity. Qed.
Lemma shr1_even k : 0 < k -> shr_1 (Build_shr_record (2 * k) false false) = Build_shr_record k false false.
Proof. intros K. destruct k as [|p|p]; try lia. reflexivity. Qed.
Lemma shr_exact k n : 0 < k -> Pos.iter shr_1 (Build_shr_record (k * 2 ^ Zpos n) false false) n = Build_shr_record k false false.
Proof. intros K. induction n as [|n IH] using Pos.peano_ind.
  - change (2 ^ 1) with 2. rewrite Z.mul_comm. cbn [Pos.iter]. now apply shr1_even.
  - rewrite Pos.iter_succ_r, Pos2Z.inj_succ, Z.pow_succ_r by lia. replace (k * (2 * 2 ^ Zpos n)) with (2 * (k * 2 ^ Zpos n)) by ring. rewrite shr1_even by (apply Z.mul_pos_pos; [lia|apply Z.pow_pos_nonneg; lia]). exact IH. Qed.

Lemma round_aux_canonical p mx s m e : bounded p mx m e = true -> binary_round_aux p mx s (Zpos m) e loc_Exact = S754_finite s m e.
Proof. unfold bounded, canonical_mantissa. intros H. apply andb_true_iff in H as [H1 H2]. apply Zeq_bool_eq in H1. unfold binary_round_aux, shr_fexp. cbn [Zdigits2]. rewrite H1, Z.sub_diag. cbn [shr shr_record_of_loc shr_m loc_of_shr_record round_nearest_even Zdigits2]. rewrite H1, Z.sub_diag. cbn [shr shr_m]. now rewrite H2. Qed.
Lemma round_aux_shift p mx s m e n : bounded p mx m e = true -> binary_round_aux p mx s (Zpos m * 2 ^ Zpos n) (e - Zpos n) loc_Exact = S754_finite s m e.
Proof. intros B. pose proof B as H. unfold bounded, canonical_mantissa in H. apply andb_true_iff in H as [H1 H2]. apply Zeq_bool_eq in H1. unfold binary_round_aux. unfold shr_fexp at 1. rewrite digits_mul_pow by lia.
  replace (Zpos (digits2_pos m) + Zpos n + (e - Zpos n)) with (Zpos (digits2_pos m) + e) by lia. rewrite H1. replace (e - (e - Zpos n)) with (Zpos n) by lia. cbn [shr shr_record_of_loc]. rewrite iter_pos_iter, shr_exact by lia.
  cbn [shr_m loc_of_shr_record round_nearest_even]. replace (e - Zpos n + Zpos n) with e by lia. unfold shr_fexp. cbn [Zdigits2]. rewrite H1, Z.sub_diag. cbn [shr shr_record_of_loc shr_m]. now rewrite H2. Qed.

(** the same number with two exponents *)
Lemma dyadic_eq m e m' e' : (inject_Z m * (2 # 1) ^ e == inject_Z m' * (2 # 1) ^ e')%Q -> (e' <= e -> m * 2 ^ (e - e') = m') /\ (e <= e' -> m = m' * 2 ^ (e' - e)).
Proof.
  assert (P : forall a b c d, a <= c -> (inject_Z b * (2 # 1) ^ a == inject_Z d * (2 # 1) ^ c)%Q -> b = d * 2 ^ (c - a)).
  { intros a b c d L H. replace c with ((c - a) + a) in H by lia. rewrite (Qpower_plus (2 # 1) (c - a) a) in H by (intro X; discriminate X). rewrite Qmult_assoc in H. apply Qmult_inj_r in H; [|apply Qpower_not_0; intro X; discriminate X].
    assert (E : ((2 # 1) ^ (c - a) == inject_Z (2 ^ (c - a)))%Q). { rewrite Zpower_Qpower by lia. reflexivity. }
    rewrite E, <- inject_Z_mult in H. unfold Qeq, inject_Z in H. cbn [Qnum Qden] in H. lia. }
  intros H. split; intros L; [symmetry; apply (P e' m' e m L); symmetry; exact H|apply (P e m e' m' L H)]. Qed.
Lemma dyadic_int z m e : (inject_Z z == inject_Z m * (2 # 1) ^ e)%Q -> (inject_Z z * (2 # 1) ^ 0 == inject_Z m * (2 # 1) ^ e)%Q.
Proof. intros H. rewrite <- H. cbn. unfold Qeq, inject_Z. cbn. lia. Qed.

Definition sgn (s : bool) (m : positive) : Z := if s then Zneg m else Zpos m.
(** rounding a number that the format has *)
Lemma round_exact p mx s m e m' e' : bounded p mx m' e' = true -> (inject_Z (Zpos m) * (2 # 1) ^ e == inject_Z (Zpos m') * (2 # 1) ^ e')%Q -> binary_round p mx s m e = S754_finite s m' e'.
Proof. intros B H. destruct (dyadic_eq _ _ _ _ H) as [H1 H2]. pose proof B as C. unfold bounded, canonical_mantissa in C. apply andb_true_iff in C as [C _]. apply Zeq_bool_eq in C. unfold binary_round.
  assert (D : Zpos (digits2_pos m) + e = Zpos (digits2_pos m') + e').
  { destruct (Z.le_ge_cases e e') as [L|L].
    - change (Zpos (digits2_pos m)) with (Zdigits2 (Zpos m)). rewrite (H2 L), digits_mul_pow by lia. lia.
    - change (Zpos (digits2_pos m')) with (Zdigits2 (Zpos m')). rewrite <- (H1 L), digits_mul_pow by lia. lia. }
  rewrite D, C. unfold shl_align. destruct (e' - e) as [|n|n] eqn:E.
  - assert (e = e') by lia. subst e'. specialize (H1 ltac:(lia)). rewrite Z.sub_diag in H1. change (2 ^ 0) with 1 in H1. rewrite Z.mul_1_r in H1. rewrite H1. now apply round_aux_canonical.
  - specialize (H2 ltac:(lia)). rewrite H2. replace e with (e' - Zpos n) by lia. now apply round_aux_shift.
  - specialize (H1 ltac:(lia)). replace (e - e') with (Zpos n) in H1 by lia. assert (X : Zpos (shift_pos n m) = Zpos m'). { rewrite shift_pos_correct, <- H1. change (2 ^ Zpos n) with (Z.pow_pos 2 n). lia. }
    rewrite X. now apply round_aux_canonical. Qed.
Lemma inject_opp a : (inject_Z (- a) == - inject_Z a)%Q. Proof. reflexivity. Qed.
Lemma pow2_pos e : (0 < (2 # 1) ^ e)%Q. Proof. apply Qpower_0_lt. reflexivity. Qed.
Lemma sgn_value s m : (inject_Z (sgn s m) == if s then - inject_Z (Zpos m) else inject_Z (Zpos m))%Q. Proof. now destruct s. Qed.
Lemma sgn_pos_value m e : (0 < inject_Z (Zpos m) * (2 # 1) ^ e)%Q.
Proof. apply Qmult_lt_0_compat; [reflexivity|apply pow2_pos]. Qed.
Lemma same_sign s m e s' m' e' : (inject_Z (sgn s m) * (2 # 1) ^ e == inject_Z (sgn s' m') * (2 # 1) ^ e')%Q -> s = s' /\ (inject_Z (Zpos m) * (2 # 1) ^ e == inject_Z (Zpos m') * (2 # 1) ^ e')%Q.
Proof. intros H. pose proof (sgn_pos_value m e) as A. pose proof (sgn_pos_value m' e') as B. destruct s, s'; cbn [sgn] in H; try (split; [reflexivity|]).
  - change (Zneg m) with (- Zpos m) in H. change (Zneg m') with (- Zpos m') in H. rewrite !inject_opp in H. setoid_replace (inject_Z (Zpos m) * (2 # 1) ^ e)%Q with (- (- inject_Z (Zpos m) * (2 # 1) ^ e))%Q by ring. rewrite H. ring.
  - exfalso. change (Zneg m) with (- Zpos m) in H. rewrite inject_opp in H. rewrite <- H in B. setoid_replace (- inject_Z (Zpos m) * (2 # 1) ^ e)%Q with (- (inject_Z (Zpos m) * (2 # 1) ^ e))%Q in B by ring. apply Qopp_lt_compat in B. rewrite Qopp_involutive in B. exact (Qlt_irrefl _ (Qlt_trans _ _ _ A B)).
  - exfalso. change (Zneg m') with (- Zpos m') in H. rewrite inject_opp in H. rewrite H in A. setoid_replace (- inject_Z (Zpos m') * (2 # 1) ^ e')%Q with (- (inject_Z (Zpos m') * (2 # 1) ^ e'))%Q in A by ring. apply Qopp_lt_compat in A. rewrite Qopp_involutive in A. exact (Qlt_irrefl _ (Qlt_trans _ _ _ A B)).
  - exact H. Qed.
Lemma normalize_exact p mx z e s m' e' b : bounded p mx m' e' = true -> (inject_Z z * (2 # 1) ^ e == inject_Z (sgn s m') * (2 # 1) ^ e')%Q -> binary_normalize p mx z e b = S754_finite s m' e'.
Proof. intros B H. destruct z as [|m|m]; cbn [binary_normalize].
  - exfalso. pose proof (sgn_pos_value m' e') as A. rewrite sgn_value in H. change (inject_Z 0) with 0%Q in H. rewrite Qmult_0_l in H. destruct s; [|rewrite <- H in A; exact (Qlt_irrefl _ A)].
    setoid_replace (- inject_Z (Zpos m') * (2 # 1) ^ e')%Q with (- (inject_Z (Zpos m') * (2 # 1) ^ e'))%Q in H by ring. apply Qopp_comp in H. rewrite Qopp_involutive in H. rewrite <- H in A. exact (Qlt_irrefl _ A).
  - destruct (same_sign false m e s m' e' H) as [<- H']. now apply round_exact.
  - destruct (same_sign true m e s m' e' H) as [<- H']. now apply round_exact. Qed.

(** order *)
Lemma dyadic_lt_le m1 e1 m2 e2 : e1 <= e2 -> m1 < m2 * 2 ^ (e2 - e1) <-> (inject_Z m1 * (2 # 1) ^ e1 < inject_Z m2 * (2 # 1) ^ e2)%Q.
Proof. intros L. replace e2 with ((e2 - e1) + e1) at 2 by lia. rewrite (Qpower_plus (2 # 1) (e2 - e1) e1) by (intro X; discriminate X). rewrite Qmult_assoc.
  rewrite Qmult_lt_r by apply pow2_pos. assert (E : ((2 # 1) ^ (e2 - e1) == inject_Z (2 ^ (e2 - e1)))%Q). { rewrite Zpower_Qpower by lia. reflexivity. }
  rewrite E, <- inject_Z_mult, <- Zlt_Qlt. reflexivity. Qed.
Lemma canonical_lt p mx m1 e1 m2 e2 : 0 < p -> bounded p mx m1 e1 = true -> bounded p mx m2 e2 = true -> e1 < e2 -> (inject_Z (Zpos m1) * (2 # 1) ^ e1 < inject_Z (Zpos m2) * (2 # 1) ^ e2)%Q.
Proof. intros P B1 B2 L. apply dyadic_lt_le; [lia|]. unfold bounded, canonical_mantissa in *. apply andb_true_iff in B1 as [B1 _], B2 as [B2 _]. apply Zeq_bool_eq in B1, B2. unfold fexp in *.
  pose proof (digits_bounds m1) as D1. pose proof (digits_bounds m2) as D2.
  assert (F1 : Zpos (digits2_pos m1) <= p) by lia. assert (F2 : Zpos (digits2_pos m2) = p) by lia. rewrite F2 in D2.
  apply Z.lt_le_trans with (2 ^ p); [apply Z.lt_le_trans with (2 ^ Zpos (digits2_pos m1)); [lia|apply Z.pow_le_mono_r; lia]|].
  apply Z.le_trans with (2 ^ (p - 1) * 2 ^ (e2 - e1)); [rewrite <- Z.pow_add_r by lia; apply Z.pow_le_mono_r; lia|]. apply Z.mul_le_mono_nonneg_r; [apply Z.pow_nonneg; lia|lia]. Qed.

Definition ext_compare (x y : ext) : option comparison :=
  match x, y with
  | NaN, _ | _, NaN => None
  | Fin a, Fin b => Some (a ?= b)%Q
  | PInf, PInf | NInf, NInf => Some Eq
  | PInf, _ | _, NInf => Some Gt
  | NInf, _ | _, PInf => Some Lt
  end.
Lemma canonical_compare p mx m1 e1 m2 e2 : 0 < p -> bounded p mx m1 e1 = true -> bounded p mx m2 e2 = true ->
  (inject_Z (Zpos m1) * (2 # 1) ^ e1 ?= inject_Z (Zpos m2) * (2 # 1) ^ e2)%Q = match Z.compare e1 e2 with Lt => Lt | Gt => Gt | Eq => Pos.compare m1 m2 end.
Proof. intros P B1 B2. destruct (Z.compare_spec e1 e2) as [E|E|E].
  - subst e2. symmetry. destruct (Pos.compare_spec m1 m2) as [F|F|F].
    + subst. symmetry. now apply Qeq_alt.
    + symmetry. apply -> Qlt_alt. apply dyadic_lt_le; [lia|]. rewrite Z.sub_diag. lia.
    + symmetry. apply -> Qgt_alt. apply dyadic_lt_le; [lia|]. rewrite Z.sub_diag. lia.
  - apply -> Qlt_alt. now apply (canonical_lt p mx).
  - apply -> Qgt_alt. now apply (canonical_lt p mx). Qed.
Lemma Qcompare_opp x y : (- x ?= - y)%Q = CompOpp (x ?= y)%Q.
Proof. unfold Qcompare, Qopp. cbn [Qnum Qden]. rewrite !Z.mul_opp_l. rewrite Z.compare_opp, <- Z.compare_antisym. f_equal; lia. Qed.
Lemma neg_value m e : (inject_Z (Zneg m) * (2 # 1) ^ e == - (inject_Z (Zpos m) * (2 # 1) ^ e))%Q.
Proof. change (Zneg m) with (- Zpos m). rewrite inject_opp. ring. Qed.
Lemma neg_value_neg m e : (inject_Z (Zneg m) * (2 # 1) ^ e < 0)%Q.
Proof. rewrite neg_value. change 0%Q with (- 0)%Q. apply Qopp_lt_compat, sgn_pos_value. Qed.
Lemma sfcompare p mx x y : 0 < p -> valid_binary p mx x = true -> valid_binary p mx y = true -> SFcompare x y = ext_compare (float_value x) (float_value y).
Proof. intros P Vx Vy. destruct x as [s|s| |s m e], y as [s'|s'| |s' m' e']; try reflexivity; try (destruct s; try destruct s'; reflexivity); try (destruct s'; reflexivity); cbn [valid_binary] in *.
  - destruct s'; cbn [SFcompare float_value ext_compare]; f_equal; symmetry; [apply -> Qgt_alt; apply neg_value_neg|apply -> Qlt_alt; apply sgn_pos_value].
  - destruct s; cbn [SFcompare float_value ext_compare]; f_equal; symmetry; [apply -> Qlt_alt; apply neg_value_neg|apply -> Qgt_alt; apply sgn_pos_value].
  - destruct s, s'; cbn [SFcompare float_value ext_compare]; f_equal; symmetry.
    + rewrite !neg_value, Qcompare_opp, (canonical_compare p mx) by assumption. now destruct (e ?= e')%Z.
    + apply -> Qlt_alt. exact (Qlt_trans _ _ _ (neg_value_neg m e) (sgn_pos_value m' e')).
    + apply -> Qgt_alt. exact (Qlt_trans _ _ _ (neg_value_neg m' e') (sgn_pos_value m e)).
    + now apply (canonical_compare p mx). Qed.
