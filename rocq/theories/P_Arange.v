(** Facts about the doubles that arange computes with, and its loops (C48). *)
From Verif Require Import Base Spec Spec_Arange P_List M_Arange.
Local Open Scope Z_scope.

(** ** rounding to nearest even *)
Lemma round_even_cases n d : 0 < d -> 0 <= n -> exists q r, n = d * q + r /\ 0 <= r < d /\ 0 <= q /\ ((round_even n d = q /\ 2 * r <= d) \/ (round_even n d = q + 1 /\ d <= 2 * r)).
Proof. intros Hd Hn. exists (n / d), (n mod d). pose proof (Z.div_mod n d ltac:(lia)). pose proof (Z.mod_pos_bound n d Hd). pose proof (Z.div_pos n d Hn Hd). split; [lia|]. split; [lia|]. split; [lia|]. unfold round_even. cbv zeta.
  destruct (Z.ltb_spec (2 * (n mod d)) d); [left; lia|]. destruct (Z.ltb_spec d (2 * (n mod d))); [right; lia|]. destruct (Z.even (n / d)); [left|right]; lia. Qed.
Lemma round_even_ge n d k : 0 < d -> 0 <= n -> k * d <= n -> k <= round_even n d.
Proof. intros Hd Hn H. destruct (round_even_cases n d Hd Hn) as (q & r & E & Hr & Hq & C). assert (k <= q) by nia. lia. Qed.
Lemma round_even_le n d k : 0 < d -> 0 <= n -> n <= k * d -> round_even n d <= k.
Proof. intros Hd Hn H. destruct (round_even_cases n d Hd Hn) as (q & r & E & Hr & Hq & [[-> C]|[-> C]]); nia. Qed.
Lemma round_even_gt n d k : 0 < d -> 0 <= n -> d < 2 * (n - k * d) -> k + 1 <= round_even n d.
Proof. intros Hd Hn H. destruct (round_even_cases n d Hd Hn) as (q & r & E & Hr & Hq & [[-> C]|[-> C]]); nia. Qed.
Lemma round_even_scale n d c : 0 < d -> 0 < c -> round_even (n * c) (d * c) = round_even n d.
Proof. intros Hd Hc. unfold round_even. rewrite Z.div_mul_cancel_r by lia. rewrite Zmult_mod_distr_r. cbv zeta.
  replace (2 * (n mod d * c) <? d * c) with (2 * (n mod d) <? d) by (destruct (Z.ltb_spec (2 * (n mod d)) d), (Z.ltb_spec (2 * (n mod d * c)) (d * c)); nia).
  replace (d * c <? 2 * (n mod d * c)) with (d <? 2 * (n mod d)) by (destruct (Z.ltb_spec d (2 * (n mod d))), (Z.ltb_spec (d * c) (2 * (n mod d * c))); nia). reflexivity. Qed.

(** ** rounding to 53 digits *)
Definition scaled (p q e : Z) : Z * Z := if 0 <=? e then (p, q * 2 ^ e) else (p * 2 ^ (- e), q).
Definition exponent (p q : Z) : Z := let e0 := Z.log2 p - Z.log2 q - 52 in if fst (scaled p q e0) <? snd (scaled p q e0) * 2 ^ 52 then e0 - 1 else e0.
Lemma round53_eq p q : p <> 0 -> round53 p q = mkF64 (round_even (fst (scaled p q (exponent p q))) (snd (scaled p q (exponent p q)))) (exponent p q).
Proof. intro H. unfold round53. replace (p =? 0) with false by lia. cbv zeta. change (if 0 <=? Z.log2 p - Z.log2 q - 52 then (p, q * 2 ^ (Z.log2 p - Z.log2 q - 52)) else (p * 2 ^ (- (Z.log2 p - Z.log2 q - 52)), q)) with (scaled p q (Z.log2 p - Z.log2 q - 52)).
  unfold exponent. cbv zeta. destruct (scaled p q (Z.log2 p - Z.log2 q - 52)) as [n d] eqn:E. cbn [fst snd]. destruct (n <? d * 2 ^ 52).
  - change (if 0 <=? Z.log2 p - Z.log2 q - 52 - 1 then (p, q * 2 ^ (Z.log2 p - Z.log2 q - 52 - 1)) else (p * 2 ^ (- (Z.log2 p - Z.log2 q - 52 - 1)), q)) with (scaled p q (Z.log2 p - Z.log2 q - 52 - 1)). now destruct (scaled p q (Z.log2 p - Z.log2 q - 52 - 1)).
  - unfold scaled in *. rewrite E. reflexivity. Qed.
(** how two scalings relate *)
Lemma scaled_pos p q e : 0 < p -> 0 < q -> 0 < fst (scaled p q e) /\ 0 < snd (scaled p q e).
Proof. intros Hp Hq. unfold scaled. destruct (0 <=? e) eqn:E; cbn [fst snd]; split; auto; apply Z.mul_pos_pos; auto; apply Z.pow_pos_nonneg; lia. Qed.
Lemma scaled_common p q e c : 0 < p -> 0 < q -> 0 <= c -> exists x, 0 < x /\ fst (scaled (p * 2 ^ c) (q * 2 ^ c) e) = fst (scaled p q e) * x /\ snd (scaled (p * 2 ^ c) (q * 2 ^ c) e) = snd (scaled p q e) * x.
Proof. intros Hp Hq Hc. exists (2 ^ c). split; [apply Z.pow_pos_nonneg; lia|]. unfold scaled. destruct (0 <=? e); cbn [fst snd]; split; ring. Qed.
Lemma exponent_common p q c : 0 < p -> 0 < q -> 0 <= c -> exponent (p * 2 ^ c) (q * 2 ^ c) = exponent p q.
Proof. intros Hp Hq Hc. unfold exponent. cbv zeta. rewrite !Z.log2_mul_pow2 by lia. replace (c + Z.log2 p - (c + Z.log2 q) - 52) with (Z.log2 p - Z.log2 q - 52) by lia.
  destruct (scaled_common p q (Z.log2 p - Z.log2 q - 52) c Hp Hq Hc) as (x & Hx & -> & ->). set (n := fst _). set (d := snd _). clearbody n d. change (2 ^ 52) with 4503599627370496 in *.
  replace (n * x <? d * x * 4503599627370496) with (n <? d * 4503599627370496); auto. destruct (Z.ltb_spec n (d * 4503599627370496)), (Z.ltb_spec (n * x) (d * x * 4503599627370496)); nia. Qed.
Lemma round53_common p q c : 0 <= p -> 0 < q -> 0 <= c -> round53 (p * 2 ^ c) (q * 2 ^ c) = round53 p q.
Proof. intros Hp Hq Hc. assert (P2 : 0 < 2 ^ c) by (apply Z.pow_pos_nonneg; lia). destruct (Z.eq_dec p 0) as [->|N]; [reflexivity|]. rewrite !round53_eq by nia. rewrite exponent_common by lia. f_equal.
  destruct (scaled_common p q (exponent p q) c) as (x & Hx & -> & ->); try lia. apply round_even_scale; auto. apply scaled_pos; lia. Qed.
Lemma ratio_common p q c : q <> 0 -> 0 <= c -> f64_ratio (p * 2 ^ c) (q * 2 ^ c) = f64_ratio p q.
Proof. intros Hq Hc. assert (P2 : 0 < 2 ^ c) by (apply Z.pow_pos_nonneg; lia). unfold f64_ratio. rewrite !Z.abs_mul, (Z.abs_eq (2 ^ c)) by lia. rewrite round53_common by lia.
  assert (S1 : forall z, (z * 2 ^ c <? 0) = (z <? 0)) by (intro z; destruct (Z.ltb_spec (z * 2 ^ c) 0), (Z.ltb_spec z 0); nia).
  assert (S2 : forall z, (0 <? z * 2 ^ c) = (0 <? z)) by (intro z; destruct (Z.ltb_spec 0 (z * 2 ^ c)), (Z.ltb_spec 0 z); nia). now rewrite !S1, !S2. Qed.
(** the scaled quotient has at least 53 digits *)
Lemma exponent_digits p q : 0 < p -> 0 < q -> snd (scaled p q (exponent p q)) * 2 ^ 52 <= fst (scaled p q (exponent p q)).
Proof. intros Hp Hq. unfold exponent. cbv zeta. set (e := Z.log2 p - Z.log2 q - 52). destruct (Z.ltb_spec (fst (scaled p q e)) (snd (scaled p q e) * 2 ^ 52)) as [H|H]; [|exact H].
  destruct (Z.log2_spec p Hp) as [P1 P2]. destruct (Z.log2_spec q Hq) as [Q1 Q2]. pose proof (Z.log2_nonneg p). pose proof (Z.log2_nonneg q). set (lp := Z.log2 p) in *. set (lq := Z.log2 q) in *. clear H.
  assert (X : q * 2 ^ (52 + lp) <= p * 2 ^ (53 + lq)). { transitivity (2 ^ Z.succ lq * 2 ^ (52 + lp)); [apply Z.mul_le_mono_nonneg_r; [apply Z.pow_nonneg|]; lia|]. rewrite <- Z.pow_add_r by lia. transitivity (2 ^ lp * 2 ^ (53 + lq)); [rewrite <- Z.pow_add_r by lia; apply Z.pow_le_mono_r; lia|apply Z.mul_le_mono_nonneg_r; [apply Z.pow_nonneg|]; lia]. }
  unfold scaled. destruct (Z.leb_spec 0 (e - 1)) as [He|He]; cbn [fst snd].
  - assert (Y : q * 2 ^ (e - 1) * 2 ^ 52 * 2 ^ (53 + lq) <= p * 2 ^ (53 + lq)). { rewrite <- !Z.mul_assoc, <- !Z.pow_add_r by lia. replace (e - 1 + (52 + (53 + lq))) with (52 + lp) by (unfold e; lia). exact X. }
    apply Z.mul_le_mono_pos_r in Y; [exact Y|apply Z.pow_pos_nonneg; lia].
  - destruct (Z.le_gt_cases 0 (52 - (53 + lq - lp))) as [Hs|Hs]; unfold e in *.
    + assert (Y : q * 2 ^ 52 * 2 ^ lp <= p * 2 ^ (- (lp - lq - 52 - 1)) * 2 ^ lp). { rewrite <- !Z.mul_assoc, <- !Z.pow_add_r by lia. replace (- (lp - lq - 52 - 1) + lp) with (53 + lq) by lia. exact X. }
      apply Z.mul_le_mono_pos_r in Y; [exact Y|apply Z.pow_pos_nonneg; lia].
    + assert (Y : q * 2 ^ 52 * 2 ^ lp <= p * 2 ^ (- (lp - lq - 52 - 1)) * 2 ^ lp). { rewrite <- !Z.mul_assoc, <- !Z.pow_add_r by lia. replace (- (lp - lq - 52 - 1) + lp) with (53 + lq) by lia. exact X. }
      apply Z.mul_le_mono_pos_r in Y; [exact Y|apply Z.pow_pos_nonneg; lia]. Qed.
Lemma exponent_small p q : 0 < p <= 2 ^ 53 -> 0 < q -> exponent p q <= 0 \/ (p = 2 ^ 53 /\ q = 1).
Proof. intros [Hp Hp'] Hq. pose proof (Z.log2_le_mono _ _ Hp') as L. rewrite Z.log2_pow2 in L by lia. pose proof (Z.log2_nonneg q). unfold exponent. cbv zeta. destruct (_ <? _); [left; lia|]. destruct (Z.eq_dec (Z.log2 p) 53) as [E|E]; [|left; lia]. destruct (Z.eq_dec (Z.log2 q) 0) as [E'|E']; [|left; lia]. right.
  destruct (Z.log2_spec p Hp) as [A _]. rewrite E in A. destruct (Z.log2_spec q Hq) as [_ B]. rewrite E' in B. cbn in B. lia. Qed.

(** ** the ceiling of the quotient *)
Lemma ceil_neg m e : 0 <= e -> f64_ceil (mkF64 m (- e)) = - ((- m) / 2 ^ e).
Proof. intro He. unfold f64_ceil. cbn [f_e f_m]. destruct (Z.leb_spec 0 (- e)); [|now rewrite Z.opp_involutive]. assert (e = 0) as -> by lia. change (2 ^ - (0)) with 1. change (2 ^ 0) with 1. rewrite Z.div_1_r. lia. Qed.
Lemma round53_small p q : 0 < p <= 2 ^ 53 -> 0 < q -> (p = 2 ^ 53 /\ q = 1) \/ exists e, 0 <= e /\ round53 p q = mkF64 (round_even (p * 2 ^ e) q) (- e) /\ q * 2 ^ 52 <= p * 2 ^ e.
Proof. intros Hp Hq. destruct (exponent_small p q Hp Hq) as [E|E]; [|auto]. right. exists (- exponent p q). split; [lia|]. rewrite round53_eq by lia. rewrite Z.opp_involutive. pose proof (exponent_digits p q ltac:(lia) Hq) as D.
  assert (S : scaled p q (exponent p q) = (p * 2 ^ (- exponent p q), q)). { unfold scaled. destruct (Z.leb_spec 0 (exponent p q)); auto. assert (exponent p q = 0) as -> by lia. change (2 ^ - (0)) with 1. change (2 ^ 0) with 1. f_equal; lia. }
  rewrite S in *. auto. Qed.
Lemma pow_pos e : 0 <= e -> 0 < 2 ^ e. Proof. intro. apply Z.pow_pos_nonneg; lia. Qed.
Lemma ceil_bounds m e : 0 < e -> exists c, - ((- m) / e) = c /\ m <= c * e /\ (c - 1) * e < m.
Proof. intro He. eexists. split; [reflexivity|]. pose proof (Z.div_mod (- m) e ltac:(lia)). pose proof (Z.mod_pos_bound (- m) e He). nia. Qed.
Lemma ceil_ratio p q : 0 < p <= 2 ^ 53 -> 0 < q -> f64_ceil (round53 p q) = - ((- p) / q).
Proof. intros Hp Hq. destruct (round53_small p q Hp Hq) as [[-> ->]|(e & He & -> & D)]; [reflexivity|]. rewrite ceil_neg by auto. pose proof (pow_pos e He) as P. set (n := p * 2 ^ e) in *. assert (Hn : 0 < n) by (unfold n; nia).
  destruct (ceil_bounds p q Hq) as (M & -> & M1 & M2). set (m := round_even n q). destruct (ceil_bounds m (2 ^ e) P) as (c & -> & C1 & C2).
  assert (U : m <= M * 2 ^ e) by (apply round_even_le; try lia; unfold n; nia).
  assert (B : 2 ^ 52 <= m) by (apply round_even_ge; lia).
  assert (L : (M - 1) * 2 ^ e + 1 <= m).
  { destruct (Z.le_gt_cases ((M - 1) * 2 ^ e + 1) m) as [H|H]; auto. exfalso. assert (H0 : 0 < M - 1). { destruct (Z.le_gt_cases (M - 1) 0); [exfalso|lia]. change (2 ^ 52) with 4503599627370496 in B. nia. }
    assert (Q : q < 2 * 2 ^ e). { change (2 ^ 53) with (2 * 2 ^ 52) in Hp. change (2 ^ 52) with 4503599627370496 in *. nia. }
    assert (G : (M - 1) * 2 ^ e + 1 <= m). { apply round_even_gt; try lia. unfold n. nia. } lia. }
  nia. Qed.
