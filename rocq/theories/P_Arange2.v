(** The number of elements arange computes, and its loops (C48). *)
From Verif Require Import Base Spec Spec_Arange P_List M_Arange P_Axes P_Arange.
Local Open Scope Z_scope.

(** ** integers as doubles *)
Definition stands_for (f : f64) (z : Z) : Prop := (0 <= f_e f /\ f_m f * 2 ^ f_e f = z) \/ (f_e f < 0 /\ f_m f = z * 2 ^ (- f_e f)).
Lemma div_stands x y p q : stands_for x p -> stands_for y q -> q <> 0 -> f64_div x y = f64_ratio p q.
Proof. intros Hx Hy Hq. destruct x as [mx ex], y as [my ey]. unfold stands_for, f64_div in *. cbn [f_e f_m] in *.
  assert (K : forall a b c, b <> 0 -> 0 <= c -> f64_ratio a b = f64_ratio (a * 2 ^ c) (b * 2 ^ c)) by (intros; symmetry; now apply ratio_common).
  assert (Pw : forall c, 0 <= c -> 0 < 2 ^ c) by (intros; now apply pow_pos).
  destruct Hx as [[X1 X2]|[X1 X2]], Hy as [[Y1 Y2]|[Y1 Y2]], (Z.leb_spec 0 (ex - ey)) as [E|E]; try lia; subst; cbv zeta.
  - rewrite (K (mx * 2 ^ (ex - ey)) my ey) by nia. rewrite <- Z.mul_assoc, <- Z.pow_add_r by lia. now replace (ex - ey + ey) with ex by lia.
  - rewrite (K mx (my * 2 ^ (- (ex - ey))) ex); [|specialize (Pw (- (ex - ey))); nia|lia]. rewrite <- (Z.mul_assoc my), <- Z.pow_add_r by lia. now replace (- (ex - ey) + ex) with ey by lia.
  - rewrite (K (mx * 2 ^ ex) q (- ey)) by lia. rewrite <- Z.mul_assoc, <- Z.pow_add_r by lia. now replace (ex + - ey) with (ex - ey) by lia.
  - rewrite (K p (my * 2 ^ ey) (- ex)) by lia. rewrite <- (Z.mul_assoc my), <- Z.pow_add_r by lia. now replace (ey + - ex) with (- (ex - ey)) by lia.
  - rewrite (K p q (- ey)) by lia. rewrite <- Z.mul_assoc, <- Z.pow_add_r by lia. now replace (- ex + (ex - ey)) with (- ey) by lia.
  - rewrite (K p q (- ex)) by lia. rewrite <- (Z.mul_assoc q), <- Z.pow_add_r by lia. now replace (- ey + - (ex - ey)) with (- ex) by lia. Qed.
Lemma round_even_1 n : 0 <= n -> round_even n 1 = n.
Proof. intro H. apply Z.le_antisymm; [apply round_even_le|apply round_even_ge]; lia. Qed.
Lemma round53_exact p : 0 <= p <= 2 ^ 53 -> stands_for (round53 p 1) p.
Proof. intros [H0 H]. destruct (Z.eq_dec p 0) as [->|N]; [left; cbn; lia|]. destruct (round53_small p 1) as [[-> _]|(e & He & -> & _)]; try lia; [left; vm_compute; split; [discriminate|reflexivity]|].
  pose proof (pow_pos e He). rewrite round_even_1 by nia. unfold stands_for. cbn [f_e f_m]. destruct (Z.eq_dec e 0) as [->|Ne]; [left|right; rewrite Z.opp_involutive; split; [lia|reflexivity]]. cbn. lia. Qed.
Lemma round53_large p : 2 ^ 53 < p -> exists z, stands_for (round53 p 1) z /\ 2 ^ 53 <= z.
Proof. intro H. assert (Hp : 0 < p) by lia. pose proof (exponent_digits p 1 Hp ltac:(lia)) as D. rewrite round53_eq by lia. set (e := exponent p 1) in *. assert (He : 1 <= e). { unfold e, exponent. cbv zeta. assert (L : 53 <= Z.log2 p) by (apply Z.log2_le_pow2; lia). change (Z.log2 1) with 0. set (e0 := Z.log2 p - 0 - 52). assert (1 <= e0) by (unfold e0; lia).
    destruct (Z.ltb_spec (fst (scaled p 1 e0)) (snd (scaled p 1 e0) * 2 ^ 52)) as [H2|H2]; auto. exfalso. unfold scaled in H2. replace (0 <=? e0) with true in H2 by lia. cbn [fst snd] in H2. rewrite Z.mul_1_l, <- Z.pow_add_r in H2 by lia. replace (e0 + 52) with (Z.log2 p) in H2 by (unfold e0; lia). destruct (Z.log2_spec p Hp). lia. }
  unfold scaled in *. replace (0 <=? e) with true in * by lia. cbn [fst snd] in *. rewrite Z.mul_1_l in *. pose proof (pow_pos e ltac:(lia)) as Pe. exists (round_even p (2 ^ e) * 2 ^ e). split; [left; cbn [f_e f_m]; lia|].
  assert (B : 2 ^ 52 <= round_even p (2 ^ e)) by (apply round_even_ge; lia). assert (P2 : 2 <= 2 ^ e) by (change 2 with (2 ^ 1) at 1; apply Z.pow_le_mono_r; lia). change (2 ^ 53) with (2 ^ 52 * 2). apply Z.mul_le_mono_nonneg; lia. Qed.
Lemma stands_opp f z : stands_for f z -> stands_for (mkF64 (- f_m f) (f_e f)) (- z).
Proof. unfold stands_for. cbn [f_e f_m]. intros [[H1 H2]|[H1 H2]]; [left|right]; split; auto; rewrite ?H2; nia. Qed.
Lemma of_Z_abs z : f64_of_Z z = if z <? 0 then mkF64 (- f_m (round53 (Z.abs z) 1)) (f_e (round53 (Z.abs z) 1)) else round53 (Z.abs z) 1.
Proof. unfold f64_of_Z, f64_ratio. change (0 <? 1) with true. change (1 <? 0) with false. rewrite !andb_true_r, !andb_false_r, orb_false_r. reflexivity. Qed.
Lemma of_Z_exact z : Z.abs z <= 2 ^ 53 -> stands_for (f64_of_Z z) z.
Proof. intro H. rewrite of_Z_abs. pose proof (round53_exact (Z.abs z) ltac:(lia)) as R. destruct (Z.ltb_spec z 0) as [N|N].
  - apply stands_opp in R. now replace (- Z.abs z) with z in R by lia.
  - now replace (Z.abs z) with z in * by lia. Qed.
(** the step stands for itself, or for something at least as large as any difference allowed *)
Lemma of_Z_any z : exists z', stands_for (f64_of_Z z) z' /\ Z.sgn z' = Z.sgn z /\ (z' = z \/ 2 ^ 53 <= Z.abs z' /\ 2 ^ 53 <= Z.abs z).
Proof. destruct (Z.le_gt_cases (Z.abs z) (2 ^ 53)) as [H|H]; [exists z; split; [now apply of_Z_exact|auto]|]. rewrite of_Z_abs. destruct (round53_large (Z.abs z) H) as (w & R & Hw). destruct (Z.ltb_spec z 0) as [N|N].
  - exists (- w). apply stands_opp in R. split; auto. split; [lia|]. right. lia.
  - exists w. split; auto. split; [lia|]. right. lia. Qed.

(** ** the number of elements *)
Lemma ceil_opp_large p q : 0 < p <= 2 ^ 53 -> 0 < q -> - 2 ^ 53 <= f64_ceil (mkF64 (- f_m (round53 p q)) (f_e (round53 p q))) <= 0.
Proof. intros Hp Hq. destruct (round53_small p q Hp Hq) as [[-> ->]|(e & He & -> & D)]; [vm_compute; split; discriminate|]. pose proof (pow_pos e He) as P. cbn [f_e f_m]. rewrite ceil_neg by auto. rewrite Z.opp_involutive.
  assert (Hn : 0 < p * 2 ^ e) by nia. set (m := round_even (p * 2 ^ e) q). assert (B : 2 ^ 52 <= m) by (apply round_even_ge; lia). assert (U : m <= p * 2 ^ e) by (apply round_even_le; nia). pose proof (Z.div_pos m (2 ^ e) ltac:(lia) P). pose proof (Z.div_le_upper_bound m (2 ^ e) p P ltac:(lia)). lia. Qed.
Lemma ceil_one p q : 0 < p <= q -> - ((- p) / q) = 1.
Proof. intros [H1 H2]. destruct (ceil_bounds p q ltac:(lia)) as (c & -> & A & B). nia. Qed.
Lemma count_exact d s : Z.abs d <= 2 ^ 53 -> s <> 0 -> let n := f64_ceil (f64_div (f64_of_Z d) (f64_of_Z s)) in
  if (0 <? d) && (0 <? s) || (d <? 0) && (s <? 0) then n = - ((- Z.abs d) / Z.abs s) else - 2 ^ 53 <= n <= 0.
Proof. intros Hd Hs n. unfold n. clear n. destruct (of_Z_any s) as (s' & R & Sg & C). rewrite (div_stands _ _ d s' (of_Z_exact d Hd) R) by (destruct (Z.sgn_spec s) as [[? ?]|[[? ?]|[? ?]]]; lia).
  destruct (Z.eq_dec d 0) as [->|Nd]. { cbn [Z.ltb Z.compare andb orb]. unfold f64_ratio. cbn [Z.ltb Z.compare andb orb Z.abs]. change (round53 0 (Z.abs s')) with (mkF64 0 0). cbn. lia. }
  assert (Sg' : (s' <? 0) = (s <? 0) /\ (0 <? s') = (0 <? s) /\ s' <> 0) by (destruct (Z.sgn_spec s) as [[? ?]|[[? ?]|[? ?]]]; lia). destruct Sg' as (E1 & E2 & Ns). unfold f64_ratio. rewrite E1, E2.
  destruct ((0 <? d) && (0 <? s) || (d <? 0) && (s <? 0)) eqn:Eq.
  - replace ((d <? 0) && (0 <? s) || (0 <? d) && (s <? 0)) with false by lia. rewrite ceil_ratio by lia. destruct C as [->|[C1 C2]]; auto. rewrite !ceil_one by lia. reflexivity.
  - replace ((d <? 0) && (0 <? s) || (0 <? d) && (s <? 0)) with true by lia. apply ceil_opp_large; lia. Qed.

(** ** the loops *)
Lemma spaced_nil start stop step : ~ before stop step start -> evenly_spaced start stop step [].
Proof. intro H. split; [intros i Hi; destruct (Nat.nlt_0_r i Hi)|]. cbn [length]. now rewrite Z.mul_0_l, Z.add_0_r. Qed.
Lemma spaced_map start stop step n : (forall i, (i < n)%nat -> before stop step (start + Z.of_nat i * step)) -> ~ before stop step (start + Z.of_nat n * step) ->
  evenly_spaced start stop step (map (fun i => start + Z.of_nat i * step) (seq 0 n)).
Proof. intros H1 H2. split; rewrite map_length, seq_length; auto. intros i Hi. rewrite (nth_indep _ 0 (start + Z.of_nat 0 * step)) by (now rewrite map_length, seq_length). rewrite (map_nth (fun i => start + Z.of_nat i * step)), seq_nth by auto. cbn [Nat.add]. auto. Qed.
Lemma spaced_unique start stop step r1 r2 : evenly_spaced start stop step r1 -> evenly_spaced start stop step r2 -> r1 = r2.
Proof. intros [A1 B1] [A2 B2]. assert (L : length r1 = length r2). { destruct (Nat.lt_trichotomy (length r1) (length r2)) as [H|[H|H]]; auto; exfalso; [destruct (A2 _ H) as [E Q]|destruct (A1 _ H) as [E Q]]; rewrite E in Q; auto. }
  apply (nth_ext _ _ 0 0 L). intros i Hi. destruct (A1 i Hi) as [-> _]. destruct (A2 i) as [-> _]; [lia|reflexivity]. Qed.
Lemma count_up_ok t stop step n : 0 < step -> forall fuel start, fits t start = true -> fits t (start + Z.of_nat n * step) = true -> (forall i, (i < n)%nat -> start + Z.of_nat i * step < stop) -> stop <= start + Z.of_nat n * step -> (n < fuel)%nat ->
  count_up fuel t start stop step = Ok (map (fun i => start + Z.of_nat i * step) (seq 0 n)).
Proof. intro Hs. induction n as [|n IH]; intros fuel start F0 F1 H1 H2 Hf; (destruct fuel as [|fuel]; [lia|]); cbn [count_up].
  - replace (start <? stop) with false by lia. reflexivity.
  - replace (start <? stop) with true by (specialize (H1 0%nat); lia). unfold in_type. assert (F : fits t (start + step) = true). { unfold fits in *. nia. } rewrite F. cbn [bind]. rewrite IH; try lia.
    + cbn [bind seq map]. rewrite <- seq_shift, map_map. f_equal. f_equal; [lia|]. apply map_ext. intro i. lia.
    + exact F.
    + rewrite <- F1. f_equal. lia.
    + intros i Hi. specialize (H1 (S i)). lia. Qed.
Lemma removelast_length {A} (l : list A) : length (removelast l) = (length l - 1)%nat.
Proof. induction l as [|x [|y l] IH]; auto. cbn [removelast length] in *. rewrite IH. lia. Qed.
