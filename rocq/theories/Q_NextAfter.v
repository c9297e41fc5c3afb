(** Lemmas behind Properties_NextAfter.v *)
From Coq Require Import ZArith Lia Bool Wf_nat.
From Verif Require Import Base Spec_NextAfter M_NextAfter.
Local Open Scope Z_scope.

(** ** bits *)
Lemma low15 u : Z.land u 32767 = u mod 32768.
Proof. change 32767 with (Z.ones 15). change 32768 with (2 ^ 15). apply Z.land_ones. lia. Qed.
Lemma bit15 u : pattern u -> Z.testbit u 15 = negative u.
Proof. intro H. unfold pattern, negative in *. destruct (2 ^ 15 <=? u) eqn:E.
  - apply Z.testbit_true; [lia|]. replace (u / 2 ^ 15) with 1; [reflexivity|]. change (2 ^ 15) with 32768 in *. lia.
  - apply Z.testbit_false; [lia|]. replace (u / 2 ^ 15) with 0; [reflexivity|]. change (2 ^ 15) with 32768 in *. lia. Qed.
Lemma land_high u : Z.land u 32768 = if Z.testbit u 15 then 32768 else 0.
Proof. apply Z.bits_inj'. intros n Hn. change 32768 with (2 ^ 15). rewrite Z.land_spec, Z.pow2_bits_eqb by lia. destruct (Z.eqb_spec 15 n) as [<- |D].
  - destruct (Z.testbit u 15); [rewrite Z.pow2_bits_true by lia; reflexivity|now rewrite Z.bits_0].
  - rewrite andb_false_r. destruct (Z.testbit u 15); [rewrite Z.pow2_bits_false by lia; reflexivity|now rewrite Z.bits_0]. Qed.
Definition sgn (u : Z) : Z := if negative u then 32768 else 0.
Definition mag (u : Z) : Z := u mod 32768.
Lemma split16 u : pattern u -> u = sgn u + mag u /\ 0 <= mag u < 32768 /\ (sgn u = 0 \/ sgn u = 32768).
Proof. unfold pattern, sgn, mag, negative. change (2 ^ 16) with 65536. change (2 ^ 15) with 32768. intro H. destruct (32768 <=? u) eqn:E; lia. Qed.

(** ** the magnitude of a number grows with its pattern *)
Definition size_of (t : half_type) (a : Z) : Z :=
  if a / 2 ^ mant_bits t =? 0 then a mod 2 ^ mant_bits t else (2 ^ mant_bits t + a mod 2 ^ mant_bits t) * 2 ^ (a / 2 ^ mant_bits t - 1).
Lemma size_step t a : 0 <= a -> size_of t a < size_of t (a + 1).
Proof. intro H. unfold size_of. set (M := 2 ^ mant_bits t). assert (HM : 0 < M) by (apply Z.pow_pos_nonneg; destruct t; cbn; lia). 
  pose proof (Z.div_mod a M ltac:(lia)) as D. pose proof (Z.mod_pos_bound a M HM) as B. set (q := a / M) in *. set (r := a mod M) in *. assert (Q : 0 <= q) by (apply Z.div_pos; lia).
  destruct (Z.eq_dec (r + 1) M) as [E|E].
  - assert (D1 : (a + 1) / M = q + 1) by (symmetry; apply (Z.div_unique_pos _ _ _ 0); lia). assert (R1 : (a + 1) mod M = 0) by (symmetry; apply (Z.mod_unique_pos _ _ (q + 1)); lia). rewrite D1, R1.
    replace (q + 1 =? 0) with false by lia. replace (q + 1 - 1) with q by lia. rewrite Z.add_0_r. destruct (Z.eqb_spec q 0) as [-> |Nq]; [cbn; lia|].
    assert (P : 0 < 2 ^ (q - 1)) by (apply Z.pow_pos_nonneg; lia). replace (2 ^ q) with (2 * 2 ^ (q - 1)) by (rewrite <- Z.pow_succ_r by lia; f_equal; lia). nia.
  - assert (D1 : (a + 1) / M = q) by (symmetry; apply (Z.div_unique_pos _ _ _ (r + 1)); lia). assert (R1 : (a + 1) mod M = r + 1) by (symmetry; apply (Z.mod_unique_pos _ _ q); lia). rewrite D1, R1.
    destruct (Z.eqb_spec q 0) as [Eq|Nq]; [lia|]. assert (P : 0 < 2 ^ (q - 1)) by (apply Z.pow_pos_nonneg; lia). nia. Qed.
Lemma size_lt t a b : 0 <= a -> a < b -> size_of t a < size_of t b.
Proof. intros Ha H. replace b with (a + 1 + Z.of_nat (Z.to_nat (b - a - 1))) by lia. generalize (Z.to_nat (b - a - 1)) as n. induction n as [|n IH].
  - rewrite Z.add_0_r. now apply size_step.
  - eapply Z.lt_trans; [exact IH|]. replace (a + 1 + Z.of_nat (S n)) with (a + 1 + Z.of_nat n + 1) by lia. apply size_step. lia. Qed.
Lemma size_inj t a b : 0 <= a -> 0 <= b -> (size_of t a < size_of t b <-> a < b) /\ (size_of t a = size_of t b <-> a = b).
Proof. intros Ha Hb. pose proof (size_lt t a b Ha). pose proof (size_lt t b a Hb). destruct (Z.lt_trichotomy a b) as [L|[-> |L]]; split; split; intro; try lia; specialize (H ltac:(lia)) || specialize (H0 ltac:(lia)); lia. Qed.
Lemma size_0 t : size_of t 0 = 0. Proof. destruct t; reflexivity. Qed.
Lemma mag_mod t u : u mod 2 ^ mant_bits t = mag u mod 2 ^ mant_bits t.
Proof. unfold mag. destruct t; cbn [mant_bits]; [change (2 ^ 10) with 1024|change (2 ^ 7) with 128]; lia. Qed.
Lemma units_eq t u : units t u = if negative u then - size_of t (mag u) else size_of t (mag u).
Proof. unfold units, size_of, exponent, mantissa. rewrite mag_mod. reflexivity. Qed.
Lemma nan_eq t u : pattern u -> (is_nan_bits t u = true <-> nan t u).
Proof. intro H. unfold is_nan_bits, nan, exponent, mantissa, top_exponent. rewrite low15, mag_mod. change (2 ^ 15) with 32768. fold (mag u). destruct (split16 u H) as (_ & B & _). rewrite Z.ltb_lt.
  destruct t; cbn [exponent_mask mant_bits]; [change (2 ^ 10) with 1024; change (2 ^ (15 - 10)) with 32|change (2 ^ 7) with 128; change (2 ^ (15 - 7)) with 256]; lia. Qed.
(** ** neighbours *)
Lemma pack s a : (s = 0 \/ s = 32768) -> 0 <= a < 32768 -> pattern (s + a) /\ sgn (s + a) = s /\ mag (s + a) = a.
Proof. unfold pattern, sgn, mag, negative. change (2 ^ 16) with 65536. change (2 ^ 15) with 32768. intros H B. destruct (32768 <=? s + a) eqn:E; lia. Qed.
Lemma units_pack t s a : (s = 0 \/ s = 32768) -> 0 <= a < 32768 -> units t (s + a) = if s =? 0 then size_of t a else - size_of t a.
Proof. intros H B. destruct (pack s a H B) as (_ & S1 & M1). rewrite units_eq, M1. unfold sgn in S1. destruct (negative (s + a)); subst s; reflexivity. Qed.
Lemma nan_pack t s a : (s = 0 \/ s = 32768) -> 0 <= a < 32768 -> (nan t (s + a) <-> exponent_mask t < a).
Proof. intros H B. destruct (pack s a H B) as (P & _ & M1). rewrite <- nan_eq by auto. unfold is_nan_bits. rewrite low15. fold (mag (s + a)). rewrite M1. apply Z.ltb_lt. Qed.
Lemma mask_range t : 0 < exponent_mask t < 32767. Proof. destruct t; cbn; lia. Qed.
Lemma l_nextafter : forall t x y, pattern x -> pattern y -> ~ nan t x -> ~ nan t y -> exists r, nextafter t x y = Ok (Some r) /\ next_towards t x y r.
Proof. intros t x y Px Py Nx Ny. pose proof (bit15 x Px) as Tx. pose proof (bit15 y Py) as Ty. destruct (split16 x Px) as (Ex & Bx & Sx), (split16 y Py) as (Ey & By & Sy).
  assert (NX : mag x <= exponent_mask t) by (rewrite Ex, nan_pack in Nx by auto; lia). assert (NY : mag y <= exponent_mask t) by (rewrite Ey, nan_pack in Ny by auto; lia).
  pose proof (mask_range t) as MR.
  assert (X : forall r, next_towards t (sgn x + mag x) (sgn y + mag y) r -> next_towards t x y r) by (rewrite <- Ex, <- Ey; auto).
  unfold nextafter. replace (is_nan_bits t x) with false by (symmetry; apply not_true_is_false; rewrite nan_eq; auto). replace (is_nan_bits t y) with false by (symmetry; apply not_true_is_false; rewrite nan_eq; auto). cbn [orb].
  rewrite !low15, !land_high. fold (mag x) (mag y). rewrite Z.lxor_spec, Tx, Ty.
  replace (if negative y then 32768 else 0) with (sgn y) by reflexivity.
  assert (XS : (if xorb (negative x) (negative y) then 32768 else 0) =? 0 = (sgn x =? sgn y)) by (unfold sgn; destruct (negative x), (negative y); reflexivity). rewrite XS. clear XS Tx Ty.
  revert Ex Ey. set (sx := sgn x) in *. set (sy := sgn y) in *. set (a := mag x) in *. set (b := mag y) in *. intros Ex Ey.
  assert (U : forall z, pattern z -> ~ nan t z -> exists s c, z = s + c /\ (s = 0 \/ s = 32768) /\ 0 <= c <= exponent_mask t /\ units t z = if s =? 0 then size_of t c else - size_of t c).
  { intros z Pz Nz. destruct (split16 z Pz) as (Ez & Bz & Sz). exists (sgn z), (mag z). split; [exact Ez|]. split; [exact Sz|]. split; [rewrite Ez, nan_pack in Nz by auto; lia|]. rewrite Ez at 1. now apply units_pack. }
  assert (G : forall s c, (s = 0 \/ s = 32768) -> 0 <= c <= exponent_mask t -> (forall d, 0 <= d <= exponent_mask t -> True) ->
     (units t (sx + a) < units t (sy + b) -> units t (sx + a) < units t (s + c) <= units t (sy + b) /\ forall s' d, (s' = 0 \/ s' = 32768) -> 0 <= d <= exponent_mask t -> units t (sx + a) < units t (s' + d) -> units t (s + c) <= units t (s' + d)) ->
     (units t (sy + b) < units t (sx + a) -> units t (sy + b) <= units t (s + c) < units t (sx + a) /\ forall s' d, (s' = 0 \/ s' = 32768) -> 0 <= d <= exponent_mask t -> units t (s' + d) < units t (sx + a) -> units t (s' + d) <= units t (s + c)) ->
     (units t (sx + a) = units t (sy + b) -> s + c = sy + b) -> next_towards t x y (s + c)).
  { intros s c Hs Hc _ H1 H2 H3. unfold next_towards. rewrite <- Ex, <- Ey in *. split; [apply pack; auto; lia|]. split; [rewrite nan_pack; auto; lia|].
    split; [|split]; [intro L; destruct (H1 L) as [L1 L2]; split; [exact L1|]; intros z Pz Nz Lz|intro L; destruct (H2 L) as [L1 L2]; split; [exact L1|]; intros z Pz Nz Lz|exact H3];
    destruct (U z Pz Nz) as (s' & d & -> & Hs' & Hd & _); apply L2; auto. }
  clear U X Px Py Nx Ny. clearbody sx sy a b.
  assert (UP : forall s c, (s = 0 \/ s = 32768) -> 0 <= c <= exponent_mask t -> units t (s + c) = if s =? 0 then size_of t c else - size_of t c) by (intros; apply units_pack; auto; lia).
  assert (SI : forall c d, 0 <= c -> 0 <= d -> (size_of t c < size_of t d <-> c < d) /\ (size_of t c = size_of t d <-> c = d)) by (intros; apply size_inj; auto).
  assert (S0 : forall c, 0 <= c -> 0 <= size_of t c /\ (size_of t c = 0 <-> c = 0)). { intros c Hc. destruct (SI 0 c ltac:(lia) ltac:(lia)) as [I1 I2]. rewrite size_0 in *. destruct (Z.eq_dec c 0) as [-> |]; [rewrite size_0|]; lia. }
  assert (UA := UP sx a Sx ltac:(lia)). assert (UB := UP sy b Sy ltac:(lia)).
  destruct (Z.eqb_spec x y) as [E|E].
  { exists y. split; [reflexivity|]. cut (next_towards t x y (sy + b)); [now rewrite <- Ey|]. apply G; auto; try lia; rewrite <- Ex, <- Ey, <- E; intros; lia. }
  destruct (Z.eqb_spec a 0) as [Za|Na]; cbn [andb].
  - destruct (Z.eqb_spec b 0) as [Zb|Nb].
    + exists y. split; [reflexivity|]. cut (next_towards t x y (sy + b)); [now rewrite <- Ey|]. assert (UA' : units t (sx + a) = 0) by (rewrite UA, Za, size_0; destruct (sx =? 0); lia). assert (UB' : units t (sy + b) = 0) by (rewrite UB, Zb, size_0; destruct (sy =? 0); lia). apply G; auto; try lia; rewrite UA', UB'; intros; lia.
    + exists (sy + 1). split. { cbn [bind]. f_equal. f_equal. destruct Sy as [-> | ->]; reflexivity. }
      assert (U1 := UP sy 1 Sy ltac:(lia)).
      assert (S1 : size_of t 1 <= size_of t b) by (destruct (SI 1 b ltac:(lia) ltac:(lia)) as [I1 I2]; destruct (Z.eq_dec b 1) as [-> |]; lia). assert (S1' : 0 < size_of t 1) by (destruct (S0 1); lia).
      assert (B0 : 0 < size_of t b) by lia.
      assert (UZ : units t (sx + a) = 0) by (rewrite UA, Za, size_0; destruct (sx =? 0); lia).
      assert (LE : forall d, 0 <= d -> 0 < size_of t d -> size_of t 1 <= size_of t d). { intros d Hd P. destruct (SI 1 d ltac:(lia) ltac:(lia)) as [I1 I2]. destruct (Z.eq_dec d 0) as [-> |]; [rewrite size_0 in P; lia|]. destruct (Z.eq_dec d 1) as [-> |]; lia. }
      apply G; auto; try lia; rewrite UZ, UB, ?U1; destruct (Z.eqb_spec sy 0) as [Es|Es]; intros; try lia; (split; [lia|]); intros s' d Hs' Hd; rewrite (UP s' d Hs' Hd); pose proof (LE d ltac:(lia)); pose proof (S0 d ltac:(lia)); destruct (s' =? 0); lia.
  - assert (A0 : 0 < size_of t a) by (destruct (S0 a ltac:(lia)); lia).
    assert (LEd : forall d, 0 <= d -> size_of t d < size_of t a -> size_of t d <= size_of t (a - 1)). { intros d Hd P. destruct (SI d a ltac:(lia) ltac:(lia)) as [I1 I2]. destruct (SI d (a - 1) ltac:(lia) ltac:(lia)) as [I3 I4]. destruct (Z.eq_dec d (a - 1)) as [-> |]; lia. }
    assert (LEu : forall d, 0 <= d -> size_of t a < size_of t d -> size_of t (a + 1) <= size_of t d). { intros d Hd P. destruct (SI a d ltac:(lia) ltac:(lia)) as [I1 I2]. destruct (SI (a + 1) d ltac:(lia) ltac:(lia)) as [I3 I4]. destruct (Z.eq_dec d (a + 1)) as [-> |]; lia. }
    assert (Dn : size_of t (a - 1) < size_of t a) by (apply SI; lia). assert (Upp : size_of t a < size_of t (a + 1)) by (apply SI; lia). assert (D0 : 0 <= size_of t (a - 1)) by (destruct (S0 (a - 1)); lia).
    destruct (S0 b ltac:(lia)) as [B0 _]. destruct (SI a b ltac:(lia) ltac:(lia)) as [I1 I2]. destruct (SI b a ltac:(lia) ltac:(lia)) as [I3 I4].
    destruct ((b <? a) || negb (sx =? sy)) eqn:C.
    + exists (x - 1). unfold u16. replace ((0 <=? x - 1) && (x - 1 <? 65536)) with true by (clear - Ex Sx Bx Na; lia). split; [reflexivity|]. replace (x - 1) with (sx + (a - 1)) by (clear - Ex; lia).
      assert (U1 := UP sx (a - 1) Sx ltac:(clear - Bx NX Na; lia)). pose proof (LEd b ltac:(clear - By; lia)) as Lb.
      assert (K : (sx = sy /\ size_of t b <= size_of t (a - 1)) \/ sx <> sy) by (clear - C Lb I3; lia). clear C Lb I1 I2 I3 I4.
      assert (Hc : 0 <= a - 1 <= exponent_mask t) by (clear - Bx NX Na; lia). clear - G UA UB U1 UP LEd S0 K A0 Dn D0 B0 Hc Sx Sy.
      apply G; [exact Sx|exact Hc|auto| | |]; rewrite UA, UB, ?U1; clear G UA UB U1.
      * intro L. split; [clear UP LEd S0; destruct Sx as [-> | ->], Sy as [-> | ->]; cbn [Z.eqb Pos.eqb] in *; lia|]. intros s' d Hs' Hd. rewrite (UP s' d Hs' Hd). pose proof (LEd d (proj1 Hd)). pose proof (S0 d (proj1 Hd)). clear UP LEd S0.
        destruct Sx as [-> | ->], Sy as [-> | ->], Hs' as [-> | ->]; cbn [Z.eqb Pos.eqb] in *; lia.
      * intro L. split; [clear UP LEd S0; destruct Sx as [-> | ->], Sy as [-> | ->]; cbn [Z.eqb Pos.eqb] in *; lia|]. intros s' d Hs' Hd. rewrite (UP s' d Hs' Hd). pose proof (LEd d (proj1 Hd)). pose proof (S0 d (proj1 Hd)). clear UP LEd S0.
        destruct Sx as [-> | ->], Sy as [-> | ->], Hs' as [-> | ->]; cbn [Z.eqb Pos.eqb] in *; lia.
      * intro L. clear UP LEd S0. destruct Sx as [-> | ->], Sy as [-> | ->]; cbn [Z.eqb Pos.eqb] in *; lia.
    + assert (L : a < b /\ sx = sy) by (clear - C E Ex Ey; lia). destruct L as [L <-]. exists (x + 1). unfold u16. replace ((0 <=? x + 1) && (x + 1 <? 65536)) with true by (clear - Ex Sx L Bx By; lia). split; [reflexivity|]. replace (x + 1) with (sx + (a + 1)) by (clear - Ex; lia).
      assert (U1 := UP sx (a + 1) Sx ltac:(clear - Bx NY L; lia)). pose proof (LEu b ltac:(clear - By; lia)) as Lb.
      assert (K : size_of t (a + 1) <= size_of t b) by (clear - L Lb I1; lia). clear C Lb I1 I2 I3 I4.
      assert (Hc : 0 <= a + 1 <= exponent_mask t) by (clear - Bx NY L; lia). clear - G UA UB U1 UP LEu S0 K A0 Upp B0 Hc Sx.
      apply G; [exact Sx|exact Hc|auto| | |]; rewrite UA, UB, ?U1; clear G UA UB U1.
      * intro L. split; [clear UP LEu S0; destruct Sx as [-> | ->]; cbn [Z.eqb Pos.eqb] in *; lia|]. intros s' d Hs' Hd. rewrite (UP s' d Hs' Hd). pose proof (LEu d (proj1 Hd)). pose proof (S0 d (proj1 Hd)). clear UP LEu S0.
        destruct Sx as [-> | ->], Hs' as [-> | ->]; cbn [Z.eqb Pos.eqb] in *; lia.
      * intro L. split; [clear UP LEu S0; destruct Sx as [-> | ->]; cbn [Z.eqb Pos.eqb] in *; lia|]. intros s' d Hs' Hd. rewrite (UP s' d Hs' Hd). pose proof (LEu d (proj1 Hd)). pose proof (S0 d (proj1 Hd)). clear UP LEu S0.
        destruct Sx as [-> | ->], Hs' as [-> | ->]; cbn [Z.eqb Pos.eqb] in *; lia.
      * intro L. clear UP LEu S0. destruct Sx as [-> | ->]; cbn [Z.eqb Pos.eqb] in *; lia. Qed.
Lemma l_nextafter_nan : forall t x y, pattern x -> pattern y -> nan t x \/ nan t y -> nextafter t x y = Ok None.
Proof. intros t x y Px Py H. unfold nextafter. replace (is_nan_bits t x || is_nan_bits t y) with true; [reflexivity|]. symmetry. apply orb_true_iff. destruct H as [H|H]; [left|right]; now apply nan_eq. Qed.
Lemma l_nextafter_back : forall t x y r, pattern x -> pattern y -> ~ nan t x -> ~ nan t y -> units t x <> units t y -> nextafter t x y = Ok (Some r) ->
  exists r', nextafter t r x = Ok (Some r') /\ units t r' = units t x.
Proof. intros t x y r Px Py Nx Ny D E. destruct (l_nextafter t x y Px Py Nx Ny) as (r0 & E0 & Pr & Nr & U & L & _). rewrite E in E0. injection E0 as <-.
  destruct (l_nextafter t r x Pr Px Nr Nx) as (r' & E' & Pr' & Nr' & U' & L' & _). exists r'. split; [exact E'|].
  destruct (Z.lt_trichotomy (units t x) (units t y)) as [H|[H|H]]; [|contradiction|].
  - destruct (U H) as [B M]. destruct (L' ltac:(lia)) as [B' _]. specialize (M r' Pr' Nr'). lia.
  - destruct (L H) as [B M]. destruct (U' ltac:(lia)) as [B' _]. specialize (M r' Pr' Nr'). lia. Qed.
Lemma l_nextafter_reaches : forall t x y, pattern x -> pattern y -> ~ nan t x -> ~ nan t y -> exists n, repeated n (fun u => nextafter t u y) x = Ok (Some y).
Proof. intros t x y Px Py Nx Ny. remember (Z.to_nat (Z.abs (units t y - units t x))) as k eqn:Hk. revert x Px Nx Hk. induction k as [k IH] using lt_wf_ind. intros x Px Nx Hk.
  destruct (l_nextafter t x y Px Py Nx Ny) as (r & E & Pr & Nr & U & L & Q). destruct (Z.lt_trichotomy (units t x) (units t y)) as [H|[H|H]].
  - destruct (U H) as [B _]. destruct (IH (Z.to_nat (Z.abs (units t y - units t r))) ltac:(lia) r Pr Nr eq_refl) as [n Hn]. exists (S n). cbn [repeated]. rewrite E. exact Hn.
  - exists 1%nat. cbn [repeated]. rewrite E. now rewrite (Q H).
  - destruct (L H) as [B _]. destruct (IH (Z.to_nat (Z.abs (units t y - units t r))) ltac:(lia) r Pr Nr eq_refl) as [n Hn]. exists (S n). cbn [repeated]. rewrite E. exact Hn. Qed.
