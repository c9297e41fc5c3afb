(** The operations of the model on real numbers, and arange. *)
From Coq Require Import ZArith Reals List Lia Lra Bool.
From Flocq Require Import Core Relative BinarySingleNaN.
From Verif Require Import Base P_ArangeFloat M_Float Spec_Float.
Import ListNotations.
Local Open Scope R_scope.

Notation fexpt t := (FLT_exp (3 - emax t - prec t) (prec t)).
Notation rnd t := (round radix2 (fexpt t) ZnearestE).
#[export] Instance inst_prec t : Prec_gt_0 (prec t) := prec_ok t.
#[export] Instance inst_emax t : Prec_lt_emax (prec t) (emax t) := emax_ok t.
Lemma prec_range t : (3 <= prec t <= 53)%Z. Proof. destruct t; cbn; lia. Qed.
Lemma emax_range t : (prec t < emax t)%Z /\ (emax t <= 1024)%Z. Proof. destruct t; cbn; lia. Qed.
Lemma val_format t (x : float t) : generic_format radix2 (fexpt t) (val x). Proof. apply (generic_format_B2R (prec t) (emax t)). Qed.
Lemma format_64 t (x : R) : generic_format radix2 (fexpt t) x -> generic_format radix2 fexp64 x.
Proof. apply generic_inclusion_mag. intros _. destruct t; unfold FLT_exp; cbn [emax prec]; lia. Qed.
Lemma val_format64 t (x : float t) : generic_format radix2 fexp64 (val x). Proof. apply (format_64 t), val_format. Qed.
Lemma rnd_bound t k x : (3 - emax t - prec t <= k)%Z -> Rabs x <= two k -> Rabs (rnd t x) <= two k.
Proof. intros Hk H. apply abs_round_le_generic; auto with typeclass_instances. apply generic_format_bpow. unfold FLT_exp. pose proof (prec_range t). lia. Qed.
Lemma two_lt k l : (k < l)%Z -> two k < two l. Proof. apply bpow_lt. Qed.

Ltac noov H := match type of H with if Rlt_bool ?a ?b then _ else _ => rewrite (Rlt_bool_true a b) in H end.
Lemma fadd_val t (x y : float t) : finite x -> finite y -> Rabs (rnd t (val x + val y)) < two (emax t) -> val (fadd x y) = rnd t (val x + val y) /\ finite (fadd x y).
Proof. intros Fx Fy H. pose proof (@Bplus_correct (prec t) (emax t) _ _ mode_NE x y Fx Fy) as C. noov C; [|exact H]. destruct C as (C1 & C2 & _). split; [exact C1|exact C2]. Qed.
Lemma fsub_val t (x y : float t) : finite x -> finite y -> Rabs (rnd t (val x - val y)) < two (emax t) -> val (fsub x y) = rnd t (val x - val y) /\ finite (fsub x y).
Proof. intros Fx Fy H. pose proof (@Bminus_correct (prec t) (emax t) _ _ mode_NE x y Fx Fy) as C. noov C; [|exact H]. destruct C as (C1 & C2 & _). split; [exact C1|exact C2]. Qed.
Lemma fmul_val t (x y : float t) : finite x -> finite y -> Rabs (rnd t (val x * val y)) < two (emax t) -> val (fmul x y) = rnd t (val x * val y) /\ finite (fmul x y).
Proof. intros Fx Fy H. pose proof (@Bmult_correct (prec t) (emax t) _ _ mode_NE x y) as C. noov C; [|exact H]. destruct C as (C1 & C2 & _). split; [exact C1|]. unfold finite in *. rewrite Fx, Fy in C2. exact C2. Qed.
Lemma fdiv_val t (x y : float t) : finite x -> val y <> 0 -> Rabs (rnd t (val x / val y)) < two (emax t) -> val (fdiv x y) = rnd t (val x / val y) /\ finite (fdiv x y).
Proof. intros Fx Fy H. pose proof (@Bdiv_correct (prec t) (emax t) _ _ mode_NE x y Fy) as C. noov C; [|exact H]. destruct C as (C1 & C2 & _). split; [exact C1|]. unfold finite in *. rewrite Fx in C2. exact C2. Qed.
Lemma of_int_val t z : Rabs (rnd t (IZR z)) < two (emax t) -> val (of_int z : float t) = rnd t (IZR z) /\ finite (of_int z : float t).
Proof. intro H. pose proof (@binary_normalize_correct (prec t) (emax t) _ _ mode_NE z 0 false) as C. cbv zeta in C. replace (F2R {| Fnum := z; Fexp := 0 |}) with (IZR z) in C by (unfold F2R; cbn; ring). noov C; [|exact H]. destruct C as (C1 & C2 & _). split; [exact C1|exact C2]. Qed.
Lemma flt_val t (x y : float t) : finite x -> finite y -> flt x y = Rlt_bool (val x) (val y). Proof. apply Bltb_correct. Qed.
Lemma fle_val t (x y : float t) : finite x -> finite y -> fle x y = Rle_bool (val x) (val y). Proof. apply Bleb_correct. Qed.
Lemma feq_val t (x y : float t) : finite x -> finite y -> feq x y = Req_bool (val x) (val y). Proof. apply Beqb_correct. Qed.
Lemma fceil_val t (x : float t) : val (fceil x) = IZR (Zceil (val x)) /\ is_finite (fceil x) = is_finite x.
Proof. destruct (@Bnearbyint_correct (prec t) (emax t) _ mode_UP x) as (C1 & C2 & _). split; [|exact C2]. etransitivity; [exact C1|]. cbn [round_mode]. now rewrite round_FIX_IZR. Qed.
Lemma convert_val s t (x : float s) : finite x -> Rabs (rnd t (val x)) < two (emax t) -> val (convert s t x) = rnd t (val x) /\ finite (convert s t x).
Proof. intros F H. unfold finite in F. destruct x as [b|b| |b m k Hb]; try discriminate.
  - split; [|reflexivity]. unfold val; cbn. symmetry. apply round_0. auto with typeclass_instances.
  - cbn [convert]. pose proof (@binary_normalize_correct (prec t) (emax t) _ _ mode_NE (cond_Zopp b (Zpos m)) k b) as C. cbv zeta in C. noov C; [|exact H]. destruct C as (C1 & C2 & _). split; [exact C1|exact C2]. Qed.
Lemma val_lt t (x : float t) : Rabs (val x) < two (emax t). Proof. apply (@abs_B2R_lt_emax (prec t) (emax t)). Qed.
Lemma rnd_id t x : generic_format radix2 (fexpt t) x -> rnd t x = x. Proof. apply round_generic; auto with typeclass_instances. Qed.
Lemma rnd_le t x y : x <= y -> rnd t x <= rnd t y. Proof. apply round_le; auto with typeclass_instances. Qed.
Lemma rnd_opp t x : rnd t (- x) = - rnd t x. Proof. apply round_NE_opp. Qed.
Lemma to64 t (x : float t) : finite x -> val (convert t F64 x) = val x /\ finite (convert t F64 x).
Proof. intro F. assert (E : rnd F64 (val x) = val x) by (apply rnd_id, val_format64). destruct (convert_val t F64 x F) as [C1 C2].
  - rewrite E. eapply Rlt_le_trans; [apply val_lt|]. apply bpow_le. pose proof (emax_range t). cbn; lia.
  - rewrite E in C1. auto. Qed.
Lemma int_val t z : (Z.abs z <= 2 ^ prec t)%Z -> val (of_int z : float t) = IZR z /\ finite (of_int z : float t).
Proof. intro H. assert (G : generic_format radix2 (fexpt t) (IZR z)).
  { destruct (Z.eq_dec (Z.abs z) (2 ^ prec t)) as [E|E].
    - assert (G : generic_format radix2 (fexpt t) (bpow radix2 (prec t))) by (apply generic_format_bpow; destruct t; cbn; lia). rewrite <- IZR_Zpower in G by (destruct t; cbn; lia). change (Zpower radix2 (prec t)) with (2 ^ prec t)%Z in G. destruct (Z.abs_spec z) as [[_ S]|[_ S]]; rewrite S in E.
      + now rewrite E.
      + replace z with (- 2 ^ prec t)%Z by lia. rewrite opp_IZR. now apply generic_format_opp.
    - apply generic_format_FLT. exists (Float radix2 z 0); cbn; [unfold F2R; cbn; ring| |destruct t; cbn; lia]. change (radix2 ^ prec t)%Z with (2 ^ prec t)%Z. lia. }
  destruct (of_int_val t z) as [C1 C2]; rewrite (rnd_id t _ G) in *; auto.
  apply Rle_lt_trans with (two (prec t)); [|apply two_lt, emax_range]. rewrite <- abs_IZR. unfold two. rewrite <- IZR_Zpower by (destruct t; cbn; lia). now apply IZR_le. Qed.
Lemma to_usize_val (x : float F64) : finite x -> to_usize (fceil x) = if (-1 <? Zceil (val x))%Z && (Zceil (val x) <? 2 ^ 64)%Z then Some (Zceil (val x)) else None.
Proof. intro F. destruct (fceil_val F64 x) as [C1 C2]. unfold to_usize. destruct (int_val F64 (-1)) as [A1 A2]; [cbn; lia|]. assert (B : val (of_int (2 ^ 64) : float F64) = IZR (2 ^ 64) /\ finite (of_int (2 ^ 64) : float F64)).
  { assert (E : rnd F64 (IZR (2 ^ 64)) = IZR (2 ^ 64)). { apply rnd_id. change (IZR (2 ^ 64)) with (bpow radix2 64). apply generic_format_bpow. cbn. lia. } destruct (of_int_val F64 (2 ^ 64)) as [D1 D2]; rewrite E in *; auto. rewrite Rabs_pos_eq by (apply IZR_le; lia). change (IZR (2 ^ 64)) with (two 64). apply two_lt. cbn; lia. }
  destruct B as [B1 B2]. assert (FC : finite (fceil x)) by (unfold finite in *; congruence). rewrite !flt_val, A1, B1, C1 by auto.
  assert (forall a b, Rlt_bool (IZR a) (IZR b) = (a <? b)%Z) as L. { intros a b. destruct (Z.ltb_spec a b); [apply Rlt_bool_true; now apply IZR_lt|apply Rlt_bool_false; now apply IZR_le]. }
  rewrite !L. destruct (_ && _); auto. f_equal. apply eq_IZR. rewrite Btrunc_correct by exact (emax_ok F64). rewrite round_FIX_IZR. fold (@val F64 (fceil x)). now rewrite C1, Ztrunc_IZR. Qed.
Lemma to_usize_inf (x : float F64) : is_finite x = false -> to_usize x = None.
Proof. destruct x as [| [|] | |]; cbn; intro H; try discriminate; reflexivity. Qed.
