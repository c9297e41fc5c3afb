(** Property lemmas about element types (C79-C81) *)
From Coq Require Import QArith Qpower Qround SpecFloat.
From Verif Require Import Base Spec Spec_DType M_Layout M_Kernel M_Tensor M_Binary M_DType P_Float P_Tensor Q_Tensor.
Local Open Scope Z_scope.

(** * Conversion of representable values *)
Lemma same_ext_refl x : same_ext x x. Proof. destruct x; cbn; auto. reflexivity. Qed.
Lemma same_ext_sym x y : same_ext x y -> same_ext y x. Proof. destruct x, y; cbn; auto. now symmetry. Qed.
Lemma same_ext_trans x y z : same_ext x y -> same_ext y z -> same_ext x z.
Proof. destruct x, y, z; cbn; try tauto. intros A B. now rewrite A. Qed.
Lemma int_float_exact p m z y b : valid_binary p m y = true -> same_ext (Fin (inject_Z z)) (float_value y) -> valid_binary p m (binary_normalize p m z 0 b) = true /\ same_ext (Fin (inject_Z z)) (float_value (binary_normalize p m z 0 b)).
Proof. intros V H. destruct y as [s|[]| |s k e]; try contradiction.
  - cbn [float_value same_ext] in H. assert (z = 0) by (unfold Qeq, inject_Z in H; cbn in H; lia). subst z. split; reflexivity.
  - assert (N : binary_normalize p m z 0 b = S754_finite s k e). { apply normalize_exact; [exact V|]. cbn [float_value same_ext] in H. now apply dyadic_int in H. }
    rewrite N. split; assumption. Qed.
Lemma float_float_exact p m x y : valid_binary p m y = true -> same_ext (float_value x) (float_value y) -> valid_binary p m (float_to_float p m x) = true /\ same_ext (float_value x) (float_value (float_to_float p m x)).
Proof. intros V H. destruct x as [s|[]| |s k e]; try (split; [reflexivity|apply same_ext_refl]). cbn [float_to_float]. destruct y as [s'|[]| |s' k' e']; try contradiction.
  - exfalso. cbn [float_value same_ext] in H. pose proof (sgn_pos_value k e) as A. destruct s; [pose proof (neg_value_neg k e) as B|]; [rewrite H in B; exact (Qlt_irrefl _ B)|rewrite H in A; exact (Qlt_irrefl _ A)].
  - assert (N : binary_normalize p m (if s then Zneg k else Zpos k) e s = S754_finite s' k' e') by (apply normalize_exact; [exact V|exact H]). rewrite N. split; assumption. Qed.
Lemma to_float_exact p m v y : (forall a b, v <> Ncomplex a b) -> valid_binary p m y = true -> same_ext (real v) (float_value y) -> valid_binary p m (to_float p m v) = true /\ same_ext (real v) (float_value (to_float p m v)).
Proof. intros N V H. destruct v as [b|z|x|a b]; cbn [to_float real value fst] in *.
  - assert (E : same_ext (Fin (if b then 1 else 0)%Q) (Fin (inject_Z (if b then 1 else 0)))) by now destruct b. apply same_ext_sym in E. destruct (int_float_exact p m (if b then 1 else 0) y false V) as [A B]; [eapply same_ext_trans; eauto|].
    split; [exact A|]. eapply same_ext_trans; [apply same_ext_sym, E|exact B].
  - now apply (int_float_exact p m z y false).
  - now apply (float_float_exact p m x y).
  - now destruct (N a b). Qed.
Lemma trunc_exact s m e z : (inject_Z (sgn s m) * (2 # 1) ^ e == inject_Z z)%Q -> truncated s m e = z.
Proof. intros H. symmetry in H. apply dyadic_int in H. symmetry in H. apply dyadic_eq in H as [H1 H2]. unfold truncated. destruct (Z.leb_spec 0 e) as [L|L].
  - specialize (H1 L). rewrite Z.sub_0_r in H1. destruct s; cbn [sgn] in H1; [change (Zneg m) with (- Zpos m) in H1|]; lia.
  - specialize (H2 ltac:(lia)). rewrite Z.sub_0_l in H2. assert (P : 0 < 2 ^ (- e)) by (apply Z.pow_pos_nonneg; lia). destruct s; cbn [sgn] in H2.
    + assert (E : Zpos m = (- z) * 2 ^ (- e)) by (change (Zneg m) with (- Zpos m) in H2; lia). rewrite E, Z.div_mul by lia. lia.
    + rewrite H2, Z.div_mul by lia. reflexivity. Qed.
Lemma sgn_nonzero s m e : ~ (inject_Z (sgn s m) * (2 # 1) ^ e == 0)%Q.
Proof. intros H. destruct s; [pose proof (neg_value_neg m e) as A|pose proof (sgn_pos_value m e) as A]; cbn [sgn] in H; rewrite H in A; exact (Qlt_irrefl _ A). Qed.
Lemma nonzero_float_iff x : nonzero_float x = true <-> ~ same_ext (float_value x) (Fin 0).
Proof. unfold nonzero_float, SFeqb. destruct x as [s|[]| |[] m e]; cbn [SFcompare negb float_value same_ext]; split; intros H; try discriminate; try reflexivity; try (intros X; exact X).
  - exfalso. apply H. reflexivity.
  - apply (sgn_nonzero true).
  - apply (sgn_nonzero false). Qed.

Lemma l_convert : forall a t v, has_type a v -> (is_complex a = true -> is_complex t = true \/ t = Tbool) -> representable t v -> has_type t (convert t v) /\ same_value v (convert t v).
Proof. intros a t v Ha C (w & Hw & S1 & S2). unfold convert. destruct (int_range t) as [[lo hi]|] eqn:I.
  - assert (F : float_format t = None) by (destruct t; try discriminate I; reflexivity). assert (Ic : is_complex t = false) by (destruct t; try discriminate I; reflexivity).
    destruct w as [b|z|x|x y]; cbn [has_type] in Hw; [subst; discriminate I| |destruct Hw as (_ & p & m & X & _); congruence|destruct Hw as (_ & p & m & X & _); congruence].
    destruct Hw as (lo' & hi' & I' & R). rewrite I in I'. injection I' as <- <-. cbn [value fst snd] in S1, S2.
    assert (R01 : lo <= 0 /\ 1 <= hi) by (destruct t; try discriminate I; injection I as <- <-; lia).
    destruct v as [b|z'|x|x y].
    + split; [exists lo, hi; split; [exact I|destruct b; lia]|]. split; [destruct b; reflexivity|reflexivity].
    + cbn [value fst same_ext] in S1. assert (z' = z) by (unfold Qeq, inject_Z in S1; cbn in S1; lia). subst z'. assert (Wz : wrap lo hi z = z) by (unfold wrap; rewrite Z.mod_small; lia).
      rewrite Wz. split; [exists lo, hi; auto|split; apply same_ext_refl].
    + assert (E : float_to_int lo hi x = z).
      { cbn [value fst] in S1. destruct x as [s|[]| |s m e]; try contradiction; cbn [float_value same_ext] in S1; cbn [float_to_int].
        - unfold Qeq, inject_Z in S1. cbn in S1. lia.
        - rewrite (trunc_exact s m e z S1). lia. }
      rewrite E. split; [exists lo, hi; auto|]. split; assumption.
    + exfalso. cbn [has_type] in Ha. destruct Ha as [Ha _]. destruct (C Ha) as [X|X]; [congruence|subst; discriminate I].
  - destruct (float_format t) as [[p m]|] eqn:F.
    + destruct (is_complex t) eqn:Ic.
      * destruct w as [b|z|x|x y]; cbn [has_type] in Hw; [subst; discriminate F|destruct Hw as (? & ? & X & _); congruence|destruct Hw as (X & _); congruence|].
        destruct Hw as (_ & p' & m' & F' & Vx & Vy). rewrite F in F'. injection F' as <- <-. cbn [value fst snd] in S1, S2.
        assert (Z0 : int_to_float p m 0 = S754_zero false) by reflexivity.
        destruct v as [b|z|x'|x' y']; [| | |].
        -- destruct (to_float_exact p m (Nbool b) x) as [A B]; [discriminate|exact Vx|exact S1|]. split; [split; [exact Ic|exists p, m; auto]|]. split; [exact B|reflexivity].
        -- destruct (to_float_exact p m (Nint z) x) as [A B]; [discriminate|exact Vx|exact S1|]. split; [split; [exact Ic|exists p, m; auto]|]. split; [exact B|reflexivity].
        -- destruct (to_float_exact p m (Nfloat x') x) as [A B]; [discriminate|exact Vx|exact S1|]. split; [split; [exact Ic|exists p, m; auto]|]. split; [exact B|reflexivity].
        -- cbn [value fst snd] in S1, S2. destruct (float_float_exact p m x' x Vx S1) as [A B], (float_float_exact p m y' y Vy S2) as [A' B']. split; [split; [exact Ic|exists p, m; auto]|]. split; assumption.
      * destruct w as [b|z|x|x y]; cbn [has_type] in Hw; [subst; discriminate F|destruct Hw as (? & ? & X & _); congruence| |destruct Hw as (X & _); congruence].
        destruct Hw as (_ & p' & m' & F' & Vx). rewrite F in F'. injection F' as <- <-. cbn [value fst snd] in S1, S2.
        destruct (to_float_exact p m v x) as [A B]; [|exact Vx|exact S1|].
        { intros u w' ->. cbn [has_type] in Ha. destruct Ha as [Ha _]. destruct (C Ha) as [X|X]; [congruence|subst; discriminate F]. }
        split; [split; [exact Ic|exists p, m; auto]|]. split; [exact B|]. exact S2.
    + assert (t = Tbool) by (destruct t; try discriminate I; try discriminate F; reflexivity). subst t. split; [reflexivity|].
      destruct w as [b|z|x|x y]; cbn [has_type] in Hw; [|destruct Hw as (? & ? & X & _); discriminate|destruct Hw as (_ & p & m & X & _); discriminate|destruct Hw as (X & _); discriminate].
      cbn [value fst snd] in S1, S2. split; [|exact S2]. cbn [value fst]. eapply same_ext_trans; [exact S1|]. clear C Ha Hw.
      assert (B01 : forall q, (q = true <-> ~ same_ext (Fin (if b then 1 else 0)%Q) (Fin 0)) -> same_ext (Fin (if b then 1 else 0)%Q) (Fin (if q then 1 else 0)%Q)).
      { intros q H. destruct b, q; try reflexivity; exfalso.
        - destruct H as [_ H]. assert (false = true); [apply H; discriminate|discriminate].
        - destruct H as [H _]. apply H; reflexivity. }
      apply B01. clear B01. destruct v as [b'|z|x|x y]; cbn [value fst snd] in S1, S2.
      * destruct b, b'; cbn; split; intros; try discriminate; try reflexivity; try (exfalso; now apply H); try discriminate S1.
      * cbn [same_ext] in *. rewrite <- S1. unfold Qeq, inject_Z. cbn. lia.
      * rewrite nonzero_float_iff. split; intros H X; apply H; [eapply same_ext_trans; eauto|eapply same_ext_trans; [apply same_ext_sym, S1|exact X]].
      * assert (N : nonzero_float y = false). { destruct (nonzero_float y) eqn:N; [|reflexivity]. apply nonzero_float_iff in N. now destruct N. }
        rewrite N, orb_false_r, nonzero_float_iff. split; intros H X; apply H; [eapply same_ext_trans; eauto|eapply same_ext_trans; [apply same_ext_sym, S1|exact X]]. Qed.

(** * Promotion *)
Lemma promote_complex a b r : promote a b = Some r -> (is_complex a = true \/ is_complex b = true) -> is_complex r = true.
Proof. destruct a, b; vm_compute; intros [= <-] []; congruence. Qed.
Lemma l_promote_defined : forall a b, promote a b = None <-> In (a, b) [(Ti8, Ti16); (Tusize, Tisize); (Tisize, Tusize)].
Proof. intros a b. destruct a, b; vm_compute; split; intros H; try discriminate; try tauto; repeat (destruct H as [H|H]; try discriminate H); now destruct H. Qed.
Lemma l_promote_comm_partial : forall a b r, promote a b = Some r -> promote b a = None \/ promote b a = Some r.
Proof. intros a b r. destruct a, b; vm_compute; intros [= <-]; auto. Qed.
Lemma l_promote_comm_refuted : exists a b r, promote a b = Some r /\ promote b a = None.
Proof. exists Ti16, Ti8, Ti16. split; reflexivity. Qed.
Lemma l_promote_same : forall a, promote a a = Some a /\ promote Tbool a = Some a /\ promote a Tbool = Some a.
Proof. intros a. destruct a; repeat split. Qed.
Lemma l_promote_assoc_refuted : exists a b c ab bc l r, promote a b = Some ab /\ promote ab c = Some l /\ promote b c = Some bc /\ promote a bc = Some r /\ l <> r.
Proof. exists Ti8, Tu16, Tf32, Ti32, Tf32, Tf64, Tf32. repeat split. discriminate. Qed.
Lemma l_cast_defined : forall a t, castable a t = false <-> In (a, t) [(Ti8, Ti16); (Tusize, Tisize); (Tisize, Tusize)] \/ (is_complex a = true /\ is_complex t = false /\ t <> Tbool).
Proof. intros a t. destruct a, t; vm_compute; split; intros H; try discriminate H; try tauto; try (right; repeat split; discriminate);
  destruct H as [H|(H1 & H2 & H3)]; try discriminate; try congruence; repeat (destruct H as [H|H]; try discriminate H); now destruct H. Qed.
Lemma l_cast_exact : forall a t v, castable a t = true -> has_type a v -> representable t v -> has_type t (convert t v) /\ same_value v (convert t v).
Proof. intros a t v C Ha R. apply (l_convert a t v Ha); [|exact R]. intros Ic. destruct a; try discriminate Ic; destruct t; auto; vm_compute in C; discriminate C. Qed.
Lemma l_promote_exact : forall a b r v w, promote a b = Some r -> has_type a v -> has_type b w -> representable r v -> representable r w ->
  exists v' w', promote_pair a b v w = Some (v', w') /\ has_type r v' /\ has_type r w' /\ same_value v v' /\ same_value w w'.
Proof. intros a b r v w P Hv Hw Rv Rw. unfold promote_pair. rewrite P. cbn [option_map]. exists (convert r v), (convert r w). split; [reflexivity|].
  destruct (l_convert a r v Hv) as [A B]; [intros I; left; now apply (promote_complex a b r P), or_introl|exact Rv|].
  destruct (l_convert b r w Hw) as [A' B']; [intros I; left; now apply (promote_complex a b r P), or_intror|exact Rw|]. auto. Qed.

(** which values are representable after promotion *)
Definition within (a r : dtype) : bool :=
  match int_range a with
  | Some (lo, hi) => match int_range r, float_format r with
    | Some (lo', hi'), _ => (lo' <=? lo) && (hi <=? hi')
    | _, Some (p, _) => (p =? 53) || ((- 2 ^ 24 <? lo) && (hi <? 2 ^ 24))
    | _, _ => false
    end
  | None => match float_format a, float_format r with
    | Some (p, _), Some (p', _) => (p <=? p') && implb (is_complex a) (is_complex r)
    | None, _ => true
    | _, _ => false
    end
  end.
Lemma promote_within a b r : promote a b = Some r -> within a r = true /\ within b r = true.
Proof. intros H. destruct a, b; vm_compute in H; try discriminate H; injection H as <-; split; reflexivity. Qed.
Lemma dyadic_representable p mx m e : 0 < p -> 2 <= mx -> Zpos (digits2_pos m) <= p -> emin p mx <= e -> Zpos (digits2_pos m) + e <= mx ->
  exists m' e', bounded p mx m' e' = true /\ (inject_Z (Zpos m) * (2 # 1) ^ e == inject_Z (Zpos m') * (2 # 1) ^ e')%Q.
Proof. intros P M D L U. set (e' := fexp p mx (Zpos (digits2_pos m) + e)). assert (E : e' <= e) by (unfold e', fexp; lia).
  assert (Pm : 0 < Zpos m * 2 ^ (e - e')) by (apply Z.mul_pos_pos; [lia|apply Z.pow_pos_nonneg; lia]). destruct (Zpos m * 2 ^ (e - e')) as [|m'|m'] eqn:Em; try lia. exists m', e'. split.
  - pose proof (digits_mul_pow m (e - e') ltac:(lia)) as Dm. rewrite Em in Dm. cbn [Zdigits2] in Dm. unfold bounded, canonical_mantissa. rewrite Dm. replace (Zpos (digits2_pos m) + (e - e') + e') with (Zpos (digits2_pos m) + e) by lia.
    fold e'. apply andb_true_iff. split; [now apply Zeq_is_eq_bool|]. apply Z.leb_le. unfold e', fexp, emin in *. lia.
  - rewrite <- Em, inject_Z_mult. replace e with ((e - e') + e') at 1 by lia. rewrite (Qpower_plus (2 # 1) (e - e') e') by (intro X; discriminate X). rewrite Zpower_Qpower by lia. change (inject_Z 2) with (2 # 1)%Q. rewrite !Qmult_assoc. reflexivity. Qed.
Lemma float_representable p mx p' mx' x : 0 < p -> 2 <= mx' -> p <= p' -> emin p' mx' <= emin p mx -> mx <= mx' -> valid_binary p mx x = true -> exists y, valid_binary p' mx' y = true /\ same_ext (float_value x) (float_value y).
Proof. intros P M Lp Le Lm V. destruct x as [s|s| |s m e]; [exists (S754_zero s)|exists (S754_infinity s)|exists S754_nan|]; try (split; [reflexivity|apply same_ext_refl]).
  cbn [valid_binary] in V. unfold bounded, canonical_mantissa in V. apply andb_true_iff in V as [V1 V2]. apply Zeq_bool_eq in V1. unfold fexp in V1.
  destruct (dyadic_representable p' mx' m e) as (m' & e' & B & Q); try lia. exists (S754_finite s m' e'). split; [exact B|]. cbn [float_value same_ext].
  destruct s; [rewrite !neg_value; now rewrite Q|exact Q]. Qed.
Lemma pos_representable p mx z : 0 < p -> p < mx -> 0 < z <= 2 ^ p -> exists m e, bounded p mx m e = true /\ (inject_Z z == inject_Z (Zpos m) * (2 # 1) ^ e)%Q.
Proof. intros P M [Z0 Z1]. destruct (Z.eq_dec z (2 ^ p)) as [->|N].
  - destruct (dyadic_representable p mx 1 p) as (m & e & B & Q); try (unfold emin; change (Zpos (digits2_pos 1)) with 1; lia). exists m, e. split; [exact B|]. rewrite <- Q, Zpower_Qpower by lia. change (inject_Z 1) with 1%Q. now rewrite Qmult_1_l.
  - destruct z as [|m|m]; try lia. destruct (dyadic_representable p mx m 0) as (m' & e & B & Q); try (unfold emin; lia).
    + destruct (Z.le_gt_cases (Zpos (digits2_pos m)) p) as [L|L]; [exact L|]. exfalso. pose proof (digits_bounds m) as D. assert (2 ^ p <= 2 ^ (Zpos (digits2_pos m) - 1)) by (apply Z.pow_le_mono_r; lia). lia.
    + pose proof (digits_bounds m) as D. assert (Zpos (digits2_pos m) <= p); [|lia]. destruct (Z.le_gt_cases (Zpos (digits2_pos m)) p) as [L|L]; [exact L|]. exfalso. assert (2 ^ p <= 2 ^ (Zpos (digits2_pos m) - 1)) by (apply Z.pow_le_mono_r; lia). lia.
    + exists m', e. split; [exact B|]. rewrite <- Q. cbn. now rewrite Qmult_1_r. Qed.
Lemma int_representable p mx z : 0 < p -> p < mx -> Z.abs z <= 2 ^ p -> exists y, valid_binary p mx y = true /\ same_ext (Fin (inject_Z z)) (float_value y).
Proof. intros P M H. destruct (Z.lt_trichotomy z 0) as [L|[L|L]].
  - destruct (pos_representable p mx (- z) P M) as (m & e & B & Q); [lia|]. exists (S754_finite true m e). split; [exact B|]. cbn [float_value same_ext]. rewrite neg_value, <- Q. unfold Qeq, inject_Z. cbn. lia.
  - subst. exists (S754_zero false). split; reflexivity.
  - destruct (pos_representable p mx z P M) as (m & e & B & Q); [lia|]. exists (S754_finite false m e). split; [exact B|exact Q]. Qed.
Lemma within_representable a r v : within a r = true -> has_type a v -> (forall z, v = Nint z -> float_format r <> None -> Z.abs z <= 2 ^ 53) -> representable r v.
Proof. intros W H L. unfold within in W.
  assert (Fm : forall p m, float_format r = Some (p, m) -> (p = 24 /\ m = 128) \/ (p = 53 /\ m = 1024)) by (intros p m F; destruct r; try discriminate F; injection F as <- <-; auto).
  destruct v as [b|z|x|x y]; cbn [has_type] in H.
  - subst a. unfold representable. destruct (int_range r) as [[lo hi]|] eqn:I.
    + exists (Nint (if b then 1 else 0)). split; [exists lo, hi; split; [exact I|destruct r; try discriminate I; injection I as <- <-; destruct b; lia]|split; [destruct b; reflexivity|reflexivity]].
    + destruct (float_format r) as [[p m]|] eqn:F.
      * destruct (int_representable p m (if b then 1 else 0)) as (f & V & S); [destruct (Fm p m eq_refl) as [[-> ->]|[-> ->]]; lia|destruct (Fm p m eq_refl) as [[-> ->]|[-> ->]]; lia|destruct (Fm p m eq_refl) as [[-> ->]|[-> ->]]; destruct b; cbn; lia|].
        assert (S' : same_ext (Fin (if b then 1 else 0)%Q) (float_value f)) by (eapply same_ext_trans; [|exact S]; destruct b; reflexivity).
        destruct (is_complex r) eqn:Ic; [exists (Ncomplex f (S754_zero false))|exists (Nfloat f)].
        -- split; [split; [exact Ic|exists p, m; auto]|split; [exact S'|reflexivity]].
        -- split; [split; [exact Ic|exists p, m; auto]|split; [exact S'|reflexivity]].
      * exists (Nbool b). split; [destruct r; try discriminate I; try discriminate F; reflexivity|split; apply same_ext_refl].
  - destruct H as (lo & hi & I & R). rewrite I in W. unfold representable. destruct (int_range r) as [[lo' hi']|] eqn:I'.
    + exists (Nint z). split; [exists lo', hi'; split; [exact I'|lia]|split; apply same_ext_refl].
    + destruct (float_format r) as [[p m]|] eqn:F; [|discriminate]. destruct (int_representable p m z) as (f & V & S); [destruct (Fm p m eq_refl) as [[-> ->]|[-> ->]]; lia|destruct (Fm p m eq_refl) as [[-> ->]|[-> ->]]; lia| |].
      { destruct (Fm p m eq_refl) as [[-> ->]|[-> ->]]; [|apply L; [reflexivity|discriminate]]. apply orb_true_iff in W as [W|W]; [discriminate|]. lia. }
      destruct (is_complex r) eqn:Ic; [exists (Ncomplex f (S754_zero false))|exists (Nfloat f)]; (split; [split; [exact Ic|exists p, m; auto]|split; [exact S|reflexivity]]).
  - destruct H as (Ic & p & m & F & V). assert (I : int_range a = None) by (destruct a; try discriminate F; reflexivity). rewrite I, F in W. destruct (float_format r) as [[p' m']|] eqn:F'; [|discriminate]. apply andb_true_iff in W as [W1 W2].
    assert (Fa : (p = 24 /\ m = 128) \/ (p = 53 /\ m = 1024)) by (destruct a; try discriminate F; injection F as <- <-; auto).
    destruct (float_representable p m p' m' x) as (f & V' & S); auto; try (destruct Fa as [[-> ->]|[-> ->]], (Fm p' m' eq_refl) as [[-> ->]|[-> ->]]; unfold emin; lia).
    destruct (is_complex r) eqn:Ic'; [exists (Ncomplex f (S754_zero false))|exists (Nfloat f)]; (split; [split; [exact Ic'|exists p', m'; auto]|split; [exact S|reflexivity]]).
  - destruct H as (Ic & p & m & F & V1 & V2). assert (I : int_range a = None) by (destruct a; try discriminate F; reflexivity). rewrite I, F in W. destruct (float_format r) as [[p' m']|] eqn:F'; [|discriminate]. apply andb_true_iff in W as [W1 W2]. rewrite Ic in W2.
    assert (Fa : (p = 24 /\ m = 128) \/ (p = 53 /\ m = 1024)) by (destruct a; try discriminate F; injection F as <- <-; auto).
    destruct (float_representable p m p' m' x) as (f & V' & S); auto; try (destruct Fa as [[-> ->]|[-> ->]], (Fm p' m' eq_refl) as [[-> ->]|[-> ->]]; unfold emin; lia).
    destruct (float_representable p m p' m' y) as (g & V'' & S'); auto; try (destruct Fa as [[-> ->]|[-> ->]], (Fm p' m' eq_refl) as [[-> ->]|[-> ->]]; unfold emin; lia).
    exists (Ncomplex f g). split; [split; [exact W2|exists p', m'; auto]|split; assumption]. Qed.
Lemma l_promote_representable : forall a b r t v, promote a b = Some r -> t = a \/ t = b -> has_type t v -> (forall z, v = Nint z -> float_format r <> None -> Z.abs z <= 2 ^ 53) -> representable r v.
Proof. intros a b r t v P [->| ->] H L; destruct (promote_within a b r P) as [A B]; [exact (within_representable a r v A H L)|exact (within_representable b r v B H L)]. Qed.
Lemma l_promote_loss_refuted : exists v w v' w', has_type Ti64 v /\ has_type Ti64 w /\ ~ same_value v w /\ promote_pair Ti64 Tu64 v (Nint 0) = Some (v', Nfloat (S754_zero false)) /\ promote_pair Ti64 Tu64 w (Nint 0) = Some (w', Nfloat (S754_zero false)) /\ v' = w'.
Proof. exists (Nint (2 ^ 53)), (Nint (2 ^ 53 + 1)). do 2 eexists. split; [exists (- 2 ^ 63), (2 ^ 63 - 1); split; [reflexivity|lia]|]. split; [exists (- 2 ^ 63), (2 ^ 63 - 1); split; [reflexivity|lia]|].
  split; [intros [H _]; cbn in H; unfold Qeq, inject_Z in H; cbn in H; lia|]. split; [vm_compute; reflexivity|]. split; vm_compute; reflexivity. Qed.

(** * Comparison *)
Lemma eqb_ext x y p m : 0 < p -> valid_binary p m x = true -> valid_binary p m y = true -> SFeqb x y = true <-> eq_ext (float_value x) (float_value y).
Proof. intros P Vx Vy. unfold SFeqb, eq_ext. rewrite (sfcompare p m x y P Vx Vy). destruct (float_value x) as [a| | |], (float_value y) as [b| | |]; cbn [ext_compare same_ext]; try (split; [discriminate|tauto]); try (split; [split; [discriminate|exact I]|reflexivity]).
  rewrite Qeq_alt. destruct (a ?= b)%Q; split; intros H; try discriminate; try tauto; try (destruct H; discriminate). split; [discriminate|reflexivity]. Qed.
Lemma ltb_ext x y p m : 0 < p -> valid_binary p m x = true -> valid_binary p m y = true -> SFltb x y = true <-> lt_ext (float_value x) (float_value y).
Proof. intros P Vx Vy. unfold SFltb. rewrite (sfcompare p m x y P Vx Vy). destruct (float_value x) as [a| | |], (float_value y) as [b| | |]; cbn [ext_compare lt_ext]; try tauto; try (split; [discriminate|tauto]); try (split; auto; fail).
  rewrite Qlt_alt. destruct (a ?= b)%Q; split; intros H; try discriminate; reflexivity. Qed.
Lemma leb_ext x y p m : 0 < p -> valid_binary p m x = true -> valid_binary p m y = true -> SFleb x y = true <-> lt_ext (float_value x) (float_value y) \/ eq_ext (float_value x) (float_value y).
Proof. intros P Vx Vy. rewrite <- (eqb_ext x y p m P Vx Vy), <- (ltb_ext x y p m P Vx Vy). unfold SFleb, SFltb, SFeqb. destruct (SFcompare x y) as [[]|]; intuition discriminate. Qed.
Lemma eq_fin a b : eq_ext (Fin a) (Fin b) <-> (a == b)%Q. Proof. unfold eq_ext. cbn. split; [tauto|split; [discriminate|assumption]]. Qed.
Lemma inject_eq a b : (inject_Z a == inject_Z b)%Q <-> a = b. Proof. unfold Qeq, inject_Z. cbn. lia. Qed.
Lemma formats r p m : float_format r = Some (p, m) -> 0 < p. Proof. destruct r; intros H; try discriminate H; injection H as <- <-; lia. Qed.
Lemma eq_ext_sym x y : eq_ext x y -> eq_ext y x.
Proof. intros [N S]. split; [|now apply same_ext_sym]. intros ->. destruct x; try contradiction; now apply N. Qed.
Lemma num_eqb_iff r v w : has_type r v -> has_type r w -> num_eqb v w = true <-> eq_ext (real v) (real w) /\ eq_ext (imag v) (imag w).
Proof. assert (Z0 : eq_ext (Fin 0) (Fin 0)) by (split; [discriminate|reflexivity]).
  intros Hv Hw. destruct v as [b|z|x|x y], w as [b'|z'|x'|x' y']; cbn [has_type] in Hv, Hw;
  try (exfalso; repeat match goal with H : exists _, _ |- _ => destruct H | H : _ /\ _ |- _ => destruct H end; destruct r; discriminate).
  - cbn [num_eqb]. unfold real, imag. cbn [value fst snd]. rewrite eq_fin. destruct b, b'; cbn; split; intros H; try discriminate; try tauto; try (split; [reflexivity|exact Z0]); try (destruct H as [H _]; discriminate H).
  - cbn [num_eqb]. unfold real, imag. cbn [value fst snd]. rewrite eq_fin, inject_eq, Z.eqb_eq. tauto.
  - destruct Hv as (_ & p & m & F & V), Hw as (_ & p' & m' & F' & V'). rewrite F in F'. injection F' as <- <-. cbn [num_eqb]. unfold real, imag. cbn [value fst snd]. rewrite (eqb_ext x x' p m (formats r p m F) V V'). tauto.
  - destruct Hv as (_ & p & m & F & V1 & V2), Hw as (_ & p' & m' & F' & V1' & V2'). rewrite F in F'. injection F' as <- <-. cbn [num_eqb]. unfold real, imag. cbn [value fst snd]. rewrite andb_true_iff, (eqb_ext x x' p m (formats r p m F) V1 V1'), (eqb_ext y y' p m (formats r p m F) V2 V2'). tauto. Qed.
Lemma num_ltb_iff r v w : is_complex r = false -> has_type r v -> has_type r w -> num_ltb v w = true <-> lt_ext (real v) (real w).
Proof. intros C Hv Hw. destruct v as [b|z|x|x y], w as [b'|z'|x'|x' y']; cbn [has_type] in Hv, Hw;
  try (exfalso; repeat match goal with H : exists _, _ |- _ => destruct H | H : _ /\ _ |- _ => destruct H end; destruct r; discriminate).
  - cbn [num_ltb]. unfold real. cbn [value fst lt_ext]. destruct b, b'; cbn; split; intros H; try discriminate; reflexivity.
  - cbn [num_ltb]. unfold real. cbn [value fst lt_ext]. rewrite <- Zlt_Qlt, Z.ltb_lt. reflexivity.
  - destruct Hv as (_ & p & m & F & V), Hw as (_ & p' & m' & F' & V'). rewrite F in F'. injection F' as <- <-. cbn [num_ltb]. unfold real. cbn [value fst]. apply (ltb_ext x x' p m (formats r p m F) V V'). Qed.
Lemma num_leb_iff r v w : is_complex r = false -> has_type r v -> has_type r w -> num_leb v w = true <-> lt_ext (real v) (real w) \/ eq_ext (real v) (real w).
Proof. intros C Hv Hw. destruct v as [b|z|x|x y], w as [b'|z'|x'|x' y']; cbn [has_type] in Hv, Hw;
  try (exfalso; repeat match goal with H : exists _, _ |- _ => destruct H | H : _ /\ _ |- _ => destruct H end; destruct r; discriminate).
  - cbn [num_leb]. unfold real. cbn [value fst lt_ext]. rewrite eq_fin. destruct b, b'; cbn; split; intros H; try discriminate; try (right; reflexivity); try (left; reflexivity); try reflexivity. destruct H as [H|H]; discriminate H.
  - cbn [num_leb]. unfold real. cbn [value fst lt_ext]. rewrite eq_fin, inject_eq, <- Zlt_Qlt, Z.leb_le. lia.
  - destruct Hv as (_ & p & m & F & V), Hw as (_ & p' & m' & F' & V'). rewrite F in F'. injection F' as <- <-. cbn [num_leb]. unfold real. cbn [value fst]. apply (leb_ext x x' p m (formats r p m F) V V'). Qed.
Lemma holds_iff r rel v w : (ordering rel = true -> is_complex r = false) -> has_type r v -> has_type r w -> holds rel v w = true <-> related rel v w.
Proof. intros C Hv Hw. destruct rel; cbn [holds related ordering] in *.
  - now apply (num_eqb_iff r).
  - rewrite negb_true_iff, <- (num_eqb_iff r v w Hv Hw). now destruct (num_eqb v w).
  - apply (num_ltb_iff r); auto.
  - rewrite (num_leb_iff r w v); auto. split; (intros [H|H]; [now left|right; now apply eq_ext_sym]).
  - apply (num_ltb_iff r); auto.
  - apply (num_leb_iff r); auto. Qed.
Lemma lt_ext_congr x x' y y' : same_ext x x' -> same_ext y y' -> lt_ext x y -> lt_ext x' y'.
Proof. destruct x, x', y, y'; cbn; try tauto. intros A B. now rewrite A, B. Qed.
Lemma eq_ext_congr x x' y y' : same_ext x x' -> same_ext y y' -> eq_ext x y -> eq_ext x' y'.
Proof. intros A B [N S]. split; [intros ->; destruct x; try contradiction; now apply N|]. eapply same_ext_trans; [apply same_ext_sym, A|]. eapply same_ext_trans; eassumption. Qed.
Lemma related_congr rel v v' w w' : same_value v v' -> same_value w w' -> related rel v w -> related rel v' w'.
Proof. intros [A1 A2] [B1 B2]. pose proof (same_ext_sym _ _ A1) as A1'. pose proof (same_ext_sym _ _ A2) as A2'. pose proof (same_ext_sym _ _ B1) as B1'. pose proof (same_ext_sym _ _ B2) as B2'. unfold related, real, imag.
  destruct rel.
  - intros [H1 H2]. split; eapply eq_ext_congr; eauto.
  - intros H [H1 H2]. apply H. split; eapply eq_ext_congr; eauto.
  - intros H. eapply lt_ext_congr; eauto.
  - intros [H|H]; [left; eapply lt_ext_congr; eauto|right; eapply eq_ext_congr; eauto].
  - intros H. eapply lt_ext_congr; eauto.
  - intros [H|H]; [left; eapply lt_ext_congr; eauto|right; eapply eq_ext_congr; eauto]. Qed.
Lemma same_value_sym v w : same_value v w -> same_value w v. Proof. intros [A B]. split; now apply same_ext_sym. Qed.
Lemma compare_elem a b r rel v w : promote a b = Some r -> (ordering rel = true -> is_complex r = false) -> has_type a v -> has_type b w -> representable r v -> representable r w ->
  holds rel (convert r v) (convert r w) = true <-> related rel v w.
Proof. intros P C Hv Hw Rv Rw. destruct (l_promote_exact a b r v w P Hv Hw Rv Rw) as (v' & w' & E & T1 & T2 & S1 & S2). unfold promote_pair in E. rewrite P in E. injection E as <- <-.
  rewrite (holds_iff r rel _ _ C T1 T2). split; apply related_congr; auto using same_value_sym. Qed.

Lemma l_compare : forall k dflt o rel a b (ta tb : tensor num), tensor_ok ta -> tensor_ok tb ->
  (forall r, promote a b = Some r -> elements_fit a r ta /\ elements_fit b r tb /\ (ordering rel = true -> is_complex r = false)) ->
  match compare_tensors k dflt o rel a b ta tb with
  | Some (Ok c) => tensor_ok c /\ broadcasts o (t_shape ta) (t_shape tb) (t_shape c) /\
      forall ix, valid (t_shape c) ix -> exists v w q, at_ ta (source_index o (t_shape ta) ix) = Some v /\ at_ tb (source_index o (t_shape tb) ix) = Some w /\ at_ c ix = Some q /\ (q = true <-> related rel v w)
  | Some (Err _) => forall s, ~ broadcasts o (t_shape ta) (t_shape tb) s
  | Some Panic => False
  | None => promote a b = None
  end.
Proof. intros k dflt o rel a b ta tb Ha Hb H. unfold compare_tensors. destruct (promote a b) as [r|] eqn:P; cbn [option_map]; [|reflexivity]. destruct (H r eq_refl) as (F1 & F2 & C).
  pose proof (l_common num num bool k dflt o (fun v w => holds rel (convert r v) (convert r w)) ta tb Ha Hb) as X. destruct (op_common k dflt o _ ta tb) as [c|e|]; auto. destruct X as (T & B & E). split; [exact T|]. split; [exact B|].
  intros ix V. destruct (E ix V) as (v & w & Ev & Ew & Ec). destruct (F1 _ _ Ev) as [Tv Rv], (F2 _ _ Ew) as [Tw Rw]. do 3 eexists. repeat (split; [eassumption|]). now apply (compare_elem a b r). Qed.
Lemma l_compare_number : forall k dflt rel a b (ta : tensor num) (w : num), tensor_ok ta -> has_type b w ->
  (forall r, promote a b = Some r -> elements_fit a r ta /\ representable r w /\ (ordering rel = true -> is_complex r = false)) ->
  match compare_number k dflt rel a b ta w with
  | Some (Ok c) => tensor_ok c /\ t_shape c = t_shape ta /\ forall ix, valid (t_shape c) ix -> exists v q, at_ ta ix = Some v /\ at_ c ix = Some q /\ (q = true <-> related rel v w)
  | Some _ => False
  | None => promote a b = None
  end.
Proof. intros k dflt rel a b ta w Ha Hb H. unfold compare_number. destruct (promote a b) as [r|] eqn:P; cbn [option_map]; [|reflexivity]. destruct (H r eq_refl) as (F1 & R & C).
  destruct (l_scalar_rhs num num bool k dflt (fun v w => holds rel (convert r v) (convert r w)) ta w Ha) as (c & -> & T & S & E). split; [exact T|]. split; [exact S|].
  intros ix V. rewrite S in V. destruct (E ix V) as (v & Ev & Ec). destruct (F1 _ _ Ev) as [Tv Rv]. do 2 eexists. repeat (split; [eassumption|]). now apply (compare_elem a b r). Qed.
Lemma l_compare_refuted : exists (ta tb : tensor num) v w, tensor_ok ta /\ tensor_ok tb /\ t_data ta = [v] /\ t_data tb = [w] /\ has_type Ti64 v /\ has_type Tu64 w /\
  related Less w v /\ compare_tensors Fixed RowMajor RowMajor Equal Ti64 Tu64 ta tb = Some (Ok (mkTensor [true] (mkLayout [1%nat] [1] 0))).
Proof. exists (mkTensor [Nint (2 ^ 53 + 1)] (mkLayout [1%nat] [1] 0)), (mkTensor [Nint (2 ^ 53)] (mkLayout [1%nat] [1] 0)), (Nint (2 ^ 53 + 1)), (Nint (2 ^ 53)). split; [concrete_tensor|]. split; [concrete_tensor|]. split; [reflexivity|]. split; [reflexivity|].
  split; [exists (- 2 ^ 63), (2 ^ 63 - 1); split; [reflexivity|lia]|]. split; [exists 0, (2 ^ 64 - 1); split; [reflexivity|lia]|]. split; [vm_compute; reflexivity|vm_compute; reflexivity]. Qed.

(** * Extrema *)
Definition real_type (r : dtype) : Prop := r <> Tbool /\ is_complex r = false.
Lemma lt_irrefl_ext x : ~ lt_ext x x. Proof. destruct x; cbn; auto. apply Qlt_irrefl. Qed.
Lemma lt_asym_ext x y : lt_ext x y -> ~ lt_ext y x. Proof. destruct x, y; cbn; auto. intros A B. exact (Qlt_irrefl _ (Qlt_trans _ _ _ A B)). Qed.
Lemma not_lt_ltb x y p m : 0 < p -> valid_binary p m x = true -> valid_binary p m y = true -> SFltb x y = false -> ~ lt_ext (float_value x) (float_value y).
Proof. intros P Vx Vy E H. apply (ltb_ext x y p m P Vx Vy) in H. congruence. Qed.
Definition beats (most : bool) (x y : ext) : Prop := if most then lt_ext y x else lt_ext x y.
Lemma extremum_elem (most : bool) r v w : real_type r -> has_type r v -> has_type r w ->
  let z := (if most then num_max else num_min) v w in
  has_type r z /\ (z = v \/ z = w) /\ ~ beats most (real v) (real z) /\ ~ beats most (real w) (real z) /\ (real z = NaN -> real v = NaN /\ real w = NaN).
Proof. intros [Nb Nc] Hv Hw. destruct v as [b|a|x|x y], w as [b'|a'|x'|x' y']; cbn [has_type] in Hv, Hw;
  try (exfalso; repeat match goal with H : exists _, _ |- _ => destruct H | H : _ /\ _ |- _ => destruct H end; destruct r; discriminate); try contradiction.
  - destruct Hv as (lo & hi & I & R), Hw as (lo' & hi' & I' & R'). rewrite I in I'. injection I' as <- <-. unfold beats, real. destruct most; cbn [num_max num_min value fst lt_ext].
    + split; [exists lo, hi; split; [exact I|lia]|]. split; [destruct (Z.max_dec a a') as [-> | ->]; auto|]. rewrite <- !Zlt_Qlt. repeat split; [lia|lia|discriminate|discriminate].
    + split; [exists lo, hi; split; [exact I|lia]|]. split; [destruct (Z.min_dec a a') as [-> | ->]; auto|]. rewrite <- !Zlt_Qlt. repeat split; [lia|lia|discriminate|discriminate].
  - pose proof Hv as Tv. pose proof Hw as Tw. destruct Hv as (_ & p & m & F & V), Hw as (_ & p' & m' & F' & V'). rewrite F in F'. injection F' as <- <-. pose proof (formats r p m F) as P. unfold beats, real. cbn [num_max num_min value fst].
    assert (NN : forall s, ~ lt_ext NaN s) by (intros s; exact (fun X => X)). assert (NM : forall s, ~ lt_ext s NaN) by (intros s; destruct s; exact (fun X => X)).
    assert (Fn : forall s, float_value s = NaN -> s = S754_nan) by (intros [s|[]| |s k e]; cbn; discriminate || reflexivity).
    destruct most; cbn [num_max num_min value fst].
    + assert (G : x = S754_nan \/ x' = S754_nan \/ (x <> S754_nan /\ x' <> S754_nan /\ float_max x x' = if SFltb x x' then x' else x)) by (destruct x, x'; cbn [float_max]; auto; right; right; repeat split; discriminate).
      destruct G as [->|[->|(N1 & N2 & ->)]].
      * change (float_max S754_nan x') with x'. split; [exact Tw|]. split; [auto|]. split; [apply NM|]. split; [apply lt_irrefl_ext|]. cbn [float_value]. auto.
      * assert (E : float_max x S754_nan = x) by now destruct x. rewrite E. split; [exact Tv|]. split; [auto|]. split; [apply lt_irrefl_ext|]. split; [apply NM|]. cbn [float_value]. auto.
      * destruct (SFltb x x') eqn:L.
        -- split; [exact Tw|]. split; [auto|]. apply (ltb_ext x x' p m P V V') in L. split; [now apply lt_asym_ext|]. split; [apply lt_irrefl_ext|]. intros X. now apply Fn in X.
        -- split; [exact Tv|]. split; [auto|]. split; [apply lt_irrefl_ext|]. split; [now apply (not_lt_ltb x x' p m)|]. intros X. now apply Fn in X.
    + assert (G : x = S754_nan \/ x' = S754_nan \/ (x <> S754_nan /\ x' <> S754_nan /\ float_min x x' = if SFltb x' x then x' else x)) by (destruct x, x'; cbn [float_min]; auto; right; right; repeat split; discriminate).
      destruct G as [->|[->|(N1 & N2 & ->)]].
      * change (float_min S754_nan x') with x'. split; [exact Tw|]. split; [auto|]. split; [apply NN|]. split; [apply lt_irrefl_ext|]. cbn [float_value]. auto.
      * assert (E : float_min x S754_nan = x) by now destruct x. rewrite E. split; [exact Tv|]. split; [auto|]. split; [apply lt_irrefl_ext|]. split; [apply NN|]. cbn [float_value]. auto.
      * destruct (SFltb x' x) eqn:L.
        -- split; [exact Tw|]. split; [auto|]. apply (ltb_ext x' x p m P V' V) in L. split; [now apply lt_asym_ext|]. split; [apply lt_irrefl_ext|]. intros X. now apply Fn in X.
        -- split; [exact Tv|]. split; [auto|]. split; [apply lt_irrefl_ext|]. split; [now apply (not_lt_ltb x' x p m)|]. intros X. now apply Fn in X. Qed.
Lemma beats_congr most x x' y y' : same_ext x x' -> same_ext y y' -> beats most x y -> beats most x' y'.
Proof. unfold beats. destruct most; intros; eapply lt_ext_congr; eauto. Qed.
Lemma l_extremum : forall k dflt o (most : bool) a b (ta tb : tensor num), tensor_ok ta -> tensor_ok tb ->
  (forall r, promote a b = Some r -> elements_fit a r ta /\ elements_fit b r tb /\ r <> Tbool /\ is_complex r = false) ->
  match extremum_tensors k dflt o most a b ta tb with
  | Some (Ok c) => tensor_ok c /\ broadcasts o (t_shape ta) (t_shape tb) (t_shape c) /\
      forall ix, valid (t_shape c) ix -> exists v w z, at_ ta (source_index o (t_shape ta) ix) = Some v /\ at_ tb (source_index o (t_shape tb) ix) = Some w /\ at_ c ix = Some z /\
        (same_value z v \/ same_value z w) /\ (forall u, u = v \/ u = w -> ~ (if most then lt_ext (real z) (real u) else lt_ext (real u) (real z))) /\ (real z = NaN -> real v = NaN /\ real w = NaN)
  | Some (Err _) => forall s, ~ broadcasts o (t_shape ta) (t_shape tb) s
  | Some Panic => False
  | None => promote a b = None
  end.
Proof. intros k dflt o most a b ta tb Ha Hb H. unfold extremum_tensors. destruct (promote a b) as [r|] eqn:P; cbn [option_map]; [|reflexivity]. destruct (H r eq_refl) as (F1 & F2 & C).
  pose proof (l_common num num num k dflt o (fun v w => (if most then num_max else num_min) (convert r v) (convert r w)) ta tb Ha Hb) as X. destruct (op_common k dflt o _ ta tb) as [c|e|]; auto. destruct X as (T & B & E). split; [exact T|]. split; [exact B|].
  intros ix V. destruct (E ix V) as (v & w & Ev & Ew & Ec). destruct (F1 _ _ Ev) as [Tv Rv], (F2 _ _ Ew) as [Tw Rw]. exists v, w. eexists. repeat (split; [eassumption|]).
  destruct (l_promote_exact a b r v w P Tv Tw Rv Rw) as (v' & w' & Ep & T1 & T2 & S1 & S2). unfold promote_pair in Ep. rewrite P in Ep. injection Ep as <- <-.
  destruct (extremum_elem most r _ _ C T1 T2) as (_ & Z1 & Z2 & Z3 & Z4). set (z := (if most then num_max else num_min) (convert r v) (convert r w)) in *.
  split; [destruct Z1 as [-> | ->]; [left|right]; now apply same_value_sym|]. split.
  - intros u [-> | ->] L; [apply Z2|apply Z3]; unfold beats; destruct most; (eapply lt_ext_congr; [| |exact L]); try apply same_ext_refl; solve [apply S1|apply S2].
  - intros N. destruct (Z4 N) as [N1 N2]. unfold real in *. destruct S1 as [S1 _], S2 as [S2 _]. rewrite N1 in S1. rewrite N2 in S2. split; [now destruct (fst (value v))|now destruct (fst (value w))]. Qed.

(** * Floor division, sign, absolute value *)
Lemma l_floor_divide : forall t lo hi a b, int_range t = Some (lo, hi) -> lo <= a <= hi -> lo <= b <= hi ->
  match floor_divide t a b with
  | Ok q => b <> 0 /\ lo <= q <= hi /\ (0 < b -> q * b <= a < q * b + b) /\ (b < 0 -> q * b + b < a <= q * b)
  | Err _ => False
  | Panic => b = 0 \/ (b = -1 /\ a = lo /\ ~ lo <= - a <= hi)
  end.
Proof. intros t lo hi a b I Ra Rb. unfold floor_divide. rewrite I. assert (Sh : (lo = 0 \/ (lo < 0 /\ hi = - lo - 1)) /\ 0 <= hi) by (destruct t; try discriminate I; injection I as <- <-; lia).
  destruct (Z.eqb_spec b 0) as [B|B]; [now left|]. destruct ((a =? lo) && (b =? -1) && (lo <? 0)) eqn:E; [right; lia|].
  assert (D1 : 0 < b -> a / b * b <= a < a / b * b + b). { intros P. pose proof (Z.div_mod a b B). pose proof (Z.mod_pos_bound a b P). split; nia. }
  assert (D2 : b < 0 -> a / b * b + b < a <= a / b * b). { intros P. pose proof (Z.div_mod a b B). pose proof (Z.mod_neg_bound a b P). split; nia. }
  split; [exact B|]. split; [|split; assumption]. remember (a / b) as q. clear Heqq. destruct (Z.lt_trichotomy b 0) as [P|[P|P]]; [|lia|].
  - specialize (D2 P). split; nia.
  - specialize (D1 P). split; nia. Qed.
Lemma l_sign : forall k dflt t (a : tensor num), tensor_ok a -> t <> Tbool -> is_complex t = false -> (forall ix x, at_ a ix = Some x -> has_type t x) ->
  exists c, sign_tensor k dflt t a = Ok c /\ tensor_ok c /\ t_shape c = t_shape a /\ forall ix, valid (t_shape a) ix -> exists x y, at_ a ix = Some x /\ at_ c ix = Some y /\ has_type t y /\
    (lt_ext (Fin 0) (real x) -> same_ext (real y) (Fin 1)) /\ (lt_ext (real x) (Fin 0) -> same_ext (real y) (Fin (-1 # 1))) /\ (eq_ext (real x) (Fin 0) -> same_ext (real y) (Fin 0)) /\ (real x = NaN -> real y = NaN).
Proof. intros k dflt t a Ha Nb Nc H. unfold sign_tensor. destruct (l_map num num k dflt (num_sign t) a Ha) as (c & E & T & S & X). exists c. repeat (split; [assumption|]). intros ix V. destruct (X ix V) as (x & Ex & Ec). exists x, (num_sign t x). repeat (split; [assumption|]).
  specialize (H _ _ Ex). destruct x as [b|z|f|f g]; cbn [has_type] in H; [congruence| | |destruct H; congruence].
  - destruct H as (lo & hi & I & R). unfold real. cbn [num_sign value fst]. rewrite eq_fin. cbn [lt_ext same_ext]. change 0%Q with (inject_Z 0). rewrite <- !Zlt_Qlt, inject_eq.
    split; [exists lo, hi; split; [exact I|destruct t; try discriminate I; injection I as <- <-; destruct (0 <? z) eqn:E1; try destruct (z <? 0) eqn:E2; lia]|].
    repeat split; intros; try discriminate; destruct (Z.ltb_spec 0 z); try destruct (Z.ltb_spec z 0); try lia; reflexivity.
  - pose proof H as Ty. destruct H as (_ & p & m & F & Vf). pose proof (formats t p m F) as P. assert (Z0 : valid_binary p m (S754_zero false) = true) by reflexivity.
    pose proof (ltb_ext (S754_zero false) f p m P Z0 Vf) as L1. pose proof (ltb_ext f (S754_zero false) p m P Vf Z0) as L2. cbn [float_value] in L1, L2.
    assert (O1 : has_type t (Nfloat (float_one t false)) /\ same_ext (float_value (float_one t false)) (Fin 1)) by (unfold float_one; rewrite F; destruct t; try discriminate F; try discriminate Nc; injection F as <- <-; (split; [split; [reflexivity|do 2 eexists; split; [reflexivity|reflexivity]]|vm_compute; reflexivity])).
    assert (O2 : has_type t (Nfloat (float_one t true)) /\ same_ext (float_value (float_one t true)) (Fin (-1 # 1))) by (unfold float_one; rewrite F; destruct t; try discriminate F; try discriminate Nc; injection F as <- <-; (split; [split; [reflexivity|do 2 eexists; split; [reflexivity|reflexivity]]|vm_compute; reflexivity])).
    assert (O3 : has_type t (Nfloat (S754_zero false))) by (split; [exact Nc|exists p, m; auto]).
    assert (G : f = S754_nan \/ (f <> S754_nan /\ num_sign t (Nfloat f) = Nfloat (if SFltb (S754_zero false) f then float_one t false else if SFltb f (S754_zero false) then float_one t true else S754_zero false))) by (destruct f; [right|right|left|right]; auto; split; try discriminate; reflexivity).
    destruct G as [->|[N ->]].
    + cbn [num_sign]. split; [exact Ty|]. unfold real. cbn. repeat split; try tauto. intros [X' _]. now destruct X'.
    + unfold real. cbn [value fst]. destruct (SFltb (S754_zero false) f) eqn:E1; [|destruct (SFltb f (S754_zero false)) eqn:E2].
      * destruct L1 as [L1 _]. specialize (L1 eq_refl). split; [apply O1|]. split; [intros _; apply O1|]. split; [intros Y; now apply lt_asym_ext in Y|]. split; [intros [_ Y]; exfalso; apply same_ext_sym in Y; exact (lt_irrefl_ext _ (lt_ext_congr _ _ _ _ Y (same_ext_refl _) L1))|]. intros Y. rewrite Y in L1. contradiction.
      * destruct L2 as [L2 _]. specialize (L2 eq_refl). split; [apply O2|]. split; [intros Y; now apply lt_asym_ext in Y|]. split; [intros _; apply O2|]. split; [intros [_ Y]; exfalso; exact (lt_irrefl_ext _ (lt_ext_congr _ _ _ _ Y (same_ext_refl _) L2))|]. intros Y. rewrite Y in L2. contradiction.
      * split; [exact O3|]. split; [intros Y; apply L1 in Y; discriminate|]. split; [intros Y; apply L2 in Y; discriminate|]. split; [reflexivity|]. intros Y. destruct f as [s|[]| |s k0 e0]; try discriminate Y. now destruct N. Qed.
Lemma l_signbit_refuted : forall k dflt t (a : tensor num), tensor_ok a -> t <> Tbool -> is_complex t = false -> (forall ix x, at_ a ix = Some x -> has_type t x /\ real x <> NaN /\ ~ eq_ext (real x) (Fin 0)) ->
  exists c, signbit_tensor k dflt a = Ok c /\ t_shape c = t_shape a /\ forall ix, valid (t_shape a) ix -> exists x q, at_ a ix = Some x /\ at_ c ix = Some q /\ (q = true <-> ~ lt_ext (real x) (Fin 0)).
Proof. intros k dflt t a Ha Nb Nc H. unfold signbit_tensor. destruct (l_map num bool k dflt is_positive a Ha) as (c & E & T & S & X). exists c. repeat (split; [assumption|]). intros ix V. destruct (X ix V) as (x & Ex & Ec). exists x, (is_positive x). repeat (split; [assumption|]).
  destruct (H _ _ Ex) as (Ty & Nn & Nz). destruct x as [b|z|f|f g]; cbn [has_type] in Ty; [congruence| | |destruct Ty; congruence].
  - unfold real in *. cbn [is_positive value fst lt_ext] in *. rewrite eq_fin in Nz. change 0%Q with (inject_Z 0) in *. rewrite inject_eq in Nz. rewrite <- Zlt_Qlt. lia.
  - unfold real in *. cbn [is_positive value fst] in *. destruct f as [s|[]| |[] m e]; cbn [float_value lt_ext negb] in *.
    + exfalso. apply Nz. split; [discriminate|reflexivity].
    + split; [discriminate|tauto].
    + split; auto.
    + now destruct Nn.
    + split; [discriminate|]. intros Y. exfalso. apply Y. apply neg_value_neg.
    + split; [|reflexivity]. intros _ Y. pose proof (sgn_pos_value m e) as A. exact (Qlt_irrefl _ (Qlt_trans _ _ _ A Y)). Qed.
Lemma l_abs : forall checks t v, t <> Tbool -> is_complex t = false -> has_type t v ->
  match num_abs checks t v with
  | Ok y => has_type t y /\ ((exists lo hi, int_range t = Some (lo, hi) /\ v = Nint lo /\ lo < 0 /\ checks = false /\ y = v) \/
      (lt_ext (real v) (Fin 0) /\ (match real v, real y with Fin p, Fin q => (q == - p)%Q | NInf, PInf => True | _, _ => False end)) \/ (~ lt_ext (real v) (Fin 0) /\ same_ext (real y) (real v)))
  | Err _ => False
  | Panic => checks = true /\ exists lo hi, int_range t = Some (lo, hi) /\ v = Nint lo /\ lo < 0
  end.
Proof. intros checks t v Nb Nc H. destruct v as [b|z|f|f g]; cbn [has_type] in H; [congruence| | |destruct H; congruence].
  - destruct H as (lo & hi & I & R). unfold num_abs. rewrite I. assert (Sh : (lo = 0 \/ (lo < 0 /\ hi = - lo - 1)) /\ 0 <= hi) by (destruct t; try discriminate I; injection I as <- <-; lia).
    unfold real. destruct (Z.ltb_spec lo 0) as [L|L].
    + destruct (Z.leb_spec (Z.abs z) hi) as [L2|L2].
      * cbn [value fst lt_ext same_ext has_type]. change 0%Q with (inject_Z 0). rewrite <- Zlt_Qlt. split; [exists lo, hi; split; [exact I|lia]|]. right. destruct (Z.lt_ge_cases z 0) as [Lz|Lz]; [left|right].
        -- split; [exact Lz|]. rewrite <- inject_opp. apply inject_eq. lia.
        -- split; [lia|]. apply inject_eq. lia.
      * assert (z = lo) by lia. subst z. destruct checks; [split; [reflexivity|exists lo, hi; auto]|]. split; [exists lo, hi; auto|]. left. exists lo, hi. auto.
    + split; [exists lo, hi; auto|]. right. right. cbn [value fst lt_ext]. change 0%Q with (inject_Z 0). rewrite <- Zlt_Qlt. split; [lia|apply same_ext_refl].
  - destruct H as (_ & p & m & F & Vf). unfold num_abs. assert (I : int_range t = None) by (destruct t; try discriminate F; reflexivity). split; [split; [exact Nc|exists p, m; split; [exact F|now destruct f]]|]. right. unfold real. cbn [value fst].
    destruct f as [s|[]| |[] k e]; cbn [SFabs float_value lt_ext same_ext].
    + right. split; [apply Qlt_irrefl|reflexivity].
    + left. auto.
    + right. auto.
    + right. auto.
    + left. split; [apply neg_value_neg|]. rewrite neg_value. now rewrite Qopp_involutive.
    + right. split; [|reflexivity]. intros Y. pose proof (sgn_pos_value k e) as A. exact (Qlt_irrefl _ (Qlt_trans _ _ _ A Y)). Qed.
Lemma l_abs_refuted : forall t lo hi, int_range t = Some (lo, hi) -> lo < 0 -> has_type t (Nint lo) /\ num_abs false t (Nint lo) = Ok (Nint lo).
Proof. intros t lo hi I L. split; [exists lo, hi; split; [exact I|destruct t; try discriminate I; injection I as <- <-; lia]|]. unfold num_abs. rewrite I. rewrite (proj2 (Z.ltb_lt lo 0) L). replace (Z.abs lo <=? hi) with false; [reflexivity|]. symmetry. apply Z.leb_gt. destruct t; try discriminate I; injection I as <- <-; lia. Qed.

(** * Casts that cannot keep the number *)
Lemma l_cast_wrap : forall t lo hi z, int_range t = Some (lo, hi) -> exists y k, convert t (Nint z) = Nint y /\ lo <= y <= hi /\ y = z + k * (hi - lo + 1).
Proof. intros t lo hi z I. unfold convert. rewrite I. assert (S : 0 < hi - lo + 1) by (destruct t; try discriminate I; injection I as <- <-; lia).
  exists (wrap lo hi z), (- ((z - lo) / (hi - lo + 1))). unfold wrap. set (w := hi - lo + 1) in *. pose proof (Z.mod_pos_bound (z - lo) w S). pose proof (Z.div_mod (z - lo) w ltac:(lia)). split; [reflexivity|]. split; [unfold w in *; lia|]. nia. Qed.
Lemma Qfloor_dyadic m e : Qfloor (inject_Z (Zpos m) * (2 # 1) ^ e) = if 0 <=? e then Zpos m * 2 ^ e else Zpos m / 2 ^ (- e).
Proof. destruct (Z.leb_spec 0 e) as [L|L].
  - change (2 # 1)%Q with (inject_Z 2). rewrite <- Zpower_Qpower by exact L. rewrite <- inject_Z_mult. apply Qfloor_Z.
  - assert (X : (inject_Z (Zpos m) * (2 # 1) ^ e == inject_Z (Zpos m) / inject_Z (2 ^ (- e)))%Q). { replace e with (- - e) at 1 by lia. rewrite Qpower_opp. change (2 # 1)%Q with (inject_Z 2). rewrite <- Zpower_Qpower by lia. reflexivity. }
    rewrite X. assert (P : 0 < 2 ^ (- e)) by (apply Z.pow_pos_nonneg; lia). destruct (2 ^ (- e)) as [|p|p]; try lia. unfold Qdiv, Qinv, inject_Z. cbn. unfold Qmult. cbn. now rewrite ?Z.mul_1_r, ?Pos.mul_1_r. Qed.
Lemma l_cast_saturate : forall t lo hi x, int_range t = Some (lo, hi) -> exists y, convert t (Nfloat x) = Nint y /\ lo <= y <= hi /\
  match float_value x with
  | Fin q => ((0 <= q)%Q -> y = Z.min hi (Qfloor q)) /\ ((q <= 0)%Q -> y = Z.max lo (Qceiling q))
  | PInf => y = hi | NInf => y = lo | NaN => y = 0
  end.
Proof. intros t lo hi x I. unfold convert. rewrite I. assert (S : lo <= 0 <= hi) by (destruct t; try discriminate I; injection I as <- <-; lia). exists (float_to_int lo hi x). split; [reflexivity|].
  destruct x as [s|[]| |s m e]; cbn [float_to_int float_value]; try (split; [lia|]).
  - split; intros _; change (Qfloor 0) with 0; change (Qceiling 0) with 0; lia.
  - reflexivity.
  - reflexivity.
  - reflexivity.
  - pose proof (Qfloor_dyadic m e) as Fd. pose proof (sgn_pos_value m e) as Ps. unfold truncated. rewrite <- Fd. set (q := (inject_Z (Zpos m) * (2 # 1) ^ e)%Q) in *. assert (F0 : 0 <= Qfloor q) by (change 0 with (Qfloor 0); apply Qfloor_resp_le; now apply Qlt_le_weak).
    destruct s.
    + pose proof (neg_value m e) as Nv. fold q in Nv. split; intros H.
      * exfalso. rewrite Nv in H. apply (Qlt_not_le _ _ Ps). rewrite <- (Qopp_involutive q). change 0%Q with (- 0)%Q. now apply Qopp_le_compat.
      * rewrite Nv. unfold Qceiling. rewrite Qopp_involutive. lia.
    + fold q. split; intros H; [lia|]. exfalso. exact (Qlt_not_le _ _ Ps H). Qed.
Lemma l_cast_bool : forall a v, has_type a v -> exists b, convert Tbool v = Nbool b /\ (b = false <-> eq_ext (real v) (Fin 0) /\ eq_ext (imag v) (Fin 0)).
Proof. assert (Z0 : eq_ext (Fin 0) (Fin 0)) by (split; [discriminate|reflexivity]). assert (Nz : forall x p m, 0 < p -> valid_binary p m x = true -> nonzero_float x = false <-> eq_ext (float_value x) (Fin 0)).
  { intros x p m P V. unfold nonzero_float. rewrite <- (eqb_ext x (S754_zero false) p m P V eq_refl). rewrite negb_false_iff. reflexivity. }
  intros a v H. destruct v as [b|z|x|x y]; cbn [has_type] in H; unfold convert, real, imag; cbn [int_range float_format value fst snd]; (eexists; split; [reflexivity|]).
  - destruct b; split; intros X; try discriminate; auto; destruct X as [[_ X] _]; discriminate X.
  - rewrite eq_fin. change 0%Q with (inject_Z 0) at 1. rewrite inject_eq, negb_false_iff, Z.eqb_eq. tauto.
  - destruct H as (_ & p & m & F & V). rewrite (Nz x p m (formats a p m F) V). tauto.
  - destruct H as (_ & p & m & F & V1 & V2). rewrite orb_false_iff, (Nz x p m (formats a p m F) V1), (Nz y p m (formats a p m F) V2). tauto. Qed.

(** * Conversion to the floating type *)
Lemma l_float_defined : forall a, (float_type a = None <-> a = Tbool) /\
  (forall r, float_type a = Some r -> float_format r <> None /\ (float_format a <> None -> r = a) /\ (int_range a <> None -> r = Tf64)).
Proof.
  intro a. split.
  - destruct a; split; intro H; try reflexivity; discriminate H.
  - intros r H. destruct a; try discriminate H; injection H as <-; (split; [discriminate|]); split; intro N; try reflexivity; exfalso; apply N; reflexivity.
Qed.
Lemma l_float_exact : forall a r v, float_type a = Some r -> has_type a v -> (forall z, v = Nint z -> Z.abs z <= 2 ^ 53) ->
  exists w, into_float a v = Some w /\ has_type r w /\ same_value v w.
Proof.
  intros a r v E Ha Hz. unfold into_float. rewrite E. cbn [option_map]. exists (convert r v). split; [reflexivity|].
  apply (l_convert a r v Ha); [intro C; destruct a; try discriminate C; injection E as <-; auto|].
  destruct (float_format a) as [f|] eqn:F.
  - assert (r = a) as -> by (destruct a; try discriminate F; injection E as <-; reflexivity). exists v. split; [exact Ha|]. assert (R : forall x, same_ext x x) by (intros []; cbn; auto; reflexivity). split; apply R.
  - assert (P : promote a Tf64 = Some r) by (destruct a; try discriminate F; try discriminate E; injection E as <-; reflexivity).
    apply (l_promote_representable a Tf64 r a v P); auto.
Qed.
Lemma l_float_loss_refuted : exists v w x, has_type Ti64 v /\ has_type Ti64 w /\ ~ same_value v w /\ into_float Ti64 v = Some x /\ into_float Ti64 w = Some x.
Proof.
  exists (Nint (2 ^ 53)), (Nint (2 ^ 53 + 1)). eexists. split; [exists (- 2 ^ 63), (2 ^ 63 - 1); split; [reflexivity|lia]|]. split; [exists (- 2 ^ 63), (2 ^ 63 - 1); split; [reflexivity|lia]|].
  split; [intros [H _]; cbn in H; unfold Qeq, inject_Z in H; cbn in H; lia|]. split; vm_compute; reflexivity.
Qed.
