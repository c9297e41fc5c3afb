(** Products of complex matrices without rounding *)
From Coq Require Import ZArith Reals List Lia Lra Bool.
From Flocq Require Import Core BinarySingleNaN.
From Verif Require Import Base Spec P_Tensor Q_Tensor Spec_Matmul M_Layout M_Tensor M_Reduce M_Matmul Q_Matmul M_Float Spec_Float Spec_FloatReduce Spec_FloatMatmul M_FloatComplex Spec_FloatComplex M_FloatComplexMatmul Spec_FloatComplexMatmul P_FloatOps P_FloatSum P_FloatDot P_FloatProd P_FloatComplex Q_FloatComplex Q_FloatComplexMatmul.
Import ListNotations.
Local Open Scope R_scope.

Section Exact.
  Context {t : float_type} (j k : Z) (K1 : (3 - emax t - prec t <= j + k)%Z) (K2 : (j + k + prec t < emax t)%Z).
  Let B := two (j + k + prec t).
  Lemma bound_lt x : Rabs x <= B -> Rabs x < two (emax t).
  Proof. intro H. eapply Rle_lt_trans; [exact H|]. now apply two_lt. Qed.
  Lemma grid_id x : multiple_of (j + k) x -> Rabs x <= B -> rnd t x = x.
  Proof. intros M H. now apply rnd_id, (multiple_format t (j + k)). Qed.
  Lemma grid_mul x y : multiple_of j x -> multiple_of k y -> multiple_of (j + k) (x * y).
  Proof. intros (m & ->) (n & ->). exists (m * n)%Z. rewrite mult_IZR. unfold two. rewrite bpow_plus. ring. Qed.
  Lemma grid_add x y : multiple_of (j + k) x -> multiple_of (j + k) y -> multiple_of (j + k) (x + y).
  Proof. intros (m & ->) (n & ->). exists (m + n)%Z. rewrite plus_IZR. ring. Qed.
  Lemma grid_sub x y : multiple_of (j + k) x -> multiple_of (j + k) y -> multiple_of (j + k) (x - y).
  Proof. intros (m & ->) (n & ->). exists (m - n)%Z. rewrite minus_IZR. ring. Qed.
  Lemma mul_exact (x y : float t) : finite x -> finite y -> multiple_of j (val x) -> multiple_of k (val y) -> Rabs (val x * val y) <= B -> finite (fmul x y) /\ val (fmul x y) = val x * val y.
  Proof. intros Fx Fy Mx My H. pose proof (grid_id _ (grid_mul _ _ Mx My) H) as ID. destruct (fmul_val t x y Fx Fy) as [V F]; [rewrite ID; now apply bound_lt|]. rewrite ID in V. auto. Qed.
  Lemma add_exact (x y : float t) : finite x -> finite y -> multiple_of (j + k) (val x) -> multiple_of (j + k) (val y) -> Rabs (val x + val y) <= B -> finite (fadd x y) /\ val (fadd x y) = val x + val y.
  Proof. intros Fx Fy Mx My H. pose proof (grid_id _ (grid_add _ _ Mx My) H) as ID. destruct (fadd_val t x y Fx Fy) as [V F]; [rewrite ID; now apply bound_lt|]. rewrite ID in V. auto. Qed.
  Lemma sub_exact (x y : float t) : finite x -> finite y -> multiple_of (j + k) (val x) -> multiple_of (j + k) (val y) -> Rabs (val x - val y) <= B -> finite (fsub x y) /\ val (fsub x y) = val x - val y.
  Proof. intros Fx Fy Mx My H. pose proof (grid_id _ (grid_sub _ _ Mx My) H) as ID. destruct (fsub_val t x y Fx Fy) as [V F]; [rewrite ID; now apply bound_lt|]. rewrite ID in V. auto. Qed.
  (** one product *)
  Definition on_grid (p : complex t * complex t) : Prop :=
    (cfinite (fst p) /\ multiple_of j (val (fst (fst p))) /\ multiple_of j (val (snd (fst p)))) /\ cfinite (snd p) /\ multiple_of k (val (fst (snd p))) /\ multiple_of k (val (snd (snd p))).
  Definition re_of (p : complex t * complex t) : R := val (fst (fst p)) * val (fst (snd p)) - val (snd (fst p)) * val (snd (snd p)).
  Definition im_of (p : complex t * complex t) : R := val (fst (fst p)) * val (snd (snd p)) + val (snd (fst p)) * val (fst (snd p)).
  Definition re_abs (p : complex t * complex t) : R := Rabs (val (fst (fst p)) * val (fst (snd p))) + Rabs (val (snd (fst p)) * val (snd (snd p))).
  Definition im_abs (p : complex t * complex t) : R := Rabs (val (fst (fst p)) * val (snd (snd p))) + Rabs (val (snd (fst p)) * val (fst (snd p))).
  Definition term (p : complex t * complex t) : complex t := cmul cone (cmul (fst p) (snd p)).
  Lemma term_exact p : on_grid p -> re_abs p <= B -> im_abs p <= B ->
    cfinite (term p) /\ (val (fst (term p)) = re_of p /\ multiple_of (j + k) (re_of p)) /\ val (snd (term p)) = im_of p /\ multiple_of (j + k) (im_of p).
  Proof. destruct p as [[a b] [c d]]. unfold on_grid, re_abs, im_abs, re_of, im_of, term, cfinite. cbn [fst snd]. intros (((Fa & Fb) & Ma & Mb) & (Fc & Fd) & Mc & Md) Hr Hi.
    pose proof (Rabs_pos (val a * val c)). pose proof (Rabs_pos (val b * val d)). pose proof (Rabs_pos (val a * val d)). pose proof (Rabs_pos (val b * val c)).
    destruct (mul_exact a c Fa Fc Ma Mc ltac:(lra)) as [F1 V1]. destruct (mul_exact b d Fb Fd Mb Md ltac:(lra)) as [F2 V2]. destruct (mul_exact a d Fa Fd Ma Md ltac:(lra)) as [F3 V3]. destruct (mul_exact b c Fb Fc Mb Mc ltac:(lra)) as [F4 V4].
    pose proof (grid_mul _ _ Ma Mc) as G1. pose proof (grid_mul _ _ Mb Md) as G2. pose proof (grid_mul _ _ Ma Md) as G3. pose proof (grid_mul _ _ Mb Mc) as G4.
    destruct (sub_exact (fmul a c) (fmul b d) F1 F2) as [F5 V5]; [now rewrite V1|now rewrite V2| |]. { rewrite V1, V2. unfold Rminus. eapply Rle_trans; [apply Rabs_triang|]. rewrite Rabs_Ropp. lra. }
    destruct (add_exact (fmul a d) (fmul b c) F3 F4) as [F6 V6]; [now rewrite V3|now rewrite V4| |]. { rewrite V3, V4. eapply Rle_trans; [apply Rabs_triang|]. lra. }
    destruct (cone_same (cmul (a, b) (c, d))) as (C1 & C2 & C3); [split; assumption|]. split; [exact C1|]. rewrite C2, C3. cbn [cmul fst snd]. rewrite V5, V6, V1, V2, V3, V4. split; split; auto using grid_sub, grid_add. Qed.
  (** the parts of a fold *)
  Lemma fold_parts (s : list (complex t) -> complex t -> complex t) : s = (fun ts x => fold_left (fun v p => cadd p v) ts x) \/ s = (fun ts x => fold_left (fun v p => cadd v p) ts x) ->
    exists s', folds s' /\ forall ts x, fst (s ts x) = s' (map fst ts) (fst x) /\ snd (s ts x) = s' (map snd ts) (snd x).
  Proof. intros [->| ->]; [exists (fun ts x => fold_left (fun v p => fadd p v) ts x); split; [now left|]|exists (fun ts x => fold_left (fun v p => fadd v p) ts x); split; [now right|]];
    induction ts as [|p ts IH]; intro x; cbn [fold_left map]; auto; apply (IH (cadd _ _)). Qed.
  Lemma rsum_le {P} (f g : P -> R) (ps : list P) : (forall p, f p <= g p) -> rsum (map f ps) <= rsum (map g ps).
  Proof. intro H. unfold rsum. induction ps as [|p ps IH]; cbn; [lra|]. specialize (H p). lra. Qed.
  Lemma sums_of (ps : list (complex t * complex t)) : re_product ps = rsum (map re_of ps) /\ im_product ps = rsum (map im_of ps) /\ re_magnitude ps = rsum (map re_abs ps) /\ im_magnitude ps = rsum (map im_abs ps).
  Proof. unfold re_product, im_product, re_magnitude, im_magnitude, exact_dot, dot_magnitude, parts, rsum. induction ps as [|p ps (A & C & D & E)]; [cbn; repeat split; lra|]. cbn [map fold_right fst snd]. rewrite <- A, <- C, <- D, <- E. unfold re_of, im_of, re_abs, im_abs. repeat split; lra. Qed.
  Lemma cdot_exact (z : complex t) ps v : cruns z (products_of ps) v -> cfinite z -> Forall on_grid ps -> re_magnitude ps <= B -> im_magnitude ps <= B ->
    cfinite v /\ val (fst v) = re_product ps /\ val (snd v) = im_product ps.
  Proof. intros R Fz G Hr Hi. destruct (sums_of ps) as (S1 & S2 & S3 & S4). rewrite S3 in Hr. rewrite S4 in Hi. destruct (czero_null z Fz) as ([Z1 Z2] & Z3 & Z4). rewrite Forall_forall in G.
    assert (P1 : forall q, 0 <= re_abs q) by (intro q; unfold re_abs; pose proof (Rabs_pos (val (fst (fst q)) * val (fst (snd q)))); pose proof (Rabs_pos (val (snd (fst q)) * val (snd (snd q)))); lra).
    assert (P2 : forall q, 0 <= im_abs q) by (intro q; unfold im_abs; pose proof (Rabs_pos (val (fst (fst q)) * val (snd (snd q)))); pose proof (Rabs_pos (val (snd (fst q)) * val (fst (snd q)))); lra).
    assert (T : forall p, In p ps -> cfinite (term p) /\ (val (fst (term p)) = re_of p /\ multiple_of (j + k) (re_of p)) /\ val (snd (term p)) = im_of p /\ multiple_of (j + k) (im_of p)).
    { intros p I. apply term_exact; [now apply G| |]; [pose proof (rsum_member_le re_abs ps p P1 I)|pose proof (rsum_member_le im_abs ps p P2 I)]; lra. }
    assert (R' : exists s, (s = (fun ts x => fold_left (fun v p => cadd p v) ts x) \/ s = (fun ts x => fold_left (fun v p => cadd v p) ts x)) /\ v = s (map term ps) (cmul czero z)).
    { assert (FM : forall (g : complex t -> complex t -> complex t) (l : list (complex t * complex t)) x, fold_left (fun v p => g (cmul cone p) v) (products_of l) x = fold_left (fun v p => g p v) (map term l) x) by (intros g; unfold products_of, term; induction l; intro x; cbn; auto).
      destruct R as [->| ->]; [exists (fun ts x => fold_left (fun v p => cadd p v) ts x); split; [now left|]; apply (FM cadd)|exists (fun ts x => fold_left (fun v p => cadd v p) ts x); split; [now right|]; apply (FM (fun a b => cadd b a))]. }
    destruct R' as (s & Hs & ->). destruct (fold_parts s Hs) as (s' & F' & E). destruct (E (map term ps) (cmul czero z)) as [E1 E2]. unfold cfinite. rewrite E1, E2, !map_map.
    destruct (sum_exact (j + k) s' (map (fun p => fst (term p)) ps) _ K1 K2 F' Z1 Z3) as [A1 A2].
    { unfold multiples. apply Forall_forall. intros y Hy. apply in_map_iff in Hy as (p & <- & Hp). destruct (T p Hp) as ((X1 & _) & (X2 & X3) & _). now rewrite X2. }
    { unfold magnitude. rewrite map_map. erewrite map_ext_in; [|intros p Hp; destruct (T p Hp) as (_ & (X2 & _) & _); rewrite X2; reflexivity]. eapply Rle_trans; [|exact Hr]. apply rsum_le. intro p. unfold re_of, re_abs, Rminus. eapply Rle_trans; [apply Rabs_triang|]. rewrite Rabs_Ropp. lra. }
    destruct (sum_exact (j + k) s' (map (fun p => snd (term p)) ps) _ K1 K2 F' Z2 Z4) as [A3 A4].
    { unfold multiples. apply Forall_forall. intros y Hy. apply in_map_iff in Hy as (p & <- & Hp). destruct (T p Hp) as ((_ & X1) & _ & X2 & X3). now rewrite X2. }
    { unfold magnitude. rewrite map_map. erewrite map_ext_in; [|intros p Hp; destruct (T p Hp) as (_ & _ & X2 & _); rewrite X2; reflexivity]. eapply Rle_trans; [|exact Hi]. apply rsum_le. intro p. unfold im_of, im_abs. apply Rabs_triang. }
    split; [split; assumption|]. rewrite A2, A4, S1, S2. unfold exact_sum. rewrite !map_map. split; f_equal; apply map_ext_in; intros p Hp; now apply T. Qed.
End Exact.
Lemma on_grid_of {t} j k (ps : list (complex t * complex t)) : cmultiple_pairs j k ps -> Forall (on_grid j k) ps.
Proof. intro H. exact H. Qed.
Lemma l_cmatmul_exact : forall t j k dim o junk (a b : tensor (complex t)) r, (3 - emax t - prec t <= j + k)%Z -> (j + k + prec t < emax t)%Z ->
  tensor_ok a -> tensor_ok b -> anchored (t_layout a) -> anchored (t_layout b) -> (forall i, cfinite (junk i)) -> cmatmul dim o junk a b = Ok r ->
  forall cx, valid (t_shape r) cx -> exists ts ps v, contracts o (t_shape a) (t_shape b) cx ts /\ factors (t_data a) (t_layout a) (t_data b) (t_layout b) ts ps /\ at_ r cx = Some v /\
    (cmultiple_pairs j k ps -> re_magnitude ps <= two (j + k + prec t) -> im_magnitude ps <= two (j + k + prec t) -> cfinite v /\ val (fst v) = re_product ps /\ val (snd v) = im_product ps).
Proof. intros t j k dim o junk a b r K1 K2 Ta Tb Aa Ab FJ E. unfold cmatmul in E.
  pose proof (l_matmul_by (complex t) (complex t) (complex t) dim o cmul cmul czero cadd cmul junk a b cone cruns ltac:(intros; left; reflexivity) ltac:(intros; right; reflexivity) ltac:(intros; apply cmul_comm) Ta Tb Aa Ab) as H.
  rewrite E in H. destruct H as (H1 & H2 & H3 & _ & H).
  intros cx V. destruct (H cx V) as (ts & vs & i & v & CT & PR & Hv & R). destruct (cfactors_of _ _ _ _ _ _ PR) as (ps & F & ->). exists ts, ps, v. split; [exact CT|]. split; [exact F|]. split; [exact Hv|]. intros G Hr Hi. apply (cdot_exact j k K1 K2 (junk i) ps v R); auto. Qed.
