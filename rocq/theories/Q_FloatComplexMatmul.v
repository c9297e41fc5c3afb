(** Lemmas behind Properties_FloatComplexMatmul.v *)
From Coq Require Import ZArith Reals List Lia Lra Bool.
From Flocq Require Import Core BinarySingleNaN.
From Verif Require Import Base Spec P_Tensor Q_Tensor Spec_Matmul M_Layout M_Tensor M_Reduce M_Matmul Q_Matmul M_Float Spec_Float Spec_FloatReduce Spec_FloatMatmul M_FloatComplex Spec_FloatComplex M_FloatComplexMatmul Spec_FloatComplexMatmul P_FloatOps P_FloatSum P_FloatDot P_FloatProd P_FloatComplex Q_FloatComplex.
Import ListNotations.
Local Open Scope R_scope.

Lemma fadd_comm t (x y : float t) : fadd x y = fadd y x.
Proof. unfold fadd, Bplus. destruct x as [sx|sx| |sx mx ex Hx], y as [sy|sy| |sy my ey Hy]; try reflexivity; try (destruct sx, sy; reflexivity).
  unfold Fplus_naive. rewrite (Z.min_comm ey ex), (Z.add_comm (SpecFloat.cond_Zopp sx _)). reflexivity. Qed.
Lemma cmul_comm t (x y : complex t) : cmul x y = cmul y x.
Proof. unfold cmul. rewrite (fmul_comm t (fst x) (fst y)), (fmul_comm t (snd x) (snd y)), (fmul_comm t (fst x) (snd y)), (fmul_comm t (snd x) (fst y)), fadd_comm. reflexivity. Qed.
Lemma sub_null t (x y : float t) : finite x -> finite y -> val y = 0 -> val (fsub x y) = val x /\ finite (fsub x y).
Proof. intros Fx Fy E. destruct (fsub_val t x y Fx Fy) as [A B]; rewrite E, Rminus_0_r, rnd_id in * by apply val_format; auto. apply val_lt. Qed.
(** the factors 1 + 0i and 0 + 0i *)
Lemma cone_same {t} (p : complex t) : cfinite p -> cfinite (cmul cone p) /\ val (fst (cmul cone p)) = val (fst p) /\ val (snd (cmul cone p)) = val (snd p).
Proof. intros [F1 F2]. unfold cmul, cone. cbn [fst snd]. destruct (fmul_one t _ F1) as [A1 A2], (fmul_one t _ F2) as [B1 B2], (fmul_null t _ F1) as [C1 C2], (fmul_null t _ F2) as [D1 D2].
  destruct (sub_null t _ _ A1 D1 D2) as [E1 E2]. destruct (add_zero t _ _ B1 C1 C2) as [G1 G2]. split; [split; assumption|]. split; [congruence|congruence]. Qed.
Lemma czero_null {t} (p : complex t) : cfinite p -> cfinite (cmul czero p) /\ val (fst (cmul czero p)) = 0 /\ val (snd (cmul czero p)) = 0.
Proof. intros [F1 F2]. unfold cmul, czero. cbn [fst snd]. destruct (fmul_null t _ F1) as [C1 C2], (fmul_null t _ F2) as [D1 D2].
  destruct (sub_null t _ _ C1 D1 D2) as [E1 E2]. destruct (add_zero t _ _ D1 C1 C2) as [G1 G2]. split; [split; assumption|]. split; [congruence|congruence]. Qed.
Lemma of_2_same {t} (x y : complex t) : cfinite x -> cfinite y -> val (fst x) = val (fst y) -> val (snd x) = val (snd y) -> of_2 x = of_2 y.
Proof. intros [A B] [C D] E F. unfold of_2, sh_of. unfold finite in *. rewrite A, B, C, D, E, F. reflexivity. Qed.

(** ** folds *)
Lemma add_2_l x : add_2 (sh_zero, sh_zero) x = x. Proof. apply monoid_2. Qed.
Lemma add_2_comm x y : add_2 x y = add_2 y x. Proof. apply monoid_2. Qed.
Lemma add_2_assoc x y z : add_2 x (add_2 y z) = add_2 (add_2 x y) z. Proof. apply monoid_2. Qed.
Definition total_of {t} (xs : list (complex t)) : shadow * shadow := total (sh_zero, sh_zero) add_2 (map of_2 xs).
Lemma fold_near2 {t} (f : complex t -> complex t) (step : complex t -> complex t -> complex t) : (forall v p, step v p = cadd (f p) v \/ step v p = cadd v (f p)) ->
  forall vs x sx, near2 x sx -> near2 (fold_left step vs x) (add_2 (total_of (map f vs)) sx).
Proof. intro H. unfold total_of, total. induction vs as [|p vs IH]; intros x sx N; cbn [fold_left map fold_right]; [now rewrite add_2_l|].
  replace (add_2 (add_2 (of_2 (f p)) (fold_right add_2 (sh_zero, sh_zero) (map of_2 (map f vs)))) sx) with (add_2 (fold_right add_2 (sh_zero, sh_zero) (map of_2 (map f vs))) (add_2 sx (of_2 (f p)))).
  - apply IH. destruct (H x p) as [->| ->]; [rewrite add_2_comm|]; apply near2_add; auto using near2_of.
  - rewrite (add_2_comm sx), add_2_assoc. f_equal. apply add_2_comm. Qed.
Lemma total_of_app {t} (xs ys : list (complex t)) : total_of (xs ++ ys) = add_2 (total_of xs) (total_of ys).
Proof. unfold total_of, total. induction xs as [|x xs IH]; cbn [app map fold_right]; [now rewrite add_2_l|]. rewrite IH. apply add_2_assoc. Qed.
Lemma tree_near2 {t} tr : forall vs : list (complex t), near2 (tree_sum czero cadd tr vs) (total_of vs).
Proof. induction tr as [|n l IHl r IHr]; intro vs; cbn [tree_sum].
  - pose proof (fold_near2 (fun p => p) cadd ltac:(intros; right; reflexivity) vs czero _ near2_zero) as H. rewrite map_id, add_2_comm, add_2_l in H. exact H.
  - rewrite <- (firstn_skipn n vs) at 3. rewrite total_of_app. now apply near2_add. Qed.

(** ** the sum of the products *)
Definition products_of {t} (ps : list (complex t * complex t)) : list (complex t) := map (fun p => cmul (fst p) (snd p)) ps.
Definition conjugated {t} (ps : list (complex t * complex t)) : list (complex t * complex t) := map (fun p => (cconj (fst p), snd p)) ps.
Lemma cconj_conj {t} (x : complex t) : cconj (cconj x) = x.
Proof. destruct x as [x y]. unfold cconj. cbn [fst snd]. now rewrite Bopp_involutive. Qed.
Lemma conj_mag {t} (ps : list (complex t * complex t)) : re_magnitude (conjugated ps) = re_magnitude ps /\ im_magnitude (conjugated ps) = im_magnitude ps /\ re_dot (conjugated ps) = re_product ps /\ im_dot (conjugated ps) = im_product ps.
Proof. unfold re_magnitude, im_magnitude, re_dot, im_dot, re_product, im_product, dot_magnitude, exact_dot, parts, conjugated, rsum. induction ps as [|p ps (IH1 & IH2 & IH3 & IH4)]; [cbn; repeat split; lra|].
  cbn [map fold_right fst snd cconj]. rewrite opp_val, !Ropp_mult_distr_l_reverse, !Rabs_Ropp. repeat split; lra. Qed.
Lemma near_cproducts {t} (ps : list (complex t * complex t)) v : near2 v (total_of (products_of ps)) -> cfinite_pairs ps -> cproduct_no_overflow ps -> cproducts_to ps v.
Proof. intros N F [L1 L2]. destruct (conj_mag ps) as (M1 & M2 & D1 & D2). assert (Ln : length (conjugated ps) = length ps) by (unfold conjugated; apply map_length).
  destruct (near_cdots t (conjugated ps) v) as [H1 H2].
  - unfold total_of, products_of in N. rewrite map_map in N. unfold conjugated. rewrite map_map. erewrite map_ext; [exact N|]. intro p. cbn [fst snd]. unfold cdot_mul. now rewrite cconj_conj.
  - unfold cfinite_pairs, conjugated. apply Forall_map. eapply Forall_impl; [|exact F]. intros p [[A B] C]. split; [|exact C]. split; [exact A|]. cbn [fst snd cconj]. now apply opp_finite.
  - rewrite Ln, M1, D1 in H1. rewrite Ln, M2, D2 in H2. split; auto. Qed.
Lemma part_fits t n m m' : (1 <= n)%nat -> 0 <= m' <= m -> part_no_overflow t n m -> part_no_overflow t 1 m'.
Proof. intros N M L. unfold part_no_overflow, cdot_underflow in *. eapply Rle_lt_trans; [|exact L]. pose proof (rounded_1 t (1 + 1)) as G. pose proof (rounded_1 t 1) as G1. pose proof (small_pos t) as S0. apply Rplus_le_compat.
  - apply Rmult_le_compat; [lra|lra|apply rounded_le; lia|lra].
  - apply Rmult_le_compat_r; [lra|]. apply Rmult_le_compat; [cbn; lra|lra| |apply rounded_le; lia]. apply Rmult_le_compat_l; [lra|]. now apply le_INR. Qed.
Lemma member_mag {t} (f g : complex t -> float t) ps p : In p ps -> 0 <= dot_magnitude (parts f g [p]) <= dot_magnitude (parts f g ps).
Proof. intro I. unfold dot_magnitude, parts. rewrite !map_map. cbn [fst snd]. assert (P0 : forall q : complex t * complex t, 0 <= Rabs (val (f (fst q)) * val (g (snd q)))) by (intro; apply Rabs_pos).
  pose proof (rsum_member_le (fun q => Rabs (val (f (fst q)) * val (g (snd q)))) ps p P0 I) as H. unfold rsum in *. cbn [map fold_right]. specialize (P0 p). lra. Qed.
Lemma products_finite {t} (ps : list (complex t * complex t)) : cfinite_pairs ps -> cproduct_no_overflow ps -> Forall cfinite (products_of ps).
Proof. intros F [L1 L2]. unfold products_of. apply Forall_map. unfold cfinite_pairs in F. rewrite Forall_forall in *. intros p I. assert (N : (1 <= length ps)%nat) by (destruct ps; [easy|cbn; lia]).
  destruct (near_cproducts [p] (cmul (fst p) (snd p))) as [[A _] [B _]]; [| | |split; assumption].
  - unfold total_of, products_of, total. cbn [map fold_right]. rewrite add_2_comm, add_2_l. apply near2_of.
  - constructor; [now apply F|constructor].
  - pose proof (member_mag fst fst ps p I). pose proof (member_mag snd snd ps p I). pose proof (member_mag fst snd ps p I). pose proof (member_mag snd fst ps p I).
    split; [apply (part_fits t (length ps) (re_magnitude ps))|apply (part_fits t (length ps) (im_magnitude ps))]; auto; unfold re_magnitude, im_magnitude; lra. Qed.

(** ** entries *)
Definition cruns {t} (z : complex t) (vs : list (complex t)) (v : complex t) : Prop :=
  v = fold_left (fun v p => cadd (cmul cone p) v) vs (cmul czero z) \/ v = fold_left (fun v p => cadd v (cmul cone p)) vs (cmul czero z).
Lemma cruns_ok {t} (z : complex t) ps v : cruns z (products_of ps) v -> cfinite z -> cfinite_pairs ps -> cproduct_no_overflow ps -> cproducts_to ps v.
Proof. intros R Fz F L. apply near_cproducts; auto. pose proof (products_finite ps F L) as FP. destruct (czero_null z Fz) as ([Z1 Z2] & Z3 & Z4).
  assert (E : total_of (map (cmul cone) (products_of ps)) = total_of (products_of ps)).
  { unfold total_of. f_equal. rewrite map_map. apply map_ext_in. intros p I. rewrite Forall_forall in FP. destruct (cone_same p (FP p I)) as (A & B & C). apply of_2_same; auto. }
  assert (N : near2 (cmul czero z) (sh_zero, sh_zero)) by (split; now apply near_null).
  rewrite <- E, <- (add_2_l (total_of _)), add_2_comm. destruct R as [->| ->]; apply (fold_near2 (cmul cone)); auto. Qed.
Definition cpar_runs {t} (z : complex t) (vs : list (complex t)) (v : complex t) : Prop :=
  exists tr, v = cadd (cmul z czero) (cmul (tree_sum czero cadd tr vs) cone) \/ v = cadd (cmul (tree_sum czero cadd tr vs) cone) (cmul z czero).
Lemma cadd_comm t (x y : complex t) : cadd x y = cadd y x. Proof. unfold cadd. now rewrite (fadd_comm t (fst x)), (fadd_comm t (snd x)). Qed.
Lemma cpar_ok {t} (z : complex t) ps v : cpar_runs z (products_of ps) v -> cfinite z -> cfinite_pairs ps -> cproduct_no_overflow ps -> cproducts_to ps v.
Proof. intros (tr & R) Fz F L. assert (E : v = cadd (cmul cone (tree_sum czero cadd tr (products_of ps))) (cmul czero z)).
  { destruct R as [->| ->]; rewrite (cmul_comm t _ cone), (cmul_comm t z czero); [apply cadd_comm|reflexivity]. }
  destruct (near_cproducts ps _ (tree_near2 tr (products_of ps)) F L) as [[A1 A2] [B1 B2]]. destruct (czero_null z Fz) as ([Z1 Z2] & Z3 & Z4). destruct (cone_same _ (conj A1 B1)) as ([C1 C2] & C3 & C4).
  destruct (add_zero t _ _ C1 Z1 Z3) as [D1 D2]. destruct (add_zero t _ _ C2 Z2 Z4) as [G1 G2]. rewrite E. unfold cproducts_to, part_to. cbn [fst snd cadd]. rewrite D1, G1, C3, C4. auto. Qed.

Lemma cfactors_of {t} (a : list (complex t)) la b lb ts vs : products cmul a la b lb ts vs -> exists ps, factors a la b lb ts ps /\ vs = products_of ps.
Proof. unfold products, factors. induction 1 as [|i v ts vs (x & y & Hx & Hy & ->) H (ps & F & ->)]. { exists []. split; constructor. } exists ((x, y) :: ps). split; [|reflexivity]. constructor; auto. Qed.
Lemma l_cmatmul : forall t k o junk (a b : tensor (complex t)), tensor_ok a -> tensor_ok b -> anchored (t_layout a) -> anchored (t_layout b) -> (forall i, cfinite (junk i)) ->
  match cmatmul k o junk a b with
  | Ok r => product_shape o (t_shape a) (t_shape b) (t_shape r) /\ same_batch_rank (t_shape a) (t_shape b) /\ tensor_ok r /\
      forall cx, valid (t_shape r) cx -> exists ts ps v, contracts o (t_shape a) (t_shape b) cx ts /\ factors (t_data a) (t_layout a) (t_data b) (t_layout b) ts ps /\ at_ r cx = Some v /\
        (cfinite_pairs ps -> cproduct_no_overflow ps -> cproducts_to ps v)
  | Err _ => (forall s, ~ product_shape o (t_shape a) (t_shape b) s) \/ ~ same_batch_rank (t_shape a) (t_shape b)
  | Panic => False
  end.
Proof. intros t k o junk a b Ta Tb Aa Ab FJ. unfold cmatmul.
  pose proof (l_matmul_by (complex t) (complex t) (complex t) k o cmul cmul czero cadd cmul junk a b cone cruns ltac:(intros; left; reflexivity) ltac:(intros; right; reflexivity) ltac:(intros; apply cmul_comm) Ta Tb Aa Ab) as H.
  destruct (op_matmul k o cmul cmul cmul cadd czero junk a b cone) as [r|e|]; auto. destruct H as (H1 & H2 & H3 & _ & H). split; [exact H1|]. split; [exact H2|]. split; [exact H3|].
  intros cx V. destruct (H cx V) as (ts & vs & i & v & CT & PR & Hv & R). destruct (cfactors_of _ _ _ _ _ _ PR) as (ps & F & ->). exists ts, ps, v. split; [exact CT|]. split; [exact F|]. split; [exact Hv|]. intros. now apply (cruns_ok (junk i)). Qed.
Lemma l_cgemm_rayon : forall t (c a b : tensor (complex t)) M K N r, tensor_ok a -> tensor_ok b -> tensor_ok c -> injective (t_layout c) -> t_shape a = [M; K] -> t_shape b = [K; N] -> t_shape c = [M; N] ->
  cgemm_rayon (t_data c) (t_layout c) (t_data a) (t_layout a) (t_data b) (t_layout b) r ->
  exists c', r = Ok c' /\ untouched_outside (t_layout c) (t_data c) c' /\
    forall cx, valid (t_shape c) cx -> exists ts ps z v, contracts RowMajor (t_shape a) (t_shape b) cx ts /\ factors (t_data a) (t_layout a) (t_data b) (t_layout b) ts ps /\
      at_ c cx = Some z /\ elem c' (t_layout c) cx = Some v /\ (cfinite z -> cfinite_pairs ps -> cproduct_no_overflow ps -> cproducts_to ps v).
Proof. intros t c a b M K N r Ta Tb Tc Jc Sa Sb Sc H. apply tensor_ok_good in Ta as [Ga Ia], Tb as [Gb Ib], Tc as [Gc Ic].
  destruct (l_gemm_rayon_by (complex t) (complex t) (complex t) cmul czero cadd cmul (t_data a) (t_layout a) (t_data b) (t_layout b) (t_data c) (t_layout c) M K N cone czero r cpar_runs) as (c' & E & U & V); auto.
  { intros z vs. exists Leaf. left. reflexivity. }
  exists c'. split; [exact E|]. split; [exact U|]. intros cx Vx. destruct (V cx Vx) as (ts & vs & z & v & CT & PR & Hz & Hv & R). destruct (cfactors_of _ _ _ _ _ _ PR) as (ps & F & ->).
  exists ts, ps, z, v. split; [exact CT|]. split; [exact F|]. split; [exact Hz|]. split; [exact Hv|]. intros. now apply (cpar_ok z). Qed.
Lemma l_cinner_dot_rayon : forall t tr (c a b : tensor (complex t)) K, tensor_ok a -> tensor_ok b -> tensor_ok c -> t_shape a = [K] -> t_shape b = [K] -> t_shape c = [] ->
  exists c', cinner_dot_rayon tr (t_data c) (t_layout c) (t_data a) (t_layout a) (t_data b) (t_layout b) = Ok c' /\ untouched_outside (t_layout c) (t_data c) c' /\
    exists ts ps z v, contracts RowMajor (t_shape a) (t_shape b) [] ts /\ factors (t_data a) (t_layout a) (t_data b) (t_layout b) ts ps /\ at_ c [] = Some z /\ elem c' (t_layout c) [] = Some v /\
      (cfinite z -> cfinite_pairs ps -> cproduct_no_overflow ps -> cproducts_to ps v).
Proof. intros t tr c a b K Ta Tb Tc Sa Sb Sc. apply tensor_ok_good in Ta as [Ga Ia], Tb as [Gb Ib], Tc as [Gc Ic].
  destruct (l_inner_dot_rayon_by (complex t) (complex t) (complex t) tr cmul czero cadd cmul (t_data a) (t_layout a) (t_data b) (t_layout b) (t_data c) (t_layout c) K cone czero cpar_runs) as (c' & E & U & V); auto.
  { intros z vs. exists tr. right. reflexivity. }
  exists c'. split; [exact E|]. split; [exact U|]. destruct (V []) as (ts & vs & z & v & CT & PR & Hz & Hv & R). { unfold t_shape in Sc. rewrite Sc. constructor. } destruct (cfactors_of _ _ _ _ _ _ PR) as (ps & F & ->).
  exists ts, ps, z, v. split; [exact CT|]. split; [exact F|]. split; [exact Hz|]. split; [exact Hv|]. intros. now apply (cpar_ok z). Qed.

(** ** what does not hold *)
(** the product of two 1 x 1 matrices is not the product of the two numbers: an imaginary part that overflows makes the real part NaN *)
Lemma l_cmatmul_parts_refuted : exists (x y : complex F64) r v, let a := mkTensor [x] (mkLayout [1; 1]%nat [1; 1]%Z 0) in let b := mkTensor [y] (mkLayout [1; 1]%nat [1; 1]%Z 0) in
  cfinite x /\ cfinite y /\ re_magnitude [(x, y)] = 0 /\ fst (cmul x y) = fzero /\
  cmatmul Fixed RowMajor (fun _ => czero) a b = Ok r /\ at_ r [0; 0]%nat = Some v /\ is_nan (fst v) = true.
Proof. set (big := of_int (2 ^ 600) : float F64). exists (big, fzero), (fzero, big).
  assert (X : match cmatmul Fixed RowMajor (fun _ => czero) (mkTensor [(big, fzero)] (mkLayout [1; 1]%nat [1; 1]%Z 0)) (mkTensor [(fzero, big)] (mkLayout [1; 1]%nat [1; 1]%Z 0)) with
    Ok r => match at_ r [0; 0]%nat with Some v => is_nan (fst v) | None => false end | _ => false end = true) by (vm_compute; reflexivity).
  destruct (cmatmul _ _ _ _ _) as [r| |] eqn:Er; try discriminate X. destruct (at_ r [0; 0]%nat) as [v|] eqn:Ev; [|discriminate X]. exists r, v. cbv zeta.
  split; [split; vm_compute; reflexivity|]. split; [split; vm_compute; reflexivity|].
  split. { unfold re_magnitude, dot_magnitude, parts, rsum. cbn [map fold_right fst snd]. unfold val, fzero. cbn [B2R]. rewrite Rmult_0_l, Rmult_0_r, Rabs_R0. lra. }
  split; [vm_compute; reflexivity|]. split; [exact Er|]. split; [exact Ev|exact X]. Qed.
