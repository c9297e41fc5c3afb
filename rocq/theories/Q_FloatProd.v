(** Closed statements about products and norms of floating-point numbers *)
From Coq Require Import ZArith Reals List Lia Lra Bool.
From Flocq Require Import Core Relative BinarySingleNaN.
From Verif Require Import Base Spec Spec_Stats Spec_Float Spec_FloatReduce Spec_FloatMatmul Spec_FloatProd M_Layout M_Tensor P_Tensor Q_Tensor M_Reduce P_Axes M_Stats Q_Stats P_Param P_Shadow M_Float P_FloatOps P_FloatLinspace M_FloatReduce P_FloatSum Q_FloatReduce P_FloatDot Q_FloatVecdot M_FloatProd P_FloatProd.
Import ListNotations.
Local Open Scope R_scope.

Lemma prod_zero t (xs : list (float t)) : Exists (fun x : float t => val x = 0) xs -> exact_prod xs = 0.
Proof. unfold exact_prod. induction 1 as [x xs H|x xs H IH]; cbn [map rprod fold_right]; [rewrite H|unfold rprod in IH; rewrite IH]; ring. Qed.
Lemma near_prods t (xs : list (float t)) s : nearp s (total ps_one ps_mul (map (ps_of is_finite) xs)) -> Forall finite xs -> prod_no_overflow xs -> multiplies_to xs s.
Proof. rewrite ps_total. intros [_ H] F N. destruct H as (A & B & _ & D); auto. { apply sh_good. intros x I. rewrite Forall_forall in F. now apply F. } split; [exact A|]. split; [exact B|]. intro Z. apply D. now apply prod_zero. Qed.
Lemma hit_prods t (xs : list (float t)) (s : float t) : hitp s (total ps_one ps_mul (map (ps_of (is_multiple 0)) xs)) -> multiples 0 xs -> growth xs <= two (prec t) -> finite s /\ val s = exact_prod xs.
Proof. rewrite ps_total. intros [_ H] F N. destruct H as (A & B & _); auto. apply sh_good. intros x I. unfold multiples in F. rewrite Forall_forall in F. destruct (F x I). now apply multiple_bool. Qed.
Section Products.
  Context {t : float_type} (G : float t -> shadow -> Prop) (of : float t -> shadow).
  Context (G1 : G (of_int 1) ps_one) (Gm : forall x y s s', G x s -> G y s' -> G (fmul x y) (ps_mul s s')) (Go : forall x, G x (of x)).
  Context (P : list (float t) -> float t -> Prop) (GP : forall xs s, G s (total ps_one ps_mul (map of xs)) -> P xs s).
  Lemma prod_all_as dev k (a : tensor (float t)) xs : works dev -> tensor_ok a -> elements (t_data a) (t_layout a) (row_major (t_shape a)) xs -> exists s, fprod_all dev k a = Ok s /\ P xs s.
  Proof using G1 Gm Go GP. intros W Ht E. destruct (shadow_all G (of_int 1) fmul fmul same ps_one ps_mul of ps_monoid G1 (fun x y p H => Gm _ _ _ _ H (Go p)) (fun x y x' y' => Gm x x' y y') dev k a xs W Ht E) as (s & R & y & Es & N). subst s. exists y. split; [exact R|]. now apply GP. Qed.
  Lemma prod_axes_as dev adev dflt k (a : tensor (float t)) axes ax r : works dev -> tensor_ok a -> reducible a ax -> names (ndim (t_layout a)) axes ax ->
    stat_axes_f (fprod_all dev k a) (fprod_axes adev dflt a) axes r -> exists t', r = Ok t' /\ tables_as a ax P t'.
  Proof using G1 Gm Go GP. intros W Ht Rd N. apply stat_as; auto.
    - intros xs E. now apply prod_all_as.
    - clear ax Rd N. intros v ax q S0 NB D ND R. destruct (shadow_axes G (of_int 1) fmul fmul same ps_one ps_mul of ps_monoid G1 (fun x y p H => Gm _ _ _ _ H (Go p)) (fun x y x' y' => Gm x x' y y') adev dflt a v ax q Ht S0 NB D ND R) as (out & lo & Eq & En & Eo & Sh & El).
      exists out, lo. split; auto. split; auto. split; auto. split; auto. intros mx xs V Ex. destruct (El mx xs V Ex) as (o & Eo' & y & -> & Ny). exists y. split; [exact Eo'|]. now apply GP. Qed.
End Products.
Lemma l_fprod : forall t dev k (a : tensor (float t)) xs, works dev -> tensor_ok a -> elements (t_data a) (t_layout a) (row_major (t_shape a)) xs ->
  exists p, fprod_all dev k a = Ok p /\ (Forall finite xs -> prod_no_overflow xs -> multiplies_to xs p).
Proof. intros t dev k a xs W Ht E. apply (prod_all_as nearp (ps_of is_finite) nearp_one (fun x y s s' => nearp_mul x y s s') nearp_of (fun xs p => Forall finite xs -> prod_no_overflow xs -> multiplies_to xs p)); auto. intros. now apply near_prods. Qed.
Lemma l_fprod_axes : forall t dev adev dflt k (a : tensor (float t)) axes ax r, works dev -> tensor_ok a -> reducible a ax -> names (ndim (t_layout a)) axes ax ->
  stat_axes_f (fprod_all dev k a) (fprod_axes adev dflt a) axes r -> exists t', r = Ok t' /\ tables_as a ax (fun xs p => Forall finite xs -> prod_no_overflow xs -> multiplies_to xs p) t'.
Proof. intros t dev adev dflt k a axes ax r. apply (prod_axes_as nearp (ps_of is_finite) nearp_one (fun x y s s' => nearp_mul x y s s') nearp_of). intros. now apply near_prods. Qed.
Lemma l_fprod_exact : forall t dev adev dflt k (a : tensor (float t)) axes ax r, works dev -> tensor_ok a -> reducible a ax -> names (ndim (t_layout a)) axes ax ->
  stat_axes_f (fprod_all dev k a) (fprod_axes adev dflt a) axes r -> exists t', r = Ok t' /\ tables_as a ax (fun xs p => multiples 0 xs -> growth xs <= two (prec t) -> finite p /\ val p = exact_prod xs) t'.
Proof. intros t dev adev dflt k a axes ax r. apply (prod_axes_as hitp (ps_of (is_multiple 0)) hitp_one (fun x y s s' => hitp_mul x y s s') hitp_of). intros. now apply hit_prods. Qed.

(** ** norms *)
Definition nearn {t} (x : float t) (s : shadow) : Prop := near x s /\ nonneg x.
Lemma nearn_zero {t} : nearn (fzero : float t) sh_zero. Proof. split; [apply near_zero|]. intros _. unfold val. cbn. lra. Qed.
Lemma nearn_add {t} (x y : float t) s s' : nearn x s -> nearn y s' -> nearn (fadd x y) (sh_add s s').
Proof. intros [A B] [A' B']. split; [now apply near_add|now apply nonneg_add]. Qed.
Definition sq_of {t} (x : float t) : shadow := sh_of is_finite (fmul x x).
Lemma nearn_f {t} (x : float t) y p : nearn x y -> nearn (fadd x (fmul p p)) (sh_add y (sq_of p)).
Proof. intro H. apply nearn_add; auto. split; [apply near_of|apply nonneg_square]. Qed.
Lemma squares_pos t (xs : list (float t)) : 0 <= exact_dot (squares xs).
Proof. unfold exact_dot, squares. rewrite map_map. cbn [fst snd]. induction xs as [|x xs IH]; cbn [map rsum fold_right]; [lra|]. unfold rsum in IH. nra. Qed.
Lemma squares_magnitude t (xs : list (float t)) : dot_magnitude (squares xs) = exact_dot (squares xs).
Proof. unfold exact_dot, dot_magnitude, squares. rewrite !map_map. cbn [fst snd]. f_equal. apply map_ext. intro x. apply Rabs_pos_eq. nra. Qed.
Lemma near_norms t (xs : list (float t)) s : nearn s (total sh_zero sh_add (map sq_of xs)) -> Forall finite xs -> dot_no_overflow (squares xs) -> norms_to xs (fsqrt s).
Proof. intros [N S0] F NO. assert (D : dots_to (squares xs) s). { apply near_dots; auto. - unfold squares. rewrite map_map. exact N. - unfold finite_pairs, squares. apply Forall_map. apply Forall_impl with (2 := F). auto. }
  destruct D as [Fs E]. unfold squares in E at 2 4. rewrite map_length in E. rewrite squares_magnitude in E. specialize (S0 Fs). pose proof (squares_pos t xs) as X0.
  assert (DU : 0 <= dot_underflow t (length xs)). { unfold dot_underflow. repeat apply Rmult_le_pos; [apply pos_INR|pose proof (rounded_1 t (length xs - 1)); lra|pose proof (smallest_pos t); lra]. }
  pose proof (sqrt_near _ _ _ _ S0 X0 (rounded_1 t (length xs)) DU E) as Q. destruct (fsqrt_val t s Fs S0) as [V Fq]. split; [exact Fq|]. rewrite V. fold (exact_norm xs) in Q. set (z := sqrt (val s)) in *. pose proof (rnd_err t z) as Er.
  assert (Z0 : 0 <= z) by apply sqrt_pos. assert (N0 : 0 <= exact_norm xs) by apply sqrt_pos. rewrite (Rabs_pos_eq z) in Er by exact Z0. pose proof (unit_pos t) as U. rewrite Nat.add_1_r, rounded_S. unfold rounded at 2. rewrite pow_1. set (g := rounded t (length xs)) in *. set (u := unit_roundoff t) in *. set (w := sqrt (dot_underflow t (length xs))) in *.
  replace (rnd t z - exact_norm xs) with ((rnd t z - z) + (z - exact_norm xs)) by ring. eapply Rle_trans; [apply Rabs_triang|]. pose proof (Rle_abs (z - exact_norm xs)). assert (u * z <= u * (g * exact_norm xs + w)) by (apply Rmult_le_compat_l; lra). lra. Qed.
Lemma l_fnorm : forall t dev k (a : tensor (float t)) xs, works dev -> tensor_ok a -> elements (t_data a) (t_layout a) (row_major (t_shape a)) xs ->
  exists s, fnorm_all dev k a = Ok s /\ (Forall finite xs -> dot_no_overflow (squares xs) -> norms_to xs s).
Proof. intros t dev k a xs W Ht E. destruct (shadow_all nearn fzero (fun acc x => fadd acc (fmul x x)) fadd fsqrt sh_zero sh_add sq_of sh_monoid nearn_zero nearn_f (fun x y x' y' => nearn_add x x' y y') dev k a xs W Ht E) as (s & R & y & Es & N). subst s. exists (fsqrt y). split; [exact R|]. now apply near_norms. Qed.
Lemma l_fnorm_axes : forall t dev adev dflt k (a : tensor (float t)) axes ax r, works dev -> tensor_ok a -> reducible a ax -> names (ndim (t_layout a)) axes ax ->
  stat_axes_f (fnorm_all dev k a) (fnorm_axes adev dflt a) axes r -> exists t', r = Ok t' /\ tables_as a ax (fun xs s => Forall finite xs -> dot_no_overflow (squares xs) -> norms_to xs s) t'.
Proof. intros t dev adev dflt k a axes ax r W Ht Rd N. apply stat_as; auto.
  - intros xs E. now apply l_fnorm.
  - clear ax Rd N. intros v ax q S0 NB D ND R. destruct (shadow_axes nearn fzero (fun acc x => fadd acc (fmul x x)) fadd fsqrt sh_zero sh_add sq_of sh_monoid nearn_zero nearn_f (fun x y x' y' => nearn_add x x' y y') adev dflt a v ax q Ht S0 NB D ND R) as (out & lo & Eq & En & Eo & Sh & El).
    exists out, lo. split; auto. split; auto. split; auto. split; auto. intros mx xs V Ex. destruct (El mx xs V Ex) as (o & Eo' & y & -> & Ny). exists (fsqrt y). split; [exact Eo'|]. now apply near_norms. Qed.
(** ** what rounding breaks: the order of the factors decides about overflow *)
Definition big_small : list (float F64) := [of_int (2 ^ 600)] ++ repeat (of_int 1) 1023 ++ [of_int (2 ^ 600)] ++ repeat (of_int 1) 1023 ++ [fdiv (of_int 1) (of_int (2 ^ 600))].
Lemma l_fprod_schedule_refuted : let a := row big_small in tensor_ok a /\
  exists s p, fprod_all AllSerial Fixed a = Ok s /\ fprod_all (AllRayon 1024 Leaf (fun _ => Node 1 Leaf Leaf)) Fixed a = Ok p /\ feq s (B754_infinity false) = true /\ feq p (of_int (2 ^ 600)) = true.
Proof. intro a. split; [apply row_ok; vm_compute; reflexivity|].
  assert (C : ok_and (fun s => feq s (B754_infinity false)) (fprod_all AllSerial Fixed a) = true) by (vm_compute; reflexivity).
  assert (D : ok_and (fun s => feq s (of_int (2 ^ 600))) (fprod_all (AllRayon 1024 Leaf (fun _ => Node 1 Leaf Leaf)) Fixed a) = true) by (vm_compute; reflexivity).
  apply ok_and_ex in C as (s & Es & C). apply ok_and_ex in D as (p & Ep & D). exists s, p. auto. Qed.
