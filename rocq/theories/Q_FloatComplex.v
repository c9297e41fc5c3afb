(** Closed statements about tensors of complex floating-point numbers *)
From Coq Require Import ZArith Reals List Lia Lra Bool.
From Flocq Require Import Core Relative BinarySingleNaN.
From Verif Require Import Base Spec Spec_Stats Spec_Tensordot Spec_Vecdot Spec_Float Spec_FloatReduce Spec_FloatMatmul Spec_FloatProd Spec_FloatComplex P_Index M_Layout M_Indexer P_Indexer M_Tensor P_Tensor Q_Tensor M_Iter M_Reduce P_Axes M_Stats Q_Stats M_Vecdot P_Param P_Shadow M_Float P_FloatOps M_FloatReduce P_FloatSum Q_FloatReduce P_FloatProd Q_FloatProd M_FloatComplex P_DotShadow P_FloatComplex.
Import ListNotations.
Local Open Scope R_scope.

Lemma monoid_2 : comm_monoid (sh_zero, sh_zero) add_2. Proof. exact (pair_monoid _ _ _ _ sh_monoid sh_monoid). Qed.
Lemma near2_f t (x : complex t) y p : near2 x y -> near2 (cadd x p) (add_2 y (of_2 p)).
Proof. intro H. apply near2_add; auto. apply near2_of. Qed.
Lemma near2_csums t (xs : list (complex t)) z : near2 z (total (sh_zero, sh_zero) add_2 (map of_2 xs)) -> csums_to xs z.
Proof. unfold of_2. rewrite total_2. intros [A B]. cbn [fst snd] in A, B. unfold csums_to, reals, imags. split; intros; apply near_sums; auto; rewrite map_map; assumption. Qed.
Section Sums.
  Context {t : float_type} (out : complex t -> complex t) (P : list (complex t) -> complex t -> Prop).
  Lemma all_as dev k (a : tensor (complex t)) xs : (forall s, csums_to xs s -> P xs (out s)) -> works dev -> tensor_ok a -> elements (t_data a) (t_layout a) (row_major (t_shape a)) xs -> exists s, run_all dev czero cadd cadd out k a = Ok s /\ P xs s.
  Proof. intros HP W Ht E. destruct (shadow_all near2 czero cadd cadd out (sh_zero, sh_zero) add_2 of_2 monoid_2 near2_zero (near2_f t) (fun x y x' y' => near2_add x x' y y') dev k a xs W Ht E) as (s & R & y & Es & N). subst s. exists (out y). split; [exact R|]. apply HP. now apply near2_csums. Qed.
  Lemma axes_as adev dflt (a : tensor (complex t)) v ax q : tensor_ok a -> size (t_shape a) <> 0%nat -> no_broadcast (t_layout a) -> Forall2 (axis_denotes (ndim (t_layout a))) v ax -> NoDup ax ->
    (forall mx xs s, valid (pick (axes_except (ndim (t_layout a)) ax) 0%nat (t_shape a)) mx -> elements (t_data a) (t_layout a) (group (t_shape a) ax mx) xs -> csums_to xs s -> P xs (out s)) -> run_axes adev dflt czero cadd cadd out a v q ->
    exists o lo, q = Ok (o, lo) /\ tensor_new o lo = Ok (mkTensor o lo) /\ tensor_ok (mkTensor o lo) /\ l_shape lo = pick (axes_except (ndim (t_layout a)) ax) 0%nat (t_shape a) /\
      forall mx xs, valid (l_shape lo) mx -> elements (t_data a) (t_layout a) (group (t_shape a) ax mx) xs -> exists s, elem o lo mx = Some s /\ P xs s.
  Proof. intros Ht S0 NB D ND HP R. destruct (shadow_axes near2 czero cadd cadd out (sh_zero, sh_zero) add_2 of_2 monoid_2 near2_zero (near2_f t) (fun x y x' y' => near2_add x x' y y') adev dflt a v ax q Ht S0 NB D ND R) as (o & lo & Eq & En & Eo & Sh & El).
    exists o, lo. split; auto. split; auto. split; auto. split; auto. intros mx xs V Ex. destruct (El mx xs V Ex) as (s & Eo' & y & -> & Ny). exists (out y). split; [exact Eo'|]. apply (HP mx); auto; [now rewrite <- Sh|]. now apply near2_csums. Qed.
End Sums.
Lemma l_csum : forall t dev adev dflt k (a : tensor (complex t)) axes ax r, works dev -> tensor_ok a -> reducible a ax -> names (ndim (t_layout a)) axes ax ->
  stat_axes_f (csum_all dev k a) (csum_axes adev dflt a) axes r -> exists t', r = Ok t' /\ tables_as a ax csums_to t'.
Proof. intros t dev adev dflt k a axes ax r W Ht Rd N. apply stat_as; auto.
  - intros xs E. apply all_as; auto.
  - clear ax Rd N. intros v ax q S0 NB D ND R. apply (axes_as csame csums_to adev dflt a v ax q); auto. Qed.
Lemma parts_finite {t} (xs : list (complex t)) : Forall cfinite xs -> Forall finite (reals xs) /\ Forall finite (imags xs).
Proof. intro F. unfold reals, imags. rewrite !Forall_map. split; (eapply Forall_impl; [|exact F]); intros x [A B]; auto. Qed.
Lemma csums_average t (xs : list (complex t)) s : csums_to xs s -> caverages_to xs (cdiv_count s (length xs)).
Proof. intros [A B] F Or Oi N L. destruct (parts_finite xs F) as [Fr Fi]. apply cmean_rounds; auto. Qed.
Lemma l_cmean : forall t dev adev dflt k (a : tensor (complex t)) axes ax r, works dev -> tensor_ok a -> reducible a ax -> names (ndim (t_layout a)) axes ax ->
  stat_axes_f (cmean_all dev k a) (cmean_axes adev dflt a) axes r -> exists t', r = Ok t' /\ tables_as a ax caverages_to t'.
Proof. intros t dev adev dflt k a axes ax r W Ht Rd N. apply stat_as; auto.
  - intros xs E. unfold cmean_all. apply all_as; auto. intros s H. rewrite (all_size a xs E). now apply csums_average.
  - clear ax Rd N. intros v ax q S0 NB D ND R. unfold cmean_axes in R. pose proof Ht as Ht'. apply tensor_ok_good in Ht' as [G I]. destruct (split_axes_total (t_layout a) v ax G S0 D ND) as (l1 & l2 & E & _ & _). rewrite E in R.
    apply (axes_as (fun x => cdiv_count x (l_size (fst (l1, l2)))) caverages_to adev dflt a v ax q); auto. intros mx xs s V Ex H. cbv beta. rewrite (group_size a v ax (l1, l2) mx xs); auto. now apply csums_average. Qed.

(** ** norms *)
Definition abs_of {t} (x : complex t) : shadow := sh_of is_finite (cabs2 x).
Lemma nearn_abs {t} (x : float t) y p : nearn x y -> nearn (fadd x (cabs2 p)) (sh_add y (abs_of p)).
Proof. intro H. apply nearn_add; auto. split; [apply near_of|apply nonneg_abs2]. Qed.
Lemma l_cnorm : forall t dev adev dflt k (a : tensor (complex t)) axes ax r, works dev -> tensor_ok a -> reducible a ax -> names (ndim (t_layout a)) axes ax ->
  stat_axes_f (cnorm_all dev k a) (cnorm_axes adev dflt a) axes r -> exists t', r = Ok t' /\ tables_as a ax (fun xs s => Forall cfinite xs -> part_no_overflow t (length xs) (exact_abs2 xs) -> cnorms_to xs s) t'.
Proof. intros t dev adev dflt k a axes ax r W Ht Rd N. apply stat_as; auto.
  - intros xs E. destruct (shadow_all nearn fzero (fun acc x => fadd acc (cabs2 x)) fadd fsqrt sh_zero sh_add abs_of sh_monoid nearn_zero nearn_abs (fun x y x' y' => nearn_add x x' y y') dev k a xs W Ht E) as (s & R & y & Es & [N1 N2]). subst s. exists (fsqrt y). split; [exact R|]. intros. now apply near_cnorms.
  - clear ax Rd N. intros v ax q S0 NB D ND R. destruct (shadow_axes nearn fzero (fun acc x => fadd acc (cabs2 x)) fadd fsqrt sh_zero sh_add abs_of sh_monoid nearn_zero nearn_abs (fun x y x' y' => nearn_add x x' y y') adev dflt a v ax q Ht S0 NB D ND R) as (out & lo & Eq & En & Eo & Sh & El).
    exists out, lo. split; auto. split; auto. split; auto. split; auto. intros mx xs V Ex. destruct (El mx xs V Ex) as (o & Eo' & y & -> & [N1 N2]). exists (fsqrt y). split; [exact Eo'|]. intros. now apply near_cnorms. Qed.

(** ** dot products *)
Notation go2 := (fun x y => near2_of (cdot_mul x y)).
Lemma l_cvecdot : forall t o (a b : tensor (complex t)) axes, tensor_ok a -> tensor_ok b -> size (t_shape a) <> 0%nat -> size (t_shape b) <> 0%nat ->
  match cvecdot o a b axes with
  | Ok c => tensor_ok c /\ exists pa pb, contractible o (t_shape a) (t_shape b) axes pa pb (t_shape c) /\ forall mx, valid (t_shape c) mx ->
      exists v ps, at_ c mx = Some v /\ multiplied o a b pa pb mx ps /\ (cfinite_pairs ps -> cdots_to ps v)
  | Err _ => ~ exists pa pb s, contractible o (t_shape a) (t_shape b) axes pa pb s
  | Panic => False
  end.
Proof. intros t o a b axes Ta Tb Sa Sb. pose proof (ds_vecdot near2 czero cadd cdot_mul (sh_zero, sh_zero) add_2 (fun x y => of_2 (cdot_mul x y)) monoid_2 near2_zero near2_add go2 o a b axes Ta Tb Sa Sb) as H. unfold cvecdot.
  destruct (vecdot czero cadd cdot_mul o a b axes) as [c|e|]; auto. destruct H as (Tc & pa & pb & Cn & H). split; auto. exists pa, pb. split; auto. intros mx V. destruct (H mx V) as (v & Hv & ps & Hp & N). exists v, ps. split; auto. split; auto. now apply near_cdots. Qed.
Lemma l_cvecdot_rayon : forall t switch pool o (a b : tensor (complex t)) axes r, tensor_ok a -> tensor_ok b -> size (t_shape a) <> 0%nat -> size (t_shape b) <> 0%nat -> injective (t_layout a) -> injective (t_layout b) -> cvecdot_rayon switch pool o a b axes r ->
  match r with
  | Ok c => tensor_ok c /\ injective (t_layout c) /\ exists pa pb, contractible o (t_shape a) (t_shape b) axes pa pb (t_shape c) /\ forall mx, valid (t_shape c) mx ->
      exists v ps, at_ c mx = Some v /\ multiplied o a b pa pb mx ps /\ (cfinite_pairs ps -> cdots_to ps v)
  | Err _ => ~ exists pa pb s, contractible o (t_shape a) (t_shape b) axes pa pb s
  | Panic => False
  end.
Proof. intros t switch pool o a b axes r Ta Tb Sa Sb Ja Jb Hr. pose proof (ds_rayon near2 czero cadd cdot_mul (sh_zero, sh_zero) add_2 (fun x y => of_2 (cdot_mul x y)) monoid_2 near2_zero near2_add go2 switch pool o a b axes r Ta Tb Sa Sb Ja Jb Hr) as H.
  destruct r as [c|e|]; auto. destruct H as (Tc & J & pa & pb & Cn & H). split; auto. split; auto. exists pa, pb. split; auto. intros mx V. destruct (H mx V) as (v & Hv & ps & Hp & N). exists v, ps. split; auto. split; auto. now apply near_cdots. Qed.
Lemma l_cvecdot_from : forall t o (c a b : tensor (complex t)) axes, tensor_ok c -> tensor_ok a -> tensor_ok b -> size (t_shape a) <> 0%nat -> size (t_shape b) <> 0%nat -> injective (t_layout c) ->
  match cvecdot_from o c a b axes with
  | Ok c' => t_layout c' = t_layout c /\ untouched_outside (t_layout c) (t_data c) (t_data c') /\ exists pa pb, contractible o (t_shape a) (t_shape b) axes pa pb (t_shape c) /\ forall mx, valid (t_shape c) mx ->
      exists v ps, at_ c' mx = Some v /\ multiplied o a b pa pb mx ps /\ (cfinite_pairs ps -> cdots_to ps v)
  | Err _ => ~ exists pa pb, contractible o (t_shape a) (t_shape b) axes pa pb (t_shape c)
  | Panic => False
  end.
Proof. intros t o c a b axes Tc Ta Tb Sa Sb J. pose proof (ds_from near2 czero cadd cdot_mul (sh_zero, sh_zero) add_2 (fun x y => of_2 (cdot_mul x y)) monoid_2 near2_zero near2_add go2 o c a b axes Tc Ta Tb Sa Sb J) as H. unfold cvecdot_from.
  destruct (vecdot_from czero cadd cdot_mul o c a b axes) as [c'|e|]; auto. destruct H as (El & Un & pa & pb & Cn & H). split; auto. split; auto. exists pa, pb. split; auto. intros mx V. destruct (H mx V) as (v & Hv & ps & Hp & N). exists v, ps. split; auto. split; auto. now apply near_cdots. Qed.

(** ** the mean divides by the complex number n + 0i *)
Definition big_part : float F64 := of_int (2 ^ 1021).
Lemma l_cmean_refuted :
  (exists m, fmean_all AllSerial Fixed (row [big_part; big_part; big_part; big_part]) = Ok m /\ feq m big_part = true) /\
  (exists s, csum_all AllSerial Fixed (row (map (fun x => (x, fzero)) [big_part; big_part; big_part; big_part])) = Ok s /\ is_finite (fst s) && is_finite (snd s) = true) /\
  (exists m, cmean_all AllSerial Fixed (row (map (fun x => (x, fzero)) [big_part; big_part; big_part; big_part])) = Ok m /\ feq (fst m) (B754_infinity false) = true) /\
  (exists m, cmean_all AllSerial Fixed (row [(B754_infinity false : float F64, fzero)]) = Ok m /\ is_nan (snd m) = true).
Proof. split; [|split; [|split]].
  - apply ok_and_ex with (P := fun m => feq m big_part). vm_compute. reflexivity.
  - apply ok_and_ex with (P := fun s => is_finite (fst s) && is_finite (snd s)). vm_compute. reflexivity.
  - apply ok_and_ex with (P := fun m => feq (fst m) (B754_infinity false)). vm_compute. reflexivity.
  - apply ok_and_ex with (P := fun m => is_nan (snd m)). vm_compute. reflexivity. Qed.
