(** Closed statements about reductions of floating-point numbers *)
From Coq Require Import ZArith Reals List Lia Lra Bool.
From Flocq Require Import Core Relative BinarySingleNaN.
From Verif Require Import Base Spec Spec_Stats Spec_Float Spec_FloatReduce P_Index M_Layout M_Indexer P_Indexer M_Tensor P_Tensor Q_Tensor M_Iter M_Reduce P_Axes M_Stats Q_Stats P_Param P_Shadow M_Float P_FloatOps P_FloatLinspace M_FloatReduce P_FloatSum.
Import ListNotations.
Local Open Scope R_scope.

Lemma near_sums t (xs : list (float t)) s : near s (total sh_zero sh_add (map (sh_of is_finite) xs)) -> Forall finite xs -> no_overflow xs -> sums_to xs s.
Proof. rewrite sh_total. intros [_ H] F N. apply H; auto. apply sh_good. intros x I. rewrite Forall_forall in F. now apply F. Qed.
Lemma near_f t (x : float t) y p : near x y -> near (fadd x p) (sh_add y (sh_of is_finite p)).
Proof. intro H. apply near_add; auto. apply near_of. Qed.
Lemma l_fsum : forall t dev k (a : tensor (float t)) xs, works dev -> tensor_ok a -> elements (t_data a) (t_layout a) (row_major (t_shape a)) xs ->
  exists s, fsum_all dev k a = Ok s /\ (Forall finite xs -> no_overflow xs -> sums_to xs s).
Proof. intros t dev k a xs W Ht E. destruct (shadow_all near fzero fadd fadd same sh_zero sh_add (sh_of is_finite) sh_monoid near_zero (near_f t) (fun x y x' y' => near_add x x' y y') dev k a xs W Ht E) as (s & R & y & Es & N). subst s. exists y. split; [exact R|]. now apply near_sums. Qed.
Lemma l_fsum_axes_partial : forall t dev adev dflt k (a : tensor (float t)) axes ax r, works dev -> tensor_ok a -> reducible a ax -> names (ndim (t_layout a)) axes ax ->
  stat_axes_f (fsum_all dev k a) (fsum_axes adev dflt a) axes r -> exists t', r = Ok t' /\ tables_as a ax (fun xs s => Forall finite xs -> no_overflow xs -> sums_to xs s) t'.
Proof. intros t dev adev dflt k a axes ax r W Ht Rd N. apply stat_as; auto.
  - intros xs E. now apply l_fsum.
  - clear ax Rd N. intros v ax q S0 NB D ND R. destruct (shadow_axes near fzero fadd fadd same sh_zero sh_add (sh_of is_finite) sh_monoid near_zero (near_f t) (fun x y x' y' => near_add x x' y y') adev dflt a v ax q Ht S0 NB D ND R) as (out & lo & Eq & En & Eo & Sh & El).
    exists out, lo. split; auto. split; auto. split; auto. split; auto. intros mx xs V Ex. destruct (El mx xs V Ex) as (o & Eo' & y & -> & Ny). exists y. split; [exact Eo'|]. now apply near_sums. Qed.

Lemma hit_sums t k (xs : list (float t)) (s : float t) : hit k s (total sh_zero sh_add (map (sh_of (is_multiple k)) xs)) -> multiples k xs -> magnitude xs <= two (k + prec t) -> finite s /\ val s = exact_sum xs.
Proof. rewrite sh_total. intros [_ H] F N. destruct H as (A & B & _); auto. apply sh_good. intros x I. unfold multiples in F. rewrite Forall_forall in F. destruct (F x I). now apply multiple_bool. Qed.
Lemma l_fsum_exact_partial : forall t z dev adev dflt k (a : tensor (float t)) axes ax r, (3 - emax t - prec t <= z)%Z -> (z + prec t < emax t)%Z -> works dev -> tensor_ok a -> reducible a ax -> names (ndim (t_layout a)) axes ax ->
  stat_axes_f (fsum_all dev k a) (fsum_axes adev dflt a) axes r ->
  exists t', r = Ok t' /\ tables_as a ax (fun xs s => multiples z xs -> magnitude xs <= two (z + prec t) -> finite s /\ val s = exact_sum xs) t'.
Proof. intros t z dev adev dflt k a axes ax r Z1 Z2 W Ht Rd N. assert (Hf : forall (x : float t) y p, hit z x y -> hit z (fadd x p) (sh_add y (sh_of (is_multiple z) p))) by (intros; apply hit_add; auto; apply hit_of).
  assert (Hs : forall (x : float t) y x' y', hit z x y -> hit z x' y' -> hit z (fadd x x') (sh_add y y')) by (intros; now apply hit_add). apply stat_as; auto.
  - intros xs E. destruct (shadow_all (hit z) fzero fadd fadd same sh_zero sh_add (sh_of (is_multiple z)) sh_monoid (hit_zero z) Hf Hs dev k a xs W Ht E) as (s & R & y & Es & H). subst s. exists y. split; [exact R|]. now apply hit_sums.
  - clear ax Rd N. intros v ax q S0 NB D ND R. destruct (shadow_axes (hit z) fzero fadd fadd same sh_zero sh_add (sh_of (is_multiple z)) sh_monoid (hit_zero z) Hf Hs adev dflt a v ax q Ht S0 NB D ND R) as (out & lo & Eq & En & Eo & Sh & El).
    exists out, lo. split; auto. split; auto. split; auto. split; auto. intros mx xs V Ex. destruct (El mx xs V Ex) as (o & Eo' & y & -> & Ny). exists y. split; [exact Eo'|]. now apply hit_sums. Qed.

(** ** the mean *)
Lemma magnitude_pos t (xs : list (float t)) : Rabs (exact_sum xs) <= magnitude xs.
Proof. unfold exact_sum, magnitude. induction xs as [|x xs IH]; cbn [map rsum fold_right]; [rewrite Rabs_R0; lra|]. eapply Rle_trans; [apply Rabs_triang|]. apply Rplus_le_compat_l. exact IH. Qed.
Lemma sums_average t (xs : list (float t)) s : sums_to xs s -> xs <> [] -> (Z.of_nat (length xs) <= 2 ^ prec t)%Z -> averages_to xs (div_count s (length xs)).
Proof. intros [F E] N L. set (n := length xs) in *. assert (Pn : (0 < n)%nat) by (destruct xs; [congruence|cbn in n; lia]). unfold div_count. destruct (int_val t (Z.of_nat n)) as [Vn Fn]; [lia|]. rewrite <- INR_IZR_INZ in Vn. assert (Rn : 1 <= INR n) by (apply (le_INR 1); lia).
  assert (In : 0 < / INR n <= 1) by (split; [apply Rinv_0_lt_compat; lra|rewrite <- Rinv_1; apply Rinv_le_contravar; lra]).
  set (z := val s / INR n). assert (Az : Rabs z = Rabs (val s) * / INR n). { unfold z, Rdiv. rewrite Rabs_mult. f_equal. apply Rabs_pos_eq. lra. }
  assert (Rz : Rabs (rnd t z) <= Rabs (val s)). { apply abs_round_le_generic; auto with typeclass_instances. - apply generic_format_abs, val_format. - rewrite Az. pose proof (Rabs_pos (val s)). rewrite <- (Rmult_1_r (Rabs (val s))) at 2. apply Rmult_le_compat_l; lra. }
  assert (Lz : Rabs (rnd t (val s / val (of_int (Z.of_nat n) : float t))) < two (emax t)) by (rewrite Vn; fold z; eapply Rle_lt_trans; [exact Rz|apply val_lt]).
  destruct (fdiv_val t s (of_int (Z.of_nat n)) F) as [V Fd]; auto. { rewrite Vn. lra. } split; auto. rewrite V, Vn. fold z. pose proof (rnd_err t z) as Er.
  set (A := magnitude xs) in *. set (W := exact_sum xs) in *. pose proof (magnitude_pos t xs) as MP. fold A W in MP. pose proof (rounded_1 t (n - 1)) as G1. fold n. replace n with (S (n - 1)) at 2 by lia. rewrite rounded_S. set (g := rounded t (n - 1)) in *. set (u := unit_roundoff t) in *. pose proof (unit_pos t) as U. fold u in U.
  assert (As : Rabs (val s) <= g * A). { replace (val s) with ((val s - W) + W) by ring. eapply Rle_trans; [apply Rabs_triang|]. lra. }
  assert (E1 : Rabs (z - W / INR n) <= (g - 1) * A * / INR n). { replace (z - W / INR n) with ((val s - W) * / INR n) by (unfold z; field; lra). rewrite Rabs_mult, (Rabs_pos_eq (/ INR n)) by lra. apply Rmult_le_compat_r; lra. }
  assert (E2 : u * Rabs z <= u * (g * A * / INR n)). { apply Rmult_le_compat_l; [lra|]. rewrite Az. apply Rmult_le_compat_r; lra. }
  replace (rnd t z - W / INR n) with ((rnd t z - z) + (z - W / INR n)) by ring. eapply Rle_trans; [apply Rabs_triang|]. unfold Rdiv. replace ((g * (1 + u) - 1) * (A * / INR n)) with (u * (g * A * / INR n) + (g - 1) * A * / INR n) by ring. lra. Qed.
Lemma l_fmean_partial : forall t dev adev dflt k (a : tensor (float t)) axes ax r, works dev -> tensor_ok a -> reducible a ax -> names (ndim (t_layout a)) axes ax ->
  stat_axes_f (fmean_all dev k a) (fmean_axes adev dflt a) axes r ->
  exists t', r = Ok t' /\ tables_as a ax (fun xs m => Forall finite xs -> no_overflow xs -> xs <> [] -> (Z.of_nat (length xs) <= 2 ^ prec t)%Z -> averages_to xs m) t'.
Proof. intros t dev adev dflt k a axes ax r W Ht Rd N. apply stat_as; auto.
  - intros xs E. unfold fmean_all. destruct (shadow_all near fzero fadd fadd (fun x => div_count x (l_size (t_layout a))) sh_zero sh_add (sh_of is_finite) sh_monoid near_zero (near_f t) (fun x y x' y' => near_add x x' y y') dev k a xs W Ht E) as (s & R & y & Es & Ny). subst s. eexists. split; [exact R|]. intros. rewrite (all_size a xs E). apply sums_average; auto. now apply near_sums.
  - clear ax Rd N. intros v ax q S0 NB D ND R. unfold fmean_axes in R. pose proof Ht as Ht'. apply tensor_ok_good in Ht' as [G I]. destruct (split_axes_total (t_layout a) v ax G S0 D ND) as (l1 & l2 & E & _ & _). rewrite E in R.
    destruct (shadow_axes near fzero fadd fadd (fun x => div_count x (l_size (fst (l1, l2)))) sh_zero sh_add (sh_of is_finite) sh_monoid near_zero (near_f t) (fun x y x' y' => near_add x x' y y') adev dflt a v ax q Ht S0 NB D ND R) as (out & lo & Eq & En & Eo & Sh & El).
    exists out, lo. split; auto. split; auto. split; auto. split; auto. intros mx xs V Ex. destruct (El mx xs V Ex) as (o & Eo' & y & -> & Ny). eexists. split; [exact Eo'|]. intros. rewrite (group_size a v ax (l1, l2) mx xs); auto; [|now rewrite <- Sh]. apply sums_average; auto. now apply near_sums. Qed.

(** ** what rounding breaks *)
Lemma row_ok {T} (v : list T) : layout_new [length v] [1%Z] 0%Z = Ok (mkLayout [length v] [1%Z] 0%Z) -> tensor_ok (mkTensor v (mkLayout [length v] [1%Z] 0%Z)).
Proof. intro H. split; [split; [repeat split; cbn; lia|exact H]|]. intros ix V. inversion V as [|i n ix' s Hi V' E1 E2]; subst. inversion V'; subst. unfold addr. cbn [t_layout t_data l_offset l_stride dot]. lia. Qed.
Definition row {T} (v : list T) : tensor T := mkTensor v (mkLayout [length v] [1%Z] 0%Z).
Definition ok_and {T} (P : T -> bool) (r : res T) : bool := match r with Ok x => P x | _ => false end.
Lemma ok_and_ex {T} (P : T -> bool) r : ok_and P r = true -> exists x, r = Ok x /\ P x = true.
Proof. destruct r as [x| |]; try discriminate. intro H. exists x. auto. Qed.
Definition spread_ones : list (float F64) := [of_int (2 ^ 53)] ++ repeat fzero 1023 ++ [of_int 1] ++ repeat fzero 1023 ++ [of_int 1].
Lemma l_fsum_schedule_refuted : let a := row spread_ones in tensor_ok a /\
  exists s p, fsum_all AllSerial Fixed a = Ok s /\ fsum_all (AllRayon 1024 Leaf (fun _ => Node 1 Leaf Leaf)) Fixed a = Ok p /\ feq s (of_int (2 ^ 53)) = true /\ feq p (of_int (2 ^ 53 + 2)) = true /\ feq s p = false.
Proof. intro a. split; [apply row_ok; vm_compute; reflexivity|].
  assert (C : ok_and (fun s => ok_and (fun p => feq s (of_int (2 ^ 53)) && feq p (of_int (2 ^ 53 + 2)) && negb (feq s p)) (fsum_all (AllRayon 1024 Leaf (fun _ => Node 1 Leaf Leaf)) Fixed a)) (fsum_all AllSerial Fixed a) = true) by (vm_compute; reflexivity).
  apply ok_and_ex in C as (s & Es & C). apply ok_and_ex in C as (p & Ep & C). apply andb_true_iff in C as [C C3]. apply andb_true_iff in C as [C1 C2]. apply negb_true_iff in C3. exists s, p. auto. Qed.
Definition tenths : tensor (float F64) := row (repeat (fdiv (of_int 1) (of_int 10)) 3).
Lemma l_fvar_refuted : tensor_ok tenths /\ exists v s, fvar_all AllSerial Fixed tenths = Ok v /\ flt v fzero = true /\ fstd_all AllSerial Fixed tenths = Ok s /\ is_nan s = true.
Proof. split; [apply row_ok; vm_compute; reflexivity|]. assert (C : ok_and (fun v => flt v fzero) (fvar_all AllSerial Fixed tenths) = true) by (vm_compute; reflexivity). assert (D : ok_and is_nan (fstd_all AllSerial Fixed tenths) = true) by (vm_compute; reflexivity).
  apply ok_and_ex in C as (v & Ev & C). apply ok_and_ex in D as (s & Es & D). exists v, s. auto. Qed.
Lemma l_fnorm_refuted : exists x y : float F64, finite x /\ finite y /\ flt fzero y = true /\ (exists m, fnorm_all AllSerial Fixed (row [x]) = Ok m /\ feq m (B754_infinity false) = true) /\ (exists m, fnorm_all AllSerial Fixed (row [y]) = Ok m /\ feq m fzero = true).
Proof. exists (of_int (2 ^ 600)), (fdiv (of_int 1) (of_int (2 ^ 600))). split; [vm_compute; reflexivity|]. split; [vm_compute; reflexivity|]. split; [vm_compute; reflexivity|]. split; apply ok_and_ex with (P := fun m => feq m _); vm_compute; reflexivity. Qed.
