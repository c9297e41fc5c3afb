(** Closed statements about variances of floating-point numbers *)
From Coq Require Import ZArith Reals List Lia Lra Bool.
From Flocq Require Import Core Relative BinarySingleNaN.
From Verif Require Import Base Spec Spec_Stats Spec_Float Spec_FloatReduce Spec_FloatMatmul Spec_FloatProd Spec_FloatVar M_Layout M_Indexer P_Indexer M_Tensor P_Tensor Q_Tensor M_Reduce P_Axes Q_Reduce M_Stats Q_Stats P_Param P_Shadow M_Float P_FloatOps P_FloatLinspace M_FloatReduce P_FloatSum Q_FloatReduce P_FloatDot Q_FloatVecdot M_FloatProd P_FloatProd Q_FloatProd M_FloatVar P_FloatVar.
Import ListNotations.
Local Open Scope R_scope.

Definition near2 {t} (x : float t * float t) (s : shadow * shadow) : Prop := near (fst x) (fst s) /\ near (snd x) (snd s).
Definition of2 {t} (x : float t) : shadow * shadow := (sh_of is_finite x, sq_of x).
Definition add2 (a b : shadow * shadow) : shadow * shadow := (sh_add (fst a) (fst b), sh_add (snd a) (snd b)).
Definition vf {t} : float t * float t -> float t -> float t * float t := var_f fadd fmul same same fadd.
Definition vs {t} : float t * float t -> float t * float t -> float t * float t := var_sum fadd fadd.
Lemma near2_f {t} (x : float t * float t) y p : near2 x y -> near2 (vf x p) (add2 y (of2 p)).
Proof. intros [A B]. split; cbn [fst snd vf var_f add2 of2]; [now apply near_f|]. apply near_add; [exact B|apply near_of]. Qed.
Lemma near2_s {t} (x : float t * float t) y x' y' : near2 x y -> near2 x' y' -> near2 (vs x x') (add2 y y').
Proof. intros [A B] [A' B']. split; cbn [fst snd vs var_sum add2]; now apply near_add. Qed.
Lemma near2_zero {t} : near2 (fzero : float t, fzero : float t) (sh_zero, sh_zero). Proof. split; apply near_zero. Qed.
Lemma add2_monoid : comm_monoid (sh_zero, sh_zero) add2. Proof. apply pair_monoid; apply sh_monoid. Qed.
Lemma of2_total {t} (xs : list (float t)) : total (sh_zero, sh_zero) add2 (map of2 xs) = (total sh_zero sh_add (map (sh_of is_finite) xs), total sh_zero sh_add (map sq_of xs)).
Proof. induction xs as [|x xs IH]; [reflexivity|]. cbn [map total fold_right]. unfold total in IH. rewrite IH. reflexivity. Qed.
Lemma near2_sums t (xs : list (float t)) s : near2 s (total (sh_zero, sh_zero) add2 (map of2 xs)) -> Forall finite xs -> var_no_overflow xs -> sums_to xs (fst s) /\ dots_to (squares xs) (snd s).
Proof. rewrite of2_total. intros [A B] F (N1 & N2 & _). split; [now apply near_sums|]. apply near_dots; auto. - unfold squares. rewrite map_map. exact B. - unfold finite_pairs, squares. apply Forall_map. apply Forall_impl with (2 := F). auto. Qed.
Section Run.
  Context {t : float_type} (fin : nat -> float t * float t -> float t) (P : list (float t) -> float t -> Prop).
  Context (FP : forall xs s, near2 s (total (sh_zero, sh_zero) add2 (map of2 xs)) -> P xs (fin (length xs) s)).
  Lemma var_all_as dev k (a : tensor (float t)) xs : works dev -> tensor_ok a -> elements (t_data a) (t_layout a) (row_major (t_shape a)) xs -> exists v, run_all dev (fzero, fzero) vf vs (fin (l_size (t_layout a))) k a = Ok v /\ P xs v.
  Proof using FP. intros W Ht E. destruct (shadow_all near2 (fzero, fzero) vf vs (fin (l_size (t_layout a))) (sh_zero, sh_zero) add2 of2 add2_monoid near2_zero near2_f near2_s dev k a xs W Ht E) as (s & R & y & Es & N). subst s. eexists. split; [exact R|]. rewrite (all_size a xs E). now apply FP. Qed.
  Lemma var_axes_as adev dflt (a : tensor (float t)) v ax p q : tensor_ok a -> size (t_shape a) <> 0%nat -> no_broadcast (t_layout a) -> Forall2 (axis_denotes (ndim (t_layout a))) v ax -> NoDup ax -> dim_split_axes (t_layout a) v = Ok p ->
    run_axes adev dflt (fzero, fzero) vf vs (fin (l_size (fst p))) a v q ->
    exists out lo, q = Ok (out, lo) /\ tensor_new out lo = Ok (mkTensor out lo) /\ tensor_ok (mkTensor out lo) /\ l_shape lo = pick (axes_except (ndim (t_layout a)) ax) 0%nat (t_shape a) /\
    forall mx xs, valid (l_shape lo) mx -> elements (t_data a) (t_layout a) (group (t_shape a) ax mx) xs -> exists o, elem out lo mx = Some o /\ P xs o.
  Proof using FP. intros Ht S0 NB D ND E R. destruct (shadow_axes near2 (fzero, fzero) vf vs (fin (l_size (fst p))) (sh_zero, sh_zero) add2 of2 add2_monoid near2_zero near2_f near2_s adev dflt a v ax q Ht S0 NB D ND R) as (out & lo & Eq & En & Eo & Sh & El).
    exists out, lo. split; auto. split; auto. split; auto. split; auto. intros mx xs V Ex. destruct (El mx xs V Ex) as (o & Eo' & y & -> & Ny). eexists. split; [exact Eo'|]. rewrite (group_size a v ax p mx xs); auto. now rewrite <- Sh. Qed.
End Run.
Definition var_claim {t} (xs : list (float t)) (v : float t) : Prop := xs <> [] -> (Z.of_nat (length xs) <= 2 ^ prec t)%Z -> Forall finite xs -> var_no_overflow xs -> varies_by xs v.
Definition dev_claim {t} (xs : list (float t)) (d : float t) : Prop := xs <> [] -> (Z.of_nat (length xs) <= 2 ^ prec t)%Z -> Forall finite xs -> var_no_overflow xs -> var_bound xs <= exact_var xs -> 0 < exact_var xs -> deviates_by xs d.
Definition vo {t} (n : nat) (s : float t * float t) : float t := var_out fmul same same div_count fsub div_count n s.
Lemma vo_claim t (xs : list (float t)) s : near2 s (total (sh_zero, sh_zero) add2 (map of2 xs)) -> var_claim xs (vo (length xs) s).
Proof. intros H N L F NO. destruct (near2_sums t xs s H F NO) as [A B]. apply var_rounds; auto. apply NO. Qed.
Lemma so_claim t (xs : list (float t)) s : near2 s (total (sh_zero, sh_zero) add2 (map of2 xs)) -> dev_claim xs (fsqrt (vo (length xs) s)).
Proof. intros H N L F NO B P. apply dev_rounds; auto. now apply vo_claim. Qed.
Lemma l_fvar : forall t dev k (a : tensor (float t)) xs, works dev -> tensor_ok a -> elements (t_data a) (t_layout a) (row_major (t_shape a)) xs ->
  exists v, fvar_all dev k a = Ok v /\ (xs <> [] -> (Z.of_nat (length xs) <= 2 ^ prec t)%Z -> Forall finite xs -> var_no_overflow xs -> varies_by xs v).
Proof. intros t dev k a xs. exact (var_all_as vo var_claim (vo_claim t) dev k a xs). Qed.
Lemma l_fstd : forall t dev k (a : tensor (float t)) xs, works dev -> tensor_ok a -> elements (t_data a) (t_layout a) (row_major (t_shape a)) xs ->
  exists d, fstd_all dev k a = Ok d /\ (xs <> [] -> (Z.of_nat (length xs) <= 2 ^ prec t)%Z -> Forall finite xs -> var_no_overflow xs -> var_bound xs <= exact_var xs -> 0 < exact_var xs -> deviates_by xs d).
Proof. intros t dev k a xs. exact (var_all_as (fun n s => fsqrt (vo n s)) dev_claim (so_claim t) dev k a xs). Qed.
Lemma l_fvar_axes : forall t dev adev dflt k (a : tensor (float t)) axes ax r, works dev -> tensor_ok a -> reducible a ax -> names (ndim (t_layout a)) axes ax -> stat_axes_f (fvar_all dev k a) (fvar_axes adev dflt a) axes r ->
  exists t', r = Ok t' /\ tables_as a ax (fun xs v => xs <> [] -> (Z.of_nat (length xs) <= 2 ^ prec t)%Z -> Forall finite xs -> var_no_overflow xs -> varies_by xs v) t'.
Proof. intros t dev adev dflt k a axes ax r W Ht Rd N. apply stat_as; auto.
  - intros xs E. now apply l_fvar.
  - clear ax Rd N. intros v ax q S0 NB D ND R. unfold fvar_axes, cvar_axes in R. pose proof Ht as Ht'. apply tensor_ok_good in Ht' as [G I]. destruct (split_axes_total (t_layout a) v ax G S0 D ND) as (l1 & l2 & E & _ & _). rewrite E in R.
    exact (var_axes_as vo var_claim (vo_claim t) adev dflt a v ax _ q Ht S0 NB D ND E R). Qed.
Lemma l_fstd_axes : forall t dev adev dflt k (a : tensor (float t)) axes ax r, works dev -> tensor_ok a -> reducible a ax -> names (ndim (t_layout a)) axes ax -> stat_axes_f (fstd_all dev k a) (fstd_axes adev dflt a) axes r ->
  exists t', r = Ok t' /\ tables_as a ax (fun xs d => xs <> [] -> (Z.of_nat (length xs) <= 2 ^ prec t)%Z -> Forall finite xs -> var_no_overflow xs -> var_bound xs <= exact_var xs -> 0 < exact_var xs -> deviates_by xs d) t'.
Proof. intros t dev adev dflt k a axes ax r W Ht Rd N. apply stat_as; auto.
  - intros xs E. now apply l_fstd.
  - clear ax Rd N. intros v ax q S0 NB D ND R. unfold fstd_axes, std_axes in R. pose proof Ht as Ht'. apply tensor_ok_good in Ht' as [G I]. destruct (split_axes_total (t_layout a) v ax G S0 D ND) as (l1 & l2 & E & _ & _). rewrite E in R.
    exact (var_axes_as (fun n s => fsqrt (vo n s)) dev_claim (so_claim t) adev dflt a v ax _ q Ht S0 NB D ND E R). Qed.
(** ** what cancellation breaks: the variance of 10^8 and 10^8 + 1 is 1/4, the computed one 0 *)
Lemma l_fvar_accuracy_refuted : let xs := [of_int 100000000; of_int 100000001] : list (float F64) in let a := row xs in tensor_ok a /\ Forall finite xs /\ exact_var xs = 1 / 4 /\ exists v, fvar_all AllSerial Fixed a = Ok v /\ val v = 0.
Proof. intros xs a. destruct (int_val F64 100000000) as [V1 F1]; [discriminate|]. destruct (int_val F64 100000001) as [V2 F2]; [discriminate|]. split; [apply row_ok; vm_compute; reflexivity|]. split; [repeat constructor; auto|].
  split. { unfold exact_var, exact_mean, exact_sum, xs, rsum. cbn [map fold_right length]. rewrite V1, V2. cbn [INR]. lra. }
  assert (C : ok_and (fun s => is_finite s && feq s (of_int 0))%bool (fvar_all AllSerial Fixed a) = true) by (vm_compute; reflexivity). apply ok_and_ex in C as (v & Ev & C). exists v. split; [exact Ev|]. apply andb_prop in C as [Fv C]. destruct (int_val F64 0) as [V0 F0]; [discriminate|]. rewrite feq_val in C by auto. rewrite V0 in C. now apply Req_bool_true_iff in C || (destruct (Req_bool_spec (val v) 0); [assumption|discriminate]). Qed.
