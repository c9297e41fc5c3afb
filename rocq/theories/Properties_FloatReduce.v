(** Property theorems about sums, means, extrema and positions of extrema of floating-point tensors (C105, C106).  Statements use
    Spec_Float.v, Spec_FloatReduce.v, Spec_Stats.v and the modelled entry points of M_FloatReduce.v only. *)
From Coq Require Import ZArith Reals List Lra Lia.
From Flocq Require Import Core BinarySingleNaN.
From Verif Require Import Base Spec Spec_Stats P_Index P_Indexer P_Iter M_Layout M_Indexer M_Tensor M_Iter M_Rearr M_Reduce M_Stats M_Float Spec_Float Spec_FloatReduce M_FloatReduce P_FloatOps Q_FloatReduce Q_FloatMin.
Import ListNotations.
Local Open Scope R_scope.

(** C105: the sum of all elements of a tensor of f32 or f64, on the serial device and for every schedule of the parallel one: it never fails, and if the elements are finite and their magnitudes do not add up to an overflow, the result is finite and within ((1 + u)^(n-1) - 1) times the sum of the magnitudes of the exact sum. *)
Theorem C105_sum : forall t dev k (a : tensor (float t)) xs, works dev -> tensor_ok a -> elements (t_data a) (t_layout a) (row_major (t_shape a)) xs ->
  exists s, fsum_all dev k a = Ok s /\ (Forall finite xs -> no_overflow xs -> sums_to xs s).
Proof. exact l_fsum. Qed.
(** the matrix [[1, 2], [3, 4]], stored by columns *)
Definition fx_v : list (float F64) := [of_int 1; of_int 2; of_int 3; of_int 4].
Definition fx_m : tensor (float F64) := mkTensor [of_int 1; of_int 3; of_int 2; of_int 4] (mkLayout [2; 2]%nat [1; 2]%Z 0).
Lemma fx_ok : tensor_ok fx_m.
Proof. split; [split; [repeat split; cbn; lia|vm_compute; reflexivity]|]. intros ix V. inversion V as [|i n ix' s Hi V' E1 E2]; subst. inversion V' as [|i' n' ix'' s' Hi' V'' E1' E2']; subst. inversion V''; subst. unfold addr. cbn [t_layout fx_m t_data l_offset l_stride dot length]. lia. Qed.
Lemma fx_int z : (Z.abs z <= 2 ^ 53)%Z -> val (of_int z : float F64) = IZR z /\ finite (of_int z : float F64). Proof. apply (int_val F64). Qed.
Lemma fx_finite : Forall finite fx_v /\ magnitude fx_v = 10 /\ no_overflow fx_v.
Proof. destruct (fx_int 1) as [A1 A2]; [discriminate|]. destruct (fx_int 2) as [B1 B2]; [discriminate|]. destruct (fx_int 3) as [C1 C2]; [discriminate|]. destruct (fx_int 4) as [D1 D2]; [discriminate|].
  assert (M : magnitude fx_v = 10). { unfold magnitude, fx_v. cbn [map rsum fold_right]. unfold rsum. cbn [fold_right]. rewrite A1, B1, C1, D1. rewrite !Rabs_pos_eq by lra. lra. }
  split; [repeat constructor; auto|]. split; [exact M|]. unfold no_overflow. rewrite M. assert (U : unit_roundoff F64 <= 1). { unfold unit_roundoff. change 1 with (two 0). apply bpow_le. cbn. discriminate. } assert (U0 : 0 <= unit_roundoff F64) by (unfold unit_roundoff; apply bpow_ge_0).
  assert (G : rounded F64 (length fx_v - 1) <= 8). { unfold rounded. cbn [length fx_v Nat.sub]. replace 8 with (2 ^ 3) by ring. apply pow_incr. lra. }
  assert (B : two 7 <= two (emax F64)) by (apply bpow_le; cbn; discriminate). assert (E : two 7 = 128) by reflexivity. lra. Qed.
Example C105_example : works AllSerial /\ works (AllRayon 1024 Leaf (fun _ => Leaf)) /\ tensor_ok fx_m /\ elements (t_data fx_m) (t_layout fx_m) (row_major (t_shape fx_m)) fx_v /\ Forall finite fx_v /\ no_overflow fx_v /\
  ok_and (fun s => feq s (of_int 10)) (fsum_all AllSerial Fixed fx_m) = true.
Proof. destruct fx_finite as (F & _ & N). split; [exact I|]. split; [discriminate|]. split; [exact fx_ok|]. split; [repeat constructor|]. split; [exact F|]. split; [exact N|]. vm_compute. reflexivity. Qed.
Print Assumptions C105_sum.

(** C105: sums over axes, at every remaining index.  Missing: empty tensors and broadcast inputs, where the sums over axes themselves are wrong (C32). *)
Theorem C105_sum_axes_partial : forall t dev adev dflt k (a : tensor (float t)) axes ax r, works dev -> tensor_ok a -> reducible a ax -> names (ndim (t_layout a)) axes ax ->
  stat_axes_f (fsum_all dev k a) (fsum_axes adev dflt a) axes r -> exists t', r = Ok t' /\ tables_as a ax (fun xs s => Forall finite xs -> no_overflow xs -> sums_to xs s) t'.
Proof. exact l_fsum_axes_partial. Qed.
Lemma fx_reducible : reducible fx_m (Some [0]%nat) /\ names (ndim (t_layout fx_m)) (AxVal (-2)) (Some [0]%nat).
Proof. split; [|cbn; repeat constructor; cbn; lia]. right. split; [vm_compute; discriminate|]. intros k Hk _. cbn in Hk. destruct k as [|[|k]]; cbn; lia. Qed.
Example C105_axes_example : tensor_ok fx_m /\ reducible fx_m (Some [0]%nat) /\ names (ndim (t_layout fx_m)) (AxVal (-2)) (Some [0]%nat) /\ exists r, stat_axes_f (fsum_all AllSerial Fixed fx_m) (fsum_axes AxesSerial RowMajor fx_m) (AxVal (-2)) r /\ ok_and (fun q => match t_data q with [x; y] => feq x (of_int 4) && feq y (of_int 6) | _ => false end)%bool r = true.
Proof. destruct fx_reducible as [R N]. split; [exact fx_ok|]. split; [exact R|]. split; [exact N|]. eexists. split; [eexists; split; [reflexivity|reflexivity]|]. vm_compute. reflexivity. Qed.
Print Assumptions C105_sum_axes_partial.

(** C105: if all elements are multiples of one power of two 2^z (for z = 0: integers) and their magnitudes add up to at most 2^(z + 24) or 2^(z + 53), sums are exact, so they do not depend on device, schedule or layout.  Missing: as above. *)
Theorem C105_sum_exact_partial : forall t z dev adev dflt k (a : tensor (float t)) axes ax r, (3 - emax t - prec t <= z)%Z -> (z + prec t < emax t)%Z -> works dev -> tensor_ok a -> reducible a ax -> names (ndim (t_layout a)) axes ax ->
  stat_axes_f (fsum_all dev k a) (fsum_axes adev dflt a) axes r ->
  exists t', r = Ok t' /\ tables_as a ax (fun xs s => multiples z xs -> magnitude xs <= two (z + prec t) -> finite s /\ val s = exact_sum xs) t'.
Proof. exact l_fsum_exact_partial. Qed.
Example C105_exact_example : (3 - emax F64 - prec F64 <= 0)%Z /\ (0 + prec F64 < emax F64)%Z /\ multiples 0 fx_v /\ magnitude fx_v <= two (0 + prec F64).
Proof. split; [cbn; lia|]. split; [cbn; lia|]. split.
  - assert (M : forall z, (Z.abs z <= 2 ^ 53)%Z -> finite (of_int z : float F64) /\ multiple_of 0 (val (of_int z : float F64))) by (intros z Hz; destruct (fx_int z Hz) as [V F]; split; [exact F|]; exists z; rewrite V; change (two 0) with 1; ring).
    unfold multiples, fx_v. constructor; [apply M; discriminate|]. constructor; [apply M; discriminate|]. constructor; [apply M; discriminate|]. constructor; [apply M; discriminate|]. constructor.
  - destruct fx_finite as (_ & -> & _). apply Rle_trans with (two 7); [change (two 7) with 128; lra|apply bpow_le; cbn; discriminate]. Qed.
Print Assumptions C105_sum_exact_partial.

(** C105: the mean over all elements or over axes: n roundings of the summands, and the smallest positive number because the division may underflow.  Missing: as above, and more than 2^24 or 2^53 elements. *)
Theorem C105_mean_partial : forall t dev adev dflt k (a : tensor (float t)) axes ax r, works dev -> tensor_ok a -> reducible a ax -> names (ndim (t_layout a)) axes ax ->
  stat_axes_f (fmean_all dev k a) (fmean_axes adev dflt a) axes r ->
  exists t', r = Ok t' /\ tables_as a ax (fun xs m => Forall finite xs -> no_overflow xs -> xs <> [] -> (Z.of_nat (length xs) <= 2 ^ prec t)%Z -> averages_to xs m) t'.
Proof. exact l_fmean_partial. Qed.
Example C105_mean_example : fx_v <> [] /\ (Z.of_nat (length fx_v) <= 2 ^ prec F64)%Z /\ ok_and (fun s => feq s (fdiv (of_int 5) (of_int 2))) (fmean_all AllSerial Fixed fx_m) = true.
Proof. split; [discriminate|]. split; [cbn; lia|]. vm_compute. reflexivity. Qed.
Print Assumptions C105_mean_partial.

(** C105: sums do depend on the schedule: the serial device gives 2^53 where a schedule of the parallel one gives 2^53 + 2. *)
Theorem C105_schedule_refuted : let a := row spread_ones in tensor_ok a /\
  exists s p, fsum_all AllSerial Fixed a = Ok s /\ fsum_all (AllRayon 1024 Leaf (fun _ => Node 1 Leaf Leaf)) Fixed a = Ok p /\ feq s (of_int (2 ^ 53)) = true /\ feq p (of_int (2 ^ 53 + 2)) = true /\ feq s p = false.
Proof. exact l_fsum_schedule_refuted. Qed.
Print Assumptions C105_schedule_refuted.

(** C105: the variance of three equal numbers can be negative, and their standard deviation a NaN, because the code subtracts the square of the mean from the mean of the squares. *)
Theorem C105_variance_refuted : tensor_ok tenths /\ exists v s, fvar_all AllSerial Fixed tenths = Ok v /\ flt v fzero = true /\ fstd_all AllSerial Fixed tenths = Ok s /\ is_nan s = true.
Proof. exact l_fvar_refuted. Qed.
Print Assumptions C105_variance_refuted.

(** C105: the norm of a vector with one finite non-zero number can be infinite or zero: squares overflow and underflow. *)
Theorem C105_norm_refuted : exists x y : float F64, finite x /\ finite y /\ flt fzero y = true /\ (exists m, fnorm_all AllSerial Fixed (row [x]) = Ok m /\ feq m (B754_infinity false) = true) /\ (exists m, fnorm_all AllSerial Fixed (row [y]) = Ok m /\ feq m fzero = true).
Proof. exact l_fnorm_refuted. Qed.
Print Assumptions C105_norm_refuted.

(** C106: min of all elements on both devices and for every schedule.  An empty tensor is an error.  Otherwise the result is never a NaN; NaNs among the elements are ignored; unless all numbers are +inf the result is equal to an element and not above any.  If every element is a NaN or +inf the result is a finite number which equals no element. *)
Theorem C106_min : forall t dev k (a : tensor (float t)) xs, works dev -> tensor_ok a -> elements (t_data a) (t_layout a) (row_major (t_shape a)) xs ->
  (size (t_shape a) = 0%nat -> fmin_all dev k a = Err InvalidValue) /\
  (size (t_shape a) <> 0%nat -> exists m, fmin_all dev k a = Ok m /\ (~ Forall (far false) xs -> extremum_of false xs m) /\ (Forall (far false) xs -> finite m /\ forall x, In x xs -> feq m x = false)).
Proof. exact l_fmin. Qed.
Definition fx_w : list (float F64) := [of_int 1; B754_infinity false; B754_nan; of_int (-4)].
Definition fx_n : tensor (float F64) := mkTensor [of_int 1; B754_nan; B754_infinity false; of_int (-4)] (mkLayout [2; 2]%nat [1; 2]%Z 0).
Lemma fx_near u : ~ far u (of_int 1 : float F64).
Proof. intros [H|H]; [vm_compute in H; discriminate H|]. assert (C : is_finite (of_int 1 : float F64) = true) by (vm_compute; reflexivity). rewrite H in C. discriminate C. Qed.
Lemma fx_ok2 : tensor_ok fx_n. Proof. exact fx_ok. Qed.
Example C106_example : works (AllRayon 1024 Leaf (fun _ => Leaf)) /\ tensor_ok fx_n /\ elements (t_data fx_n) (t_layout fx_n) (row_major (t_shape fx_n)) fx_w /\ size (t_shape fx_n) <> 0%nat /\ ~ Forall (far false) fx_w /\ ok_and (fun s => feq s (of_int (-4))) (fmin_all AllSerial Fixed fx_n) = true.
Proof. split; [discriminate|]. split; [exact fx_ok2|]. split; [repeat constructor|]. split; [discriminate|]. split; [|vm_compute; reflexivity]. intro F. rewrite Forall_forall in F. apply (fx_near _ (F _ (or_introl eq_refl))). Qed.
Print Assumptions C106_min.

(** C106: max likewise. *)
Theorem C106_max : forall t dev k (a : tensor (float t)) xs, works dev -> tensor_ok a -> elements (t_data a) (t_layout a) (row_major (t_shape a)) xs ->
  (size (t_shape a) = 0%nat -> fmax_all dev k a = Err InvalidValue) /\
  (size (t_shape a) <> 0%nat -> exists m, fmax_all dev k a = Ok m /\ (~ Forall (far true) xs -> extremum_of true xs m) /\ (Forall (far true) xs -> finite m /\ forall x, In x xs -> feq m x = false)).
Proof. exact l_fmax. Qed.
Example C106_max_example : ~ Forall (far true) fx_w /\ ok_and (fun s => feq s (B754_infinity false)) (fmax_all AllSerial Fixed fx_n) = true.
Proof. split; [|vm_compute; reflexivity]. intro F. rewrite Forall_forall in F. apply (fx_near _ (F _ (or_introl eq_refl))). Qed.
Print Assumptions C106_max.

(** C106: min over axes, at every remaining index.  Missing: broadcast inputs. *)
Theorem C106_min_axes_partial : forall t dev adev dflt k (a : tensor (float t)) axes ax r, works dev -> tensor_ok a -> size (t_shape a) <> 0%nat -> reducible a ax -> names (ndim (t_layout a)) axes ax ->
  stat_axes_f (fmin_all dev k a) (fmin_axes adev dflt a) axes r -> exists t', r = Ok t' /\ tables_as a ax (fun xs m => (~ Forall (far false) xs -> extremum_of false xs m) /\ (Forall (far false) xs -> finite m /\ forall x, In x xs -> feq m x = false)) t'.
Proof. exact l_fmin_axes_partial. Qed.
Lemma fx_reducible2 : reducible fx_n (Some [0]%nat) /\ names (ndim (t_layout fx_n)) (AxVal (-2)) (Some [0]%nat). Proof. exact fx_reducible. Qed.
Example C106_axes_example : reducible fx_n (Some [0]%nat) /\ exists r, stat_axes_f (fmin_all AllSerial Fixed fx_n) (fmin_axes AxesSerial RowMajor fx_n) (AxVal (-2)) r /\ ok_and (fun q => match t_data q with [x; y] => feq x (of_int 1) && feq y (of_int (-4)) | _ => false end)%bool r = true.
Proof. split; [apply fx_reducible2|]. eexists. split; [eexists; split; [reflexivity|reflexivity]|]. vm_compute. reflexivity. Qed.
Print Assumptions C106_min_axes_partial.

(** C106: max over axes.  Missing: broadcast inputs. *)
Theorem C106_max_axes_partial : forall t dev adev dflt k (a : tensor (float t)) axes ax r, works dev -> tensor_ok a -> size (t_shape a) <> 0%nat -> reducible a ax -> names (ndim (t_layout a)) axes ax ->
  stat_axes_f (fmax_all dev k a) (fmax_axes adev dflt a) axes r -> exists t', r = Ok t' /\ tables_as a ax (fun xs m => (~ Forall (far true) xs -> extremum_of true xs m) /\ (Forall (far true) xs -> finite m /\ forall x, In x xs -> feq m x = false)) t'.
Proof. exact l_fmax_axes_partial. Qed.
Print Assumptions C106_max_axes_partial.

(** C106: without NaNs the minimum is an element - false: the minimum of a tensor all of whose elements are +inf is the greatest finite number, because the code starts from that instead of +inf. *)
Theorem C106_min_element_refuted : ~ (forall t dev k (a : tensor (float t)) xs m, works dev -> tensor_ok a -> elements (t_data a) (t_layout a) (row_major (t_shape a)) xs -> (forall x, In x xs -> is_nan x = false) -> fmin_all dev k a = Ok m -> exists x, In x xs /\ feq m x = true).
Proof. exact l_fmin_element_refuted. Qed.
Print Assumptions C106_min_element_refuted.

(** C106: without NaNs argmin (argmax) gives the first index in row-major order of a least (greatest) element; -0 and +0 are equal; an empty tensor is an error. *)
Theorem C106_argmin : forall t (greatest : bool) k (a : tensor (float t)), tensor_ok a -> (forall ix x, valid (t_shape a) ix -> at_ a ix = Some x -> is_nan x = false) ->
  (size (t_shape a) = 0%nat -> farg_all greatest k a = Err InvalidLayout) /\
  (size (t_shape a) <> 0%nat -> exists ix, farg_all greatest k a = Ok ix /\ first_least (fun x y => if greatest then flt y x else flt x y) (at_ a) (t_shape a) ix).
Proof. exact l_fargmin. Qed.
Example C106_arg_example : tensor_ok fx_m /\ (forall ix x, valid (t_shape fx_m) ix -> at_ fx_m ix = Some x -> is_nan x = false) /\ farg_all true Fixed fx_m = Ok [1; 1]%nat /\ farg_all false Fixed fx_m = Ok [0; 0]%nat.
Proof. split; [exact fx_ok|]. split; [|split; vm_compute; reflexivity]. intros ix x V E. assert (B : forallb (fun ix => match at_ fx_m ix with Some x => negb (is_nan x) | None => true end) (row_major (t_shape fx_m)) = true) by (vm_compute; reflexivity).
  rewrite forallb_forall in B. specialize (B ix (proj2 (in_enum RowMajor _ ix) V)). rewrite E in B. now apply Bool.negb_true_iff in B. Qed.
Print Assumptions C106_argmin.

(** C106: the same for every schedule of the parallel device. *)
Theorem C106_argmin_parallel : forall t (greatest : bool) switch tr k (a : tensor (float t)), tensor_ok a -> (forall ix x, valid (t_shape a) ix -> at_ a ix = Some x -> is_nan x = false) ->
  (size (t_shape a) = 0%nat -> farg_all_rayon greatest switch tr k a = Err InvalidLayout) /\
  (size (t_shape a) <> 0%nat -> exists ix, farg_all_rayon greatest switch tr k a = Ok ix /\ first_least (fun x y => if greatest then flt y x else flt x y) (at_ a) (t_shape a) ix).
Proof. exact l_fargmin_parallel. Qed.
Print Assumptions C106_argmin_parallel.

(** C106: argmin and argmax over axes of the serial device, at every remaining index. *)
Theorem C106_argmin_axes : forall t (greatest : bool) dflt dio k (a : tensor (float t)) axes ax, tensor_ok a -> (forall ix x, valid (t_shape a) ix -> at_ a ix = Some x -> is_nan x = false) -> size (t_shape a) <> 0%nat ->
  Forall2 (axis_denotes (ndim (t_layout a))) axes ax -> NoDup ax -> dio = OC \/ dio = OF \/ dio = OK ->
  exists out laxes lout, farg_axes greatest dflt dio k a axes = Ok (out, laxes, lout) /\ l_shape laxes = pick ax 0%nat (t_shape a) /\ l_shape lout = pick (axes_except (ndim (t_layout a)) ax) 0%nat (t_shape a) /\
    tensor_ok (mkTensor out lout) /\ forall mx, valid (l_shape lout) mx -> exists sx, elem out lout mx = Some sx /\
      first_least (fun x y => if greatest then flt y x else flt x y) (fun sx => at_ a (merge (ndim (t_layout a)) ax sx mx)) (pick ax 0%nat (t_shape a)) sx.
Proof. exact l_fargmin_axes. Qed.
Example C106_arg_axes_example : Forall2 (axis_denotes (ndim (t_layout fx_m))) [-1]%Z [1]%nat /\ NoDup [1]%nat /\ match farg_axes true RowMajor OK Dyn fx_m [-1]%Z with Ok (out, _, _) => out = [[1]; [1]]%nat | _ => False end.
Proof. split; [repeat constructor; cbn; lia|]. split; [repeat constructor; easy|]. vm_compute. reflexivity. Qed.
Print Assumptions C106_argmin_axes.

(** C106: with a NaN among the elements the position that argmin gives depends on the schedule. *)
Theorem C106_argmin_nan_refuted : ~ (forall t (greatest : bool) switch tr tr' k (a : tensor (float t)), tensor_ok a -> farg_all_rayon greatest switch tr k a = farg_all_rayon greatest switch tr' k a).
Proof. exact l_fargmin_nan_refuted. Qed.
Print Assumptions C106_argmin_nan_refuted.
