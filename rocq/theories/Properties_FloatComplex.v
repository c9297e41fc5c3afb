(** Property theorems about sums, means, norms and dot products of tensors of complex floating-point numbers (C114).  Statements use
    Spec_Stats.v, Spec_Vecdot.v, Spec_Float.v, Spec_FloatReduce.v, Spec_FloatMatmul.v, Spec_FloatComplex.v and the modelled entry points of
    M_FloatComplex.v only. *)
From Coq Require Import ZArith Reals List Lra Lia.
From Flocq Require Import Core BinarySingleNaN.
From Verif Require Import Base Spec Spec_Views Spec_Stats Spec_Tensordot Spec_Vecdot M_Layout M_Tensor M_Reduce M_Stats M_Vecdot P_Bounds P_Strides P_Tensor Q_Tensor Q_Stats M_Float Spec_Float Spec_FloatReduce Spec_FloatMatmul Spec_FloatProd Spec_FloatComplex M_FloatReduce M_FloatComplex P_FloatOps Q_FloatReduce P_FloatComplex Q_FloatComplex.
Import ListNotations.
Local Open Scope R_scope.

(** C114: sums of tensors of Complex<f32> or Complex<f64>, of all elements or over axes, on both devices and for every schedule: each part of the result is the sum of the n parts up to a relative error of (1 + u)^(n - 1) - 1 of the sum of their magnitudes, if they are finite and away from overflow; the other part plays no role (it may be NaN).  Missing: empty tensors and broadcast inputs over axes (C32). *)
Theorem C114_sum_partial : forall t dev adev dflt k (a : tensor (complex t)) axes ax r, works dev -> tensor_ok a -> reducible a ax -> names (ndim (t_layout a)) axes ax ->
  stat_axes_f (csum_all dev k a) (csum_axes adev dflt a) axes r -> exists t', r = Ok t' /\ tables_as a ax csums_to t'.
Proof. exact l_csum. Qed.
(** the matrix [[1 + 2i, 3 - i], [2, i]], stored by columns, and its first column *)
Definition cz (r i : Z) : complex F64 := (of_int r, of_int i).
Definition cx_m : tensor (complex F64) := mkTensor [cz 1 2; cz 2 0; cz 3 (-1); cz 0 1] (mkLayout [2; 2]%nat [1; 2]%Z 0).
Definition cx_v : list (complex F64) := [cz 1 2; cz 2 0].
Lemma cx_ok : tensor_ok cx_m. Proof. concrete_tensor. Qed.
Lemma cx_int z : (Z.abs z <= 2 ^ 53)%Z -> val (of_int z : float F64) = IZR z /\ finite (of_int z : float F64). Proof. apply (int_val F64). Qed.
Lemma cx_unit : 0 <= unit_roundoff F64 <= 1. Proof. unfold unit_roundoff. split; [apply bpow_ge_0|]. change 1 with (two 0). apply bpow_le. cbn. discriminate. Qed.
Lemma cx_small : 0 <= smallest F64 <= 1. Proof. unfold smallest. split; [apply bpow_ge_0|]. change 1 with (two 0). apply bpow_le. cbn. discriminate. Qed.
Lemma cx_rounded k : 0 <= rounded F64 k <= 2 ^ k. Proof. unfold rounded. pose proof cx_unit. split; [apply pow_le; lra|apply pow_incr; lra]. Qed.
Lemma cx_big : 1024 <= two (emax F64). Proof. change 1024 with (two 10). apply bpow_le. cbn. discriminate. Qed.
Lemma cx_finite : Forall cfinite cx_v. Proof. repeat constructor; apply cx_int; discriminate. Qed.
Lemma cx_magnitude : magnitude (reals cx_v) = 3 /\ magnitude (imags cx_v) = 2.
Proof. destruct (cx_int 1) as [A1 _]; [discriminate|]. destruct (cx_int 2) as [B1 _]; [discriminate|]. destruct (cx_int 0) as [C1 _]; [discriminate|]. unfold magnitude, reals, imags, cx_v, rsum, cz. cbn [map fold_right fst snd]. rewrite A1, B1, C1, !Rabs_pos_eq by lra. split; lra. Qed.
Lemma cx_no : no_overflow (reals cx_v) /\ no_overflow (imags cx_v) /\ mean_no_overflow (reals cx_v) /\ mean_no_overflow (imags cx_v).
Proof. destruct cx_magnitude as [M1 M2]. unfold no_overflow, mean_no_overflow. rewrite M1, M2. cbn [length reals imags map cx_v Nat.sub]. pose proof (cx_rounded 1) as G1. pose proof (cx_rounded 2) as G2. cbn [pow] in G1, G2. pose proof cx_big. replace (INR 2) with 2 by (cbn; lra). lra. Qed.
Lemma cx_reducible : reducible cx_m (Some [0]%nat) /\ names (ndim (t_layout cx_m)) (AxVal (-2)) (Some [0]%nat).
Proof. split; [|cbn; repeat constructor; cbn; lia]. right. split; [vm_compute; discriminate|]. intros k Hk _. cbn in Hk. destruct k as [|[|k]]; cbn; lia. Qed.
Definition cx_is (x y : complex F64) : bool := feq (fst x) (fst y) && feq (snd x) (snd y).
Example C114_sum_example : tensor_ok cx_m /\ reducible cx_m (Some [0]%nat) /\ names (ndim (t_layout cx_m)) (AxVal (-2)) (Some [0]%nat) /\ works (AllRayon 1024 Leaf (fun _ => Leaf)) /\
  elements (t_data cx_m) (t_layout cx_m) (group (t_shape cx_m) [0]%nat [0]%nat) cx_v /\ Forall cfinite cx_v /\ no_overflow (reals cx_v) /\ no_overflow (imags cx_v) /\
  exists r, stat_axes_f (csum_all AllSerial Fixed cx_m) (csum_axes AxesSerial RowMajor cx_m) (AxVal (-2)) r /\ ok_and (fun q => match t_data q with [x; y] => cx_is x (cz 3 2) && cx_is y (cz 3 0) | _ => false end)%bool r = true.
Proof. destruct cx_reducible as [R N]. destruct cx_no as (N1 & N2 & _). split; [exact cx_ok|]. split; [exact R|]. split; [exact N|]. split; [discriminate|]. split; [repeat constructor|]. split; [exact cx_finite|]. split; [exact N1|]. split; [exact N2|]. eexists. split; [eexists; split; [reflexivity|reflexivity]|]. vm_compute. reflexivity. Qed.
Print Assumptions C114_sum_partial.

(** C114: means: the code divides by the complex number n + 0i, that is by forming (re n + im 0) / (n n + 0 0).  If the parts are finite and n times their sums are away from overflow, each part of the mean is finite and within ((1 + u)^(n + 3) - 1) times the mean of the magnitudes, and the smallest positive number, of the exact mean.  Missing: as above. *)
Theorem C114_mean_partial : forall t dev adev dflt k (a : tensor (complex t)) axes ax r, works dev -> tensor_ok a -> reducible a ax -> names (ndim (t_layout a)) axes ax ->
  stat_axes_f (cmean_all dev k a) (cmean_axes adev dflt a) axes r -> exists t', r = Ok t' /\ tables_as a ax caverages_to t'.
Proof. exact l_cmean. Qed.
Example C114_mean_example : Forall cfinite cx_v /\ no_overflow (reals cx_v) /\ no_overflow (imags cx_v) /\ cx_v <> [] /\ (Z.of_nat (length cx_v) <= 2 ^ prec F64)%Z /\ mean_no_overflow (reals cx_v) /\ mean_no_overflow (imags cx_v) /\
  exists r, stat_axes_f (cmean_all AllSerial Fixed cx_m) (cmean_axes AxesSerial RowMajor cx_m) (AxVal (-2)) r /\ ok_and (fun q => match t_data q with [x; y] => cx_is x (fdiv (of_int 3) (of_int 2), of_int 1) && cx_is y (fdiv (of_int 3) (of_int 2), of_int 0) | _ => false end)%bool r = true.
Proof. destruct cx_no as (N1 & N2 & N3 & N4). split; [exact cx_finite|]. split; [exact N1|]. split; [exact N2|]. split; [discriminate|]. split; [discriminate|]. split; [exact N3|]. split; [exact N4|]. eexists. split; [eexists; split; [reflexivity|reflexivity]|]. vm_compute. reflexivity. Qed.
Print Assumptions C114_mean_partial.

(** C114: away from overflow has to mean n times the sum, not the sum as for real tensors: the mean of four times 2^1021 + 0i has an infinite real part although their sum is finite (the mean of four times 2^1021 as f64 is 2^1021), and the mean of one infinity + 0i has a NaN imaginary part. *)
Theorem C114_mean_refuted :
  (exists m, fmean_all AllSerial Fixed (row [big_part; big_part; big_part; big_part]) = Ok m /\ feq m big_part = true) /\
  (exists s, csum_all AllSerial Fixed (row (map (fun x => (x, fzero)) [big_part; big_part; big_part; big_part])) = Ok s /\ is_finite (fst s) && is_finite (snd s) = true) /\
  (exists m, cmean_all AllSerial Fixed (row (map (fun x => (x, fzero)) [big_part; big_part; big_part; big_part])) = Ok m /\ feq (fst m) (B754_infinity false) = true) /\
  (exists m, cmean_all AllSerial Fixed (row [(B754_infinity false : float F64, fzero)]) = Ok m /\ is_nan (snd m) = true).
Proof. exact l_cmean_refuted. Qed.
Print Assumptions C114_mean_refuted.

(** C114: norms (l2_norm) of complex tensors, of all elements or over axes, on both devices and for every schedule: finite -- never NaN -- and within ((1 + u)^(n + 2) - 1) times the exact norm, and an underflow term, of it, if the parts are finite and the sum of the squared absolute values is away from overflow.  Missing: as above. *)
Theorem C114_norm_partial : forall t dev adev dflt k (a : tensor (complex t)) axes ax r, works dev -> tensor_ok a -> reducible a ax -> names (ndim (t_layout a)) axes ax ->
  stat_axes_f (cnorm_all dev k a) (cnorm_axes adev dflt a) axes r -> exists t', r = Ok t' /\ tables_as a ax (fun xs s => Forall cfinite xs -> part_no_overflow t (length xs) (exact_abs2 xs) -> cnorms_to xs s) t'.
Proof. exact l_cnorm. Qed.
Lemma cx_abs2 : exact_abs2 cx_v = 9 /\ part_no_overflow F64 2 9.
Proof. destruct (cx_int 1) as [A1 _]; [discriminate|]. destruct (cx_int 2) as [B1 _]; [discriminate|]. destruct (cx_int 0) as [C1 _]; [discriminate|]. split.
  - unfold exact_abs2, exact_dot, squares, reals, imags, cx_v, rsum, cz. cbn [map fold_right fst snd]. rewrite A1, B1, C1. lra.
  - unfold part_no_overflow, cdot_underflow. cbn [Nat.add]. pose proof (cx_rounded 3) as G1. pose proof (cx_rounded 2) as G2. cbn [pow] in G1, G2. pose proof cx_big. pose proof cx_small. replace (INR 2) with 2 by (cbn; lra). assert (2 * 2 * rounded F64 2 * smallest F64 <= 16 * 1) by (apply Rmult_le_compat; lra). lra. Qed.
Example C114_norm_example : Forall cfinite cx_v /\ part_no_overflow F64 (length cx_v) (exact_abs2 cx_v) /\
  exists r, stat_axes_f (cnorm_all AllSerial Fixed cx_m) (cnorm_axes AxesSerial RowMajor cx_m) (AxVal (-2)) r /\ ok_and (fun q => match t_data q with [x; y] => feq x (of_int 3) && flt (of_int 3) y | _ => false end)%bool r = true.
Proof. destruct cx_abs2 as [E N]. split; [exact cx_finite|]. split; [rewrite E; exact N|]. eexists. split; [eexists; split; [reflexivity|reflexivity]|]. vm_compute. reflexivity. Qed.
Print Assumptions C114_norm_partial.

(** C114: vecdot of complex tensors along any axes conjugates the left factors: it succeeds exactly for axes and shapes that fit, and each part of each entry with finite factors is finite and within ((1 + u)^(K + 1) - 1) times the sum of the magnitudes of its 2K real products, and an underflow term, of that part of the exact sum of conj(x) y, as long as that is away from overflow.  Missing: empty operands (see C54_empty_refuted). *)
Theorem C114_vecdot_partial : forall t o (a b : tensor (complex t)) axes, tensor_ok a -> tensor_ok b -> size (t_shape a) <> 0%nat -> size (t_shape b) <> 0%nat ->
  match cvecdot o a b axes with
  | Ok c => tensor_ok c /\ exists pa pb, contractible o (t_shape a) (t_shape b) axes pa pb (t_shape c) /\ forall mx, valid (t_shape c) mx ->
      exists v ps, at_ c mx = Some v /\ multiplied o a b pa pb mx ps /\ (cfinite_pairs ps -> cdots_to ps v)
  | Err _ => ~ exists pa pb s, contractible o (t_shape a) (t_shape b) axes pa pb s
  | Panic => False
  end.
Proof. exact l_cvecdot. Qed.
(** the rows of the matrix times [1 + i, 2i] *)
Definition cx_b : tensor (complex F64) := mkTensor [cz 1 1; cz 0 2] (mkLayout [2]%nat [1]%Z 0).
Definition cx_ps : list (complex F64 * complex F64) := [(cz 1 2, cz 1 1); (cz 3 (-1), cz 0 2)].
Lemma cx_injective : injective (t_layout cx_m) /\ injective (t_layout cx_b).
Proof. split; [apply not_broadcasted; [apply (good_new [2; 2]%nat [1; 2]%Z 0); [lia|vm_compute; reflexivity]|reflexivity]|apply not_broadcasted; [apply (good_new [2]%nat [1]%Z 0); [lia|vm_compute; reflexivity]|reflexivity]]. Qed.
Definition cx_all (r : res (tensor (complex F64))) (zs : list (complex F64)) : bool := match r with Ok t => forallb (fun p => cx_is (fst p) (snd p)) (combine (t_data t) zs) && (length (t_data t) =? length zs)%nat | _ => false end.
Lemma cx_pairs : cfinite_pairs cx_ps /\ re_dot cx_ps = 1 /\ im_dot cx_ps = 5 /\ part_no_overflow F64 (length cx_ps) (re_magnitude cx_ps) /\ part_no_overflow F64 (length cx_ps) (im_magnitude cx_ps).
Proof. split; [repeat constructor; apply cx_int; discriminate|]. destruct (cx_int 1) as [A1 _]; [discriminate|]. destruct (cx_int 2) as [B1 _]; [discriminate|]. destruct (cx_int 0) as [C1 _]; [discriminate|]. destruct (cx_int 3) as [D1 _]; [discriminate|]. destruct (cx_int (-1)) as [E1 _]; [discriminate|].
  assert (M1 : re_magnitude cx_ps = 5). { unfold re_magnitude, dot_magnitude, parts, cx_ps, rsum, cz. cbn [map fold_right fst snd]. rewrite A1, B1, C1, D1, E1. rewrite (Rabs_left (-1 * 2)), !Rabs_pos_eq by lra. lra. }
  assert (M2 : im_magnitude cx_ps = 9). { unfold im_magnitude, dot_magnitude, parts, cx_ps, rsum, cz. cbn [map fold_right fst snd]. rewrite A1, B1, C1, D1, E1. rewrite Rmult_0_r, !Rabs_pos_eq by lra. lra. }
  split; [unfold re_dot, exact_dot, parts, cx_ps, rsum, cz; cbn [map fold_right fst snd]; rewrite A1, B1, C1, D1, E1; lra|]. split; [unfold im_dot, exact_dot, parts, cx_ps, rsum, cz; cbn [map fold_right fst snd]; rewrite A1, B1, C1, D1, E1; lra|].
  destruct cx_abs2 as [_ N]. rewrite M1, M2. cbn [length cx_ps]. split; [|exact N]. unfold part_no_overflow in *. pose proof (cx_rounded (2 + 1)) as G. lra. Qed.
Example C114_vecdot_example : tensor_ok cx_m /\ tensor_ok cx_b /\ size (t_shape cx_m) <> 0%nat /\ size (t_shape cx_b) <> 0%nat /\ multiplied RowMajor cx_m cx_b [1]%nat [0]%nat [0]%nat cx_ps /\ cfinite_pairs cx_ps /\
  part_no_overflow F64 (length cx_ps) (re_magnitude cx_ps) /\ part_no_overflow F64 (length cx_ps) (im_magnitude cx_ps) /\ cx_all (cvecdot RowMajor cx_m cx_b PairNone) [cz 1 5; cz 4 2] = true /\ cvecdot RowMajor cx_m cx_b (PairVal 1) = Err InvalidValue.
Proof. destruct cx_pairs as (P1 & _ & _ & P2 & P3). split; [exact cx_ok|]. split; [concrete_tensor|]. split; [discriminate|]. split; [discriminate|]. split.
  { exists [cz 1 2; cz 3 (-1)], [cz 1 1; cz 0 2]. split; [repeat constructor|]. split; [repeat constructor|reflexivity]. } split; [exact P1|]. split; [exact P2|]. split; [exact P3|]. split; vm_compute; reflexivity. Qed.
Print Assumptions C114_vecdot_partial.

(** C114: vecdot on the rayon device, for every schedule of its threads, if no two indices of an operand share a cell.  Missing: empty and broadcast operands. *)
Theorem C114_rayon_partial : forall t switch pool o (a b : tensor (complex t)) axes r, tensor_ok a -> tensor_ok b -> size (t_shape a) <> 0%nat -> size (t_shape b) <> 0%nat -> injective (t_layout a) -> injective (t_layout b) -> cvecdot_rayon switch pool o a b axes r ->
  match r with
  | Ok c => tensor_ok c /\ injective (t_layout c) /\ exists pa pb, contractible o (t_shape a) (t_shape b) axes pa pb (t_shape c) /\ forall mx, valid (t_shape c) mx ->
      exists v ps, at_ c mx = Some v /\ multiplied o a b pa pb mx ps /\ (cfinite_pairs ps -> cdots_to ps v)
  | Err _ => ~ exists pa pb s, contractible o (t_shape a) (t_shape b) axes pa pb s
  | Panic => False
  end.
Proof. exact l_cvecdot_rayon. Qed.
Lemma cx_runs {t} switch pool o (a b : tensor (complex t)) axes : exists r, cvecdot_rayon switch pool o a b axes r.
Proof. unfold cvecdot_rayon, vecdot_on_rayon. destruct (vecdot_prepare o a b axes) as [[[[x y] lc] c]|e|]; [|eexists; reflexivity|eexists; reflexivity].
  assert (X : exists c', vecdot_rayon czero cadd cdot_mul switch pool o c lc (t_data a) (t_layout a) (t_data b) (t_layout b) x y c').
  { unfold vecdot_rayon. destruct (_ || _)%bool; [eexists; reflexivity|]. destruct (let* _ := _ in _) as [[tasks sum|tasks sp n]|e|]; [| |eexists; reflexivity|eexists; reflexivity]; eexists; (eexists; split; [apply Permutation.Permutation_refl|reflexivity]). }
  destruct X as [c' X]. eexists. exists c'. split; [exact X|reflexivity]. Qed.
Example C114_rayon_example : injective (t_layout cx_m) /\ injective (t_layout cx_b) /\ (exists r, cvecdot_rayon 1 true RowMajor cx_m cx_b PairNone r) /\ (Nat.max (l_size (t_layout cx_m)) (l_size (t_layout cx_b)) <? 1)%nat = false.
Proof. destruct cx_injective as [J1 J2]. split; [exact J1|]. split; [exact J2|]. split; [apply cx_runs|reflexivity]. Qed.
Print Assumptions C114_rayon_partial.

(** C114: the same written into an existing tensor without aliased elements: whatever it contained (NaN and infinities included) has no influence, and nothing else in its storage changes.  Missing: empty operands. *)
Theorem C114_from_partial : forall t o (c a b : tensor (complex t)) axes, tensor_ok c -> tensor_ok a -> tensor_ok b -> size (t_shape a) <> 0%nat -> size (t_shape b) <> 0%nat -> injective (t_layout c) ->
  match cvecdot_from o c a b axes with
  | Ok c' => t_layout c' = t_layout c /\ untouched_outside (t_layout c) (t_data c) (t_data c') /\ exists pa pb, contractible o (t_shape a) (t_shape b) axes pa pb (t_shape c) /\ forall mx, valid (t_shape c) mx ->
      exists v ps, at_ c' mx = Some v /\ multiplied o a b pa pb mx ps /\ (cfinite_pairs ps -> cdots_to ps v)
  | Err _ => ~ exists pa pb, contractible o (t_shape a) (t_shape b) axes pa pb (t_shape c)
  | Panic => False
  end.
Proof. exact l_cvecdot_from. Qed.
Definition cx_c : tensor (complex F64) := mkTensor [cz 7 7; cz 7 7; cz 7 7; cz 7 7] (mkLayout [2]%nat [2]%Z 1).
Example C114_from_example : tensor_ok cx_c /\ injective (t_layout cx_c) /\ cx_all (cvecdot_from RowMajor cx_c cx_m cx_b PairNone) [cz 7 7; cz 1 5; cz 7 7; cz 4 2] = true.
Proof. split; [concrete_tensor|]. split; [apply not_broadcasted; [apply (good_new [2]%nat [2]%Z 1); [lia|vm_compute; reflexivity]|reflexivity]|vm_compute; reflexivity]. Qed.
Print Assumptions C114_from_partial.
