(** Property theorems about products of matrices of floating-point numbers (C107).  Statements use Spec_Matmul.v, Spec_Float.v,
    Spec_FloatReduce.v, Spec_FloatMatmul.v and the modelled entry points of M_FloatMatmul.v only. *)
From Coq Require Import ZArith Reals List Lra Lia.
From Flocq Require Import Core BinarySingleNaN.
From Verif Require Import Base Spec P_Tensor Spec_Matmul M_Layout M_Tensor M_Reduce M_Matmul M_Float Spec_Float Spec_FloatReduce Spec_FloatMatmul M_FloatMatmul P_FloatOps Q_FloatMatmul.
Import ListNotations.
Local Open Scope R_scope.

(** C107: a matmul b (a % b) for tensors of f32 or f64 on the serial device, all shapes with batch axes and broadcasting: it succeeds exactly for shapes that fit (and batch axes of equal number), and each entry whose factors are finite and far from overflow is finite and within ((1 + u)^K - 1) times the sum of the magnitudes of its K products, and an underflow term, of the exact sum of the products -- if the uninitialised memory that the result is allocated in holds finite numbers (see C107_junk_refuted). *)
Theorem C107_matmul : forall t k o junk (a b : tensor (float t)), tensor_ok a -> tensor_ok b -> anchored (t_layout a) -> anchored (t_layout b) -> (forall i, finite (junk i)) ->
  match fmatmul k o junk a b with
  | Ok r => product_shape o (t_shape a) (t_shape b) (t_shape r) /\ same_batch_rank (t_shape a) (t_shape b) /\ tensor_ok r /\
      forall cx, valid (t_shape r) cx -> exists ts ps v, contracts o (t_shape a) (t_shape b) cx ts /\ factors (t_data a) (t_layout a) (t_data b) (t_layout b) ts ps /\ at_ r cx = Some v /\
        (finite_pairs ps -> dot_no_overflow ps -> dots_to ps v)
  | Err _ => (forall s, ~ product_shape o (t_shape a) (t_shape b) s) \/ ~ same_batch_rank (t_shape a) (t_shape b)
  | Panic => False
  end.
Proof. exact l_fmatmul. Qed.
(** the matrix [[1, 2], [3, 4]], stored by columns; its square is [[7, 10], [15, 22]] *)
Definition gx_m : tensor (float F64) := mkTensor [of_int 1; of_int 3; of_int 2; of_int 4] (mkLayout [2; 2]%nat [1; 2]%Z 0).
Definition gx_ps : list (float F64 * float F64) := [(of_int 1, of_int 1); (of_int 2, of_int 3)].
Lemma gx_ok : tensor_ok gx_m /\ anchored (t_layout gx_m). Proof. split; [concrete_tensor|]. intro H. discriminate H. Qed.
Lemma gx_int z : (Z.abs z <= 2 ^ 53)%Z -> val (of_int z : float F64) = IZR z /\ finite (of_int z : float F64). Proof. apply (int_val F64). Qed.
Lemma gx_unit : 0 <= unit_roundoff F64 <= 1. Proof. unfold unit_roundoff. split; [apply bpow_ge_0|]. change 1 with (two 0). apply bpow_le. cbn. discriminate. Qed.
Lemma gx_small : 0 <= smallest F64 <= 1. Proof. unfold smallest. split; [apply bpow_ge_0|]. change 1 with (two 0). apply bpow_le. cbn. discriminate. Qed.
Lemma gx_rounded k : 0 <= rounded F64 k <= 2 ^ k.
Proof. unfold rounded. pose proof gx_unit. split; [apply pow_le; lra|apply pow_incr; lra]. Qed.
Lemma gx_big : 256 <= two (emax F64). Proof. change 256 with (two 8). apply bpow_le. cbn. discriminate. Qed.
Lemma gx_pairs : finite_pairs gx_ps /\ exact_dot gx_ps = 7 /\ dot_magnitude gx_ps = 7 /\ dot_no_overflow gx_ps.
Proof. destruct (gx_int 1) as [A1 A2]; [discriminate|]. destruct (gx_int 2) as [B1 B2]; [discriminate|]. destruct (gx_int 3) as [C1 C2]; [discriminate|].
  assert (M : dot_magnitude gx_ps = 7). { unfold dot_magnitude, gx_ps, rsum. cbn [map fold_right fst snd]. rewrite A1, B1, C1. rewrite !Rabs_pos_eq by lra. lra. }
  split; [repeat constructor; auto|]. split; [unfold exact_dot, gx_ps, rsum; cbn [map fold_right fst snd]; rewrite A1, B1, C1; lra|]. split; [exact M|].
  unfold dot_no_overflow, dot_underflow. rewrite M. cbn [length gx_ps Nat.sub]. pose proof (gx_rounded 2) as G2. pose proof (gx_rounded 1) as G1. pose proof gx_small as S0. pose proof gx_big as B. cbn [pow] in G2, G1. replace (INR 2) with 2 by (cbn; lra).
  assert (2 * rounded F64 1 * smallest F64 <= 4 * 1) by (apply Rmult_le_compat; lra). lra. Qed.
Definition near_all (r : res (tensor (float F64))) (zs : list Z) : bool := match r with Ok t => forallb (fun p => feq (fst p) (of_int (snd p))) (combine (t_data t) zs) && (length (t_data t) =? length zs)%nat | _ => false end.
Example C107_example : tensor_ok gx_m /\ anchored (t_layout gx_m) /\ (forall i : nat, finite (of_int 9 : float F64)) /\ product_shape RowMajor (t_shape gx_m) (t_shape gx_m) [2; 2]%nat /\ same_batch_rank (t_shape gx_m) (t_shape gx_m) /\
  contracts RowMajor (t_shape gx_m) (t_shape gx_m) [0; 0]%nat [([0; 0], [0; 0]); ([0; 1], [1; 0])]%nat /\ factors (t_data gx_m) (t_layout gx_m) (t_data gx_m) (t_layout gx_m) [([0; 0], [0; 0]); ([0; 1], [1; 0])]%nat gx_ps /\
  finite_pairs gx_ps /\ dot_no_overflow gx_ps /\ near_all (fmatmul Fixed RowMajor (fun _ => of_int 9) gx_m gx_m) [7; 10; 15; 22]%Z = true.
Proof. destruct gx_pairs as (P1 & _ & _ & P2). split; [apply gx_ok|]. split; [apply gx_ok|]. split; [intros _; now apply (gx_int 9)|]. split. { apply (ps_matmat RowMajor [] [] [] 2 2 2). split; [reflexivity|]. intro k. cbn. destruct k; auto. }
  split; [intros H _; cbn in H; lia|]. split; [apply (ct_matmat RowMajor [] [] 2 2 2 [] 0 0)|]. split; [repeat constructor|]. split; [exact P1|]. split; [exact P2|]. vm_compute. reflexivity. Qed.
Print Assumptions C107_matmul.

(** C107: if the elements of the factors are multiples of 2^j and of 2^k (for j = k = 0: integers) and the magnitudes of the products of an entry add up to at most 2^(j + k + 24) or 2^(j + k + 53), the entry is exact. *)
Theorem C107_matmul_exact : forall t j k dim o junk (a b : tensor (float t)) r, (3 - emax t - prec t <= j + k)%Z -> (j + k + prec t < emax t)%Z ->
  tensor_ok a -> tensor_ok b -> anchored (t_layout a) -> anchored (t_layout b) -> (forall i, finite (junk i)) -> fmatmul dim o junk a b = Ok r ->
  forall cx, valid (t_shape r) cx -> exists ts ps v, contracts o (t_shape a) (t_shape b) cx ts /\ factors (t_data a) (t_layout a) (t_data b) (t_layout b) ts ps /\ at_ r cx = Some v /\
    (multiple_pairs j k ps -> dot_magnitude ps <= two (j + k + prec t) -> finite v /\ val v = exact_dot ps).
Proof. exact l_fmatmul_exact. Qed.
Example C107_exact_example : (3 - emax F64 - prec F64 <= 0 + 0)%Z /\ (0 + 0 + prec F64 < emax F64)%Z /\ multiple_pairs 0 0 gx_ps /\ dot_magnitude gx_ps <= two (0 + 0 + prec F64).
Proof. split; [cbn; lia|]. split; [cbn; lia|]. split.
  - assert (M : forall z, (Z.abs z <= 2 ^ 53)%Z -> finite (of_int z : float F64) /\ multiple_of 0 (val (of_int z : float F64))) by (intros z Hz; destruct (gx_int z Hz) as [V F]; split; [exact F|]; exists z; rewrite V; change (two 0) with 1; ring).
    unfold multiple_pairs, gx_ps. constructor; [split; apply M; discriminate|]. constructor; [split; apply M; discriminate|]. constructor.
  - destruct gx_pairs as (_ & _ & -> & _). apply Rle_trans with (two 7); [change (two 7) with 128; lra|apply bpow_le; cbn; discriminate]. Qed.
Print Assumptions C107_matmul_exact.

(** C107: matmul_from, which replaces c by alpha a b + beta c, for all alpha, beta and c.  Missing: as in C34, outputs that are broadcast or, if they have no axes, do not start at the first cell of the storage (where the code writes elsewhere). *)
Theorem C107_matmul_from_partial : forall t o (c a b : tensor (float t)) alpha beta,
  tensor_ok a -> tensor_ok b -> tensor_ok c -> anchored (t_layout a) -> anchored (t_layout b) -> anchored (t_layout c) -> injective (t_layout c) ->
  product_shape o (t_shape a) (t_shape b) (t_shape c) -> same_batch_rank (t_shape a) (t_shape b) -> (t_shape c = [] -> l_offset (t_layout c) = 0%Z) ->
  exists c', fmatmul_from o c a b alpha beta = Ok (mkTensor c' (t_layout c)) /\ untouched_outside (t_layout c) (t_data c) c' /\
    forall cx, valid (t_shape c) cx -> exists ts ps z v, contracts o (t_shape a) (t_shape b) cx ts /\ factors (t_data a) (t_layout a) (t_data b) (t_layout b) ts ps /\
      at_ c cx = Some z /\ elem c' (t_layout c) cx = Some v /\
      (finite alpha -> finite beta -> finite z -> finite_pairs ps -> scaled_no_overflow alpha beta z ps -> accumulates_to alpha beta z ps v).
Proof. exact l_fmatmul_from. Qed.
Lemma gx_scaled : scaled_no_overflow (of_int 2) (of_int 3) (of_int 1) gx_ps.
Proof. destruct (gx_int 1) as [A1 A2]; [discriminate|]. destruct (gx_int 2) as [B1 B2]; [discriminate|]. destruct (gx_int 3) as [C1 C2]; [discriminate|]. destruct gx_pairs as (_ & _ & M & _). pose proof gx_small as S0. pose proof gx_big as B. split.
  - unfold scaled_magnitude, scaled_underflow. rewrite M, A1, B1, C1. rewrite !Rabs_pos_eq by lra. cbn [length gx_ps Nat.add]. pose proof (gx_rounded 4) as G4. pose proof (gx_rounded 2) as G2. pose proof (gx_rounded 1) as G1. cbn [pow] in G4, G2, G1. replace (INR 3) with 3 by (cbn; lra).
    assert (rounded F64 4 * (3 * 1 + 2 * 7) <= 16 * 12 + 16 * 5) by lra. assert (B' : 1024 <= two (emax F64)) by (change 1024 with (two 10); apply bpow_le; cbn; discriminate).
    assert (3 * rounded F64 2 * (1 + rounded F64 1 * 2) * smallest F64 <= 12 * 5 * 1) by (apply Rmult_le_compat; [apply Rmult_le_pos; lra|lra|apply Rmult_le_compat; lra|lra]). lra.
  - pose proof (gx_rounded 1) as G1. cbn [pow] in G1. unfold gx_ps. constructor; [|constructor; [|constructor]]; cbn [fst snd]; rewrite ?A1, ?B1, ?C1, Rabs_pos_eq by lra; lra. Qed.
Definition gx_c : tensor (float F64) := mkTensor [of_int 1; of_int 1; of_int 1; of_int 1] (mkLayout [2; 2]%nat [2; 1]%Z 0).
Example C107_from_example : tensor_ok gx_c /\ anchored (t_layout gx_c) /\ injective (t_layout gx_c) /\ product_shape RowMajor (t_shape gx_m) (t_shape gx_m) (t_shape gx_c) /\ (t_shape gx_c = [] -> l_offset (t_layout gx_c) = 0%Z) /\
  scaled_no_overflow (of_int 2) (of_int 3) (of_int 1) gx_ps /\ near_all (fmatmul_from RowMajor gx_c gx_m gx_m (of_int 2) (of_int 3)) [17; 23; 33; 47]%Z = true.
Proof. split; [concrete_tensor|]. split; [intro H; discriminate H|]. split.
  { intros ix jx V V' E. unfold gx_c in *. cbn [t_layout l_shape] in V, V'. inversion V as [|i n ix' s Hi V1 E1 E2]; subst. inversion V1 as [|i' n' ix'' s' Hi' V2 E1' E2']; subst. inversion V2; subst. inversion V' as [|j n jx' s Hj V1' E1 E2]; subst. inversion V1' as [|j' n' jx'' s' Hj' V2' E1' E2']; subst. inversion V2'; subst. unfold addr in E. cbn [t_layout l_offset l_stride dot] in E. f_equal; [lia|]. f_equal. lia. }
  split. { apply (ps_matmat RowMajor [] [] [] 2 2 2). split; [reflexivity|]. intro k. cbn. destruct k; auto. } split; [discriminate|]. split; [exact gx_scaled|]. vm_compute. reflexivity. Qed.
Print Assumptions C107_matmul_from_partial.

(** C107: the parallel kernel for two matrices, which adds up the products first and scales afterwards, for every order in which the threads work on the cells. *)
Theorem C107_gemm_rayon : forall t (c a b : tensor (float t)) M K N alpha beta r, tensor_ok a -> tensor_ok b -> tensor_ok c -> injective (t_layout c) -> t_shape a = [M; K] -> t_shape b = [K; N] -> t_shape c = [M; N] ->
  fgemm_rayon (t_data c) (t_layout c) (t_data a) (t_layout a) (t_data b) (t_layout b) alpha beta r ->
  exists c', r = Ok c' /\ untouched_outside (t_layout c) (t_data c) c' /\
    forall cx, valid (t_shape c) cx -> exists ts ps z v, contracts RowMajor (t_shape a) (t_shape b) cx ts /\ factors (t_data a) (t_layout a) (t_data b) (t_layout b) ts ps /\
      at_ c cx = Some z /\ elem c' (t_layout c) cx = Some v /\
      (finite alpha -> finite beta -> finite z -> finite_pairs ps -> dot_no_overflow ps -> scaled_no_overflow alpha beta z ps -> accumulates_to alpha beta z ps v).
Proof. exact l_fgemm_rayon. Qed.
Example C107_rayon_example : t_shape gx_m = [2; 2]%nat /\ t_shape gx_c = [2; 2]%nat /\ dot_no_overflow gx_ps /\ scaled_no_overflow (of_int 2) (of_int 3) (of_int 1) gx_ps /\
  exists r, fgemm_rayon (t_data gx_c) (t_layout gx_c) (t_data gx_m) (t_layout gx_m) (t_data gx_m) (t_layout gx_m) (of_int 2) (of_int 3) r /\ near_all (let* d := r in Ok (mkTensor d (t_layout gx_c))) [17; 23; 33; 47]%Z = true.
Proof. split; [reflexivity|]. split; [reflexivity|]. split; [apply gx_pairs|]. split; [exact gx_scaled|]. eexists. split; [exists (list_prod (seq 0 2) (seq 0 2)); split; [apply Permutation.Permutation_refl|reflexivity]|]. vm_compute. reflexivity. Qed.
Print Assumptions C107_gemm_rayon.

(** C107: the parallel kernel for two vectors, for every way the scheduler splits them. *)
Theorem C107_inner_dot_rayon : forall t tr (c a b : tensor (float t)) K alpha beta, tensor_ok a -> tensor_ok b -> tensor_ok c -> t_shape a = [K] -> t_shape b = [K] -> t_shape c = [] ->
  exists c', finner_dot_rayon tr (t_data c) (t_layout c) (t_data a) (t_layout a) (t_data b) (t_layout b) alpha beta = Ok c' /\ untouched_outside (t_layout c) (t_data c) c' /\
    exists ts ps z v, contracts RowMajor (t_shape a) (t_shape b) [] ts /\ factors (t_data a) (t_layout a) (t_data b) (t_layout b) ts ps /\ at_ c [] = Some z /\ elem c' (t_layout c) [] = Some v /\
      (finite alpha -> finite beta -> finite z -> finite_pairs ps -> dot_no_overflow ps -> scaled_no_overflow alpha beta z ps -> accumulates_to alpha beta z ps v).
Proof. exact l_finner_dot_rayon. Qed.
Definition gx_x : tensor (float F64) := mkTensor [of_int 2; of_int 1] (mkLayout [2]%nat [(-1)]%Z 1).
Definition gx_y : tensor (float F64) := mkTensor [of_int 1; of_int 3] (mkLayout [2]%nat [1]%Z 0).
Definition gx_z : tensor (float F64) := mkTensor [of_int 8; of_int 1] (mkLayout [] [] 1).
Example C107_dot_example : tensor_ok gx_x /\ tensor_ok gx_y /\ tensor_ok gx_z /\ factors (t_data gx_x) (t_layout gx_x) (t_data gx_y) (t_layout gx_y) [([0], [0]); ([1], [1])]%nat gx_ps /\
  near_all (let* d := finner_dot_rayon (Node 1 Leaf Leaf) (t_data gx_z) (t_layout gx_z) (t_data gx_x) (t_layout gx_x) (t_data gx_y) (t_layout gx_y) (of_int 2) (of_int 3) in Ok (mkTensor d (t_layout gx_z))) [8; 17]%Z = true.
Proof. split; [concrete_tensor|]. split; [concrete_tensor|]. split; [concrete_tensor|]. split; [repeat constructor|]. vm_compute. reflexivity. Qed.
Print Assumptions C107_inner_dot_rayon.

(** C107: matmul multiplies the uninitialised memory of its result by zero instead of overwriting it; a NaN (or infinity) that happens to be there stays, although both factors are finite. *)
Theorem C107_junk_refuted : exists (a b : tensor (float F64)) junk r v, tensor_ok a /\ tensor_ok b /\ anchored (t_layout a) /\ anchored (t_layout b) /\ Forall finite (t_data a) /\ Forall finite (t_data b) /\
  fmatmul Fixed RowMajor junk a b = Ok r /\ at_ r [0; 0]%nat = Some v /\ is_nan v = true.
Proof. exact l_fmatmul_junk_refuted. Qed.
Print Assumptions C107_junk_refuted.

(** C107: the parallel inner product of the same two vectors depends on how the scheduler splits them. *)
Theorem C107_schedule_refuted : exists (a b c : tensor (float F64)) tr x y, tensor_ok a /\ tensor_ok b /\ tensor_ok c /\
  finner_dot_rayon Leaf (t_data c) (t_layout c) (t_data a) (t_layout a) (t_data b) (t_layout b) (of_int 1) fzero = Ok [x] /\
  finner_dot_rayon tr (t_data c) (t_layout c) (t_data a) (t_layout a) (t_data b) (t_layout b) (of_int 1) fzero = Ok [y] /\ feq x y = false.
Proof. exact l_fdot_schedule_refuted. Qed.
Print Assumptions C107_schedule_refuted.
