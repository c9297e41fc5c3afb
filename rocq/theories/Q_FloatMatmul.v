(** Lemmas behind Properties_FloatMatmul.v *)
From Coq Require Import ZArith Reals List Lia Lra Bool.
From Flocq Require Import Core BinarySingleNaN.
From Verif Require Import Base Spec P_Tensor Q_Tensor Spec_Matmul M_Layout M_Tensor M_Reduce M_Matmul Q_Matmul M_Float Spec_Float Spec_FloatReduce Spec_FloatMatmul M_FloatMatmul P_FloatOps P_FloatSum P_FloatDot P_FloatDot2.
Import ListNotations.
Local Open Scope R_scope.

Lemma factors_of {t} (a : list (float t)) la b lb ts vs : products fmul a la b lb ts vs -> exists ps, factors a la b lb ts ps /\ vs = map (fun p => fmul (fst p) (snd p)) ps.
Proof. unfold products, factors. induction 1 as [|i v ts vs (x & y & Hx & Hy & ->) H (ps & F & ->)]. { exists []. split; constructor. } exists ((x, y) :: ps). split; [|reflexivity]. constructor; auto. Qed.
Lemma l_fmatmul_from : forall t o (c a b : tensor (float t)) alpha beta,
  tensor_ok a -> tensor_ok b -> tensor_ok c -> anchored (t_layout a) -> anchored (t_layout b) -> anchored (t_layout c) -> injective (t_layout c) ->
  product_shape o (t_shape a) (t_shape b) (t_shape c) -> same_batch_rank (t_shape a) (t_shape b) -> (t_shape c = [] -> l_offset (t_layout c) = 0%Z) ->
  exists c', fmatmul_from o c a b alpha beta = Ok (mkTensor c' (t_layout c)) /\ untouched_outside (t_layout c) (t_data c) c' /\
    forall cx, valid (t_shape c) cx -> exists ts ps z v, contracts o (t_shape a) (t_shape b) cx ts /\ factors (t_data a) (t_layout a) (t_data b) (t_layout b) ts ps /\
      at_ c cx = Some z /\ elem c' (t_layout c) cx = Some v /\
      (finite alpha -> finite beta -> finite z -> finite_pairs ps -> scaled_no_overflow alpha beta z ps -> accumulates_to alpha beta z ps v).
Proof. intros t o c a b alpha beta Ta Tb Tc Aa Ab Ac Jc PS SB O.
  destruct (l_matmul_from_by (float t) (float t) (float t) o fmul fmul fadd fmul a b c alpha beta (runs alpha beta)) as (c' & E & U & H); auto; try (intros; now constructor); try (intros; apply fmul_comm).
  exists c'. split; [exact E|]. split; [exact U|]. intros cx V. destruct (H cx V) as (ts & vs & z & v & CT & PR & Hz & Hv & R). destruct (factors_of _ _ _ _ _ _ PR) as (ps & F & ->).
  exists ts, ps, z, v. split; [exact CT|]. split; [exact F|]. split; [exact Hz|]. split; [exact Hv|]. intros. now apply scaled_ok. Qed.
Lemma l_fmatmul : forall t k o junk (a b : tensor (float t)), tensor_ok a -> tensor_ok b -> anchored (t_layout a) -> anchored (t_layout b) -> (forall i, finite (junk i)) ->
  match fmatmul k o junk a b with
  | Ok r => product_shape o (t_shape a) (t_shape b) (t_shape r) /\ same_batch_rank (t_shape a) (t_shape b) /\ tensor_ok r /\
      forall cx, valid (t_shape r) cx -> exists ts ps v, contracts o (t_shape a) (t_shape b) cx ts /\ factors (t_data a) (t_layout a) (t_data b) (t_layout b) ts ps /\ at_ r cx = Some v /\
        (finite_pairs ps -> dot_no_overflow ps -> dots_to ps v)
  | Err _ => (forall s, ~ product_shape o (t_shape a) (t_shape b) s) \/ ~ same_batch_rank (t_shape a) (t_shape b)
  | Panic => False
  end.
Proof. intros t k o junk a b Ta Tb Aa Ab FJ. unfold fmatmul.
  pose proof (l_matmul_by (float t) (float t) (float t) k o fmul fmul fzero fadd fmul junk a b (of_int 1) (runs (of_int 1) fzero) ltac:(intros; left; reflexivity) ltac:(intros; right; reflexivity) ltac:(intros; apply fmul_comm) Ta Tb Aa Ab) as H.
  destruct (op_matmul k o fmul fmul fmul fadd fzero junk a b (of_int 1)) as [r|e|]; auto. destruct H as (H1 & H2 & H3 & _ & H). split; [exact H1|]. split; [exact H2|]. split; [exact H3|].
  intros cx V. destruct (H cx V) as (ts & vs & i & v & CT & PR & Hv & R). destruct (factors_of _ _ _ _ _ _ PR) as (ps & F & ->). exists ts, ps, v. split; [exact CT|]. split; [exact F|]. split; [exact Hv|]. intros. now apply (dot_ok (junk i)). Qed.
Lemma l_fmatmul_exact : forall t j k dim o junk (a b : tensor (float t)) r, (3 - emax t - prec t <= j + k)%Z -> (j + k + prec t < emax t)%Z ->
  tensor_ok a -> tensor_ok b -> anchored (t_layout a) -> anchored (t_layout b) -> (forall i, finite (junk i)) -> fmatmul dim o junk a b = Ok r ->
  forall cx, valid (t_shape r) cx -> exists ts ps v, contracts o (t_shape a) (t_shape b) cx ts /\ factors (t_data a) (t_layout a) (t_data b) (t_layout b) ts ps /\ at_ r cx = Some v /\
    (multiple_pairs j k ps -> dot_magnitude ps <= two (j + k + prec t) -> finite v /\ val v = exact_dot ps).
Proof. intros t j k dim o junk a b r K1 K2 Ta Tb Aa Ab FJ E. unfold fmatmul in E.
  pose proof (l_matmul_by (float t) (float t) (float t) dim o fmul fmul fzero fadd fmul junk a b (of_int 1) (runs (of_int 1) fzero) ltac:(intros; left; reflexivity) ltac:(intros; right; reflexivity) ltac:(intros; apply fmul_comm) Ta Tb Aa Ab) as H.
  rewrite E in H. destruct H as (H1 & H2 & H3 & _ & H).
  intros cx V. destruct (H cx V) as (ts & vs & i & v & CT & PR & Hv & R). destruct (factors_of _ _ _ _ _ _ PR) as (ps & F & ->). exists ts, ps, v. split; [exact CT|]. split; [exact F|]. split; [exact Hv|]. intros. now apply (dot_exact j k (junk i)). Qed.

(** ** the parallel kernels *)
Section Tree.
  Context {t : float_type}.
  Lemma fold_nearp (ps : list (float t * float t)) : forall x sx, nearp x sx -> nearp (fold_left fadd (map (fun p => fmul (fst p) (snd p)) ps) x) (sh_add (total sh_zero sh_add (map sh_pair ps)) sx).
  Proof. unfold total. induction ps as [|p ps IH]; intros x sx H; cbn [fold_left map fold_right]. { replace (sh_add sh_zero sx) with sx; [auto|]. symmetry. apply sh_monoid. }
    replace (sh_add (sh_add (sh_pair p) (fold_right sh_add sh_zero (map sh_pair ps))) sx) with (sh_add (fold_right sh_add sh_zero (map sh_pair ps)) (sh_add sx (sh_pair p))).
    - apply IH, nearp_add; [exact H|]. destruct p as [x0 y0]. apply nearp_of.
    - rewrite (sh_comm sx (sh_pair p)), (sh_comm (sh_pair p) (fold_right _ _ _)). apply sh_monoid. Qed.
  Lemma tree_nearp tr : forall ps : list (float t * float t), nearp (tree_sum fzero fadd tr (map (fun p => fmul (fst p) (snd p)) ps)) (total sh_zero sh_add (map sh_pair ps)).
  Proof. induction tr as [|n l IHl r IHr]; intro ps; cbn [tree_sum].
    - pose proof (fold_nearp ps fzero sh_zero (nearp_null fzero eq_refl eq_refl)) as H. rewrite sh_comm in H. replace (sh_add sh_zero (total sh_zero sh_add (map sh_pair ps))) with (total sh_zero sh_add (map sh_pair ps)) in H; [exact H|]. symmetry. apply sh_monoid.
    - rewrite firstn_map, skipn_map. pose proof (nearp_add _ _ _ _ (IHl (firstn n ps)) (IHr (skipn n ps))) as H. replace (sh_add (total sh_zero sh_add (map sh_pair (firstn n ps))) (total sh_zero sh_add (map sh_pair (skipn n ps)))) with (total sh_zero sh_add (map sh_pair ps)) in H; [exact H|].
      rewrite <- (firstn_skipn n ps) at 1. rewrite map_app. generalize (map sh_pair (firstn n ps)) (map sh_pair (skipn n ps)). intros xs ys. unfold total. induction xs as [|x xs IH]; cbn [app fold_right]; [symmetry; apply sh_monoid|]. rewrite IH. apply sh_monoid. Qed.
  Lemma tree_zero tr : val (tree_sum fzero fadd tr ([] : list (float t))) = 0 /\ finite (tree_sum fzero fadd tr ([] : list (float t))).
  Proof. pose proof (tree_nearp tr []) as [_ H]. cbn in H. destruct H as [F E]; auto. { rewrite uf_0. unfold rounded. cbn. rewrite Rmult_0_r, Rplus_0_r. apply bpow_gt_0. }
    split; [|exact F]. apply abs_0. unfold tol in E. rewrite uf_0 in E. rewrite Rminus_0_r in E. lra. Qed.
  (** one entry *)
  Definition par_runs (alpha beta z : float t) (vs : list (float t)) (v : float t) : Prop :=
    exists tr, v = fadd (fmul z beta) (fmul (tree_sum fzero fadd tr vs) alpha) \/ v = fadd (fmul (tree_sum fzero fadd tr vs) alpha) (fmul z beta).
  Lemma par_ok alpha beta z ps v : par_runs alpha beta z (map (fun p => fmul (fst p) (snd p)) ps) v -> finite alpha -> finite beta -> finite z -> finite_pairs ps ->
    dot_no_overflow ps -> scaled_no_overflow alpha beta z ps -> accumulates_to alpha beta z ps v.
  Proof. intros (tr & E) Fa Fb Fz Fp NO SO. apply (scaled_after alpha beta z (tree_sum fzero fadd tr (map (fun p => fmul (fst p) (snd p)) ps))); auto.
    - intro L. destruct ps; [|discriminate L]. apply tree_zero.
    - apply nearp_dots; auto. apply tree_nearp. Qed.
End Tree.
Lemma l_fgemm_rayon : forall t (c a b : tensor (float t)) M K N alpha beta r, tensor_ok a -> tensor_ok b -> tensor_ok c -> injective (t_layout c) -> t_shape a = [M; K] -> t_shape b = [K; N] -> t_shape c = [M; N] ->
  fgemm_rayon (t_data c) (t_layout c) (t_data a) (t_layout a) (t_data b) (t_layout b) alpha beta r ->
  exists c', r = Ok c' /\ untouched_outside (t_layout c) (t_data c) c' /\
    forall cx, valid (t_shape c) cx -> exists ts ps z v, contracts RowMajor (t_shape a) (t_shape b) cx ts /\ factors (t_data a) (t_layout a) (t_data b) (t_layout b) ts ps /\
      at_ c cx = Some z /\ elem c' (t_layout c) cx = Some v /\
      (finite alpha -> finite beta -> finite z -> finite_pairs ps -> dot_no_overflow ps -> scaled_no_overflow alpha beta z ps -> accumulates_to alpha beta z ps v).
Proof. intros t c a b M K N alpha beta r Ta Tb Tc Jc Sa Sb Sc H. apply tensor_ok_good in Ta as [Ga Ia], Tb as [Gb Ib], Tc as [Gc Ic].
  destruct (l_gemm_rayon_by (float t) (float t) (float t) fmul fzero fadd fmul (t_data a) (t_layout a) (t_data b) (t_layout b) (t_data c) (t_layout c) M K N alpha beta r (par_runs alpha beta)) as (c' & E & U & V); auto.
  { intros z vs. exists Leaf. left. reflexivity. }
  exists c'. split; [exact E|]. split; [exact U|]. intros cx Vx. destruct (V cx Vx) as (ts & vs & z & v & CT & PR & Hz & Hv & R). destruct (factors_of _ _ _ _ _ _ PR) as (ps & F & ->).
  exists ts, ps, z, v. split; [exact CT|]. split; [exact F|]. split; [exact Hz|]. split; [exact Hv|]. intros. now apply par_ok. Qed.
Lemma l_finner_dot_rayon : forall t tr (c a b : tensor (float t)) K alpha beta, tensor_ok a -> tensor_ok b -> tensor_ok c -> t_shape a = [K] -> t_shape b = [K] -> t_shape c = [] ->
  exists c', finner_dot_rayon tr (t_data c) (t_layout c) (t_data a) (t_layout a) (t_data b) (t_layout b) alpha beta = Ok c' /\ untouched_outside (t_layout c) (t_data c) c' /\
    exists ts ps z v, contracts RowMajor (t_shape a) (t_shape b) [] ts /\ factors (t_data a) (t_layout a) (t_data b) (t_layout b) ts ps /\ at_ c [] = Some z /\ elem c' (t_layout c) [] = Some v /\
      (finite alpha -> finite beta -> finite z -> finite_pairs ps -> dot_no_overflow ps -> scaled_no_overflow alpha beta z ps -> accumulates_to alpha beta z ps v).
Proof. intros t tr c a b K alpha beta Ta Tb Tc Sa Sb Sc. apply tensor_ok_good in Ta as [Ga Ia], Tb as [Gb Ib], Tc as [Gc Ic].
  destruct (l_inner_dot_rayon_by (float t) (float t) (float t) tr fmul fzero fadd fmul (t_data a) (t_layout a) (t_data b) (t_layout b) (t_data c) (t_layout c) K alpha beta (par_runs alpha beta)) as (c' & E & U & V); auto.
  { intros z vs. exists tr. right. reflexivity. }
  exists c'. split; [exact E|]. split; [exact U|]. destruct (V []) as (ts & vs & z & v & CT & PR & Hz & Hv & R). { unfold t_shape in Sc. rewrite Sc. constructor. } destruct (factors_of _ _ _ _ _ _ PR) as (ps & F & ->).
  exists ts, ps, z, v. split; [exact CT|]. split; [exact F|]. split; [exact Hz|]. split; [exact Hv|]. intros. now apply par_ok. Qed.

(** ** what does not hold *)
(** a NaN in the memory that the result is allocated in stays there *)
Lemma l_fmatmul_junk_refuted : exists (a b : tensor (float F64)) junk r v, tensor_ok a /\ tensor_ok b /\ anchored (t_layout a) /\ anchored (t_layout b) /\ Forall finite (t_data a) /\ Forall finite (t_data b) /\
  fmatmul Fixed RowMajor junk a b = Ok r /\ at_ r [0; 0]%nat = Some v /\ is_nan v = true.
Proof. exists (mkTensor [of_int 2] (mkLayout [1; 1]%nat [1; 1]%Z 0)), (mkTensor [of_int 3] (mkLayout [1; 1]%nat [1; 1]%Z 0)), (fun _ => B754_nan), (mkTensor [B754_nan] (mkLayout [1; 1]%nat [1; 1]%Z 0)), B754_nan.
  split; [concrete_tensor|]. split; [concrete_tensor|]. split; [intro Q; discriminate Q|]. split; [intro Q; discriminate Q|]. split; [repeat constructor|]. split; [repeat constructor|]. split; [vm_compute; reflexivity|]. split; reflexivity. Qed.
(** the parallel inner product of the same two vectors depends on how the scheduler splits them *)
Lemma l_fdot_schedule_refuted : exists (a b c : tensor (float F64)) tr x y, tensor_ok a /\ tensor_ok b /\ tensor_ok c /\
  finner_dot_rayon Leaf (t_data c) (t_layout c) (t_data a) (t_layout a) (t_data b) (t_layout b) (of_int 1) fzero = Ok [x] /\
  finner_dot_rayon tr (t_data c) (t_layout c) (t_data a) (t_layout a) (t_data b) (t_layout b) (of_int 1) fzero = Ok [y] /\ feq x y = false.
Proof. pose (a := mkTensor [of_int (2 ^ 53); of_int 1; of_int 1] (mkLayout [3]%nat [1]%Z 0) : tensor (float F64)). pose (b := mkTensor [of_int 1; of_int 1; of_int 1] (mkLayout [3]%nat [1]%Z 0) : tensor (float F64)). pose (c := mkTensor [fzero] (mkLayout [] [] 0) : tensor (float F64)).
  assert (X : match finner_dot_rayon Leaf (t_data c) (t_layout c) (t_data a) (t_layout a) (t_data b) (t_layout b) (of_int 1) fzero, finner_dot_rayon (Node 1 Leaf Leaf) (t_data c) (t_layout c) (t_data a) (t_layout a) (t_data b) (t_layout b) (of_int 1) fzero with
    Ok [x], Ok [y] => negb (feq x y) | _, _ => false end = true) by (vm_compute; reflexivity).
  exists a, b, c, (Node 1 Leaf Leaf). destruct (finner_dot_rayon Leaf _ _ _ _ _ _ _ _) as [[|x [|x' l]]| |]; try discriminate X. destruct (finner_dot_rayon (Node 1 Leaf Leaf) _ _ _ _ _ _ _ _) as [[|y [|y' l]]| |]; try discriminate X.
  exists x, y. split; [concrete_tensor|]. split; [concrete_tensor|]. split; [concrete_tensor|]. split; [reflexivity|]. split; [reflexivity|]. now apply negb_true_iff. Qed.
