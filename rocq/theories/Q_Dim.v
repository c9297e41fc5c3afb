(** Proofs about dimension types and transposed stacks of matrices (C07, C122). *)
From Verif Require Import Base Spec Spec_Dim M_Layout M_Tensor M_Dim P_Index P_Layout P_Tensor.
Local Open Scope Z_scope.

Lemma layout_eta l : mkLayout (l_shape l) (l_stride l) (l_offset l) = l.
Proof. now destruct l. Qed.
Lemma tensor_eta {T} (t : tensor T) : mkTensor (t_data t) (t_layout t) = t.
Proof. now destruct t. Qed.
Lemma into_dim_fits d d2 l : wf l -> fits d (ndim l) -> fits d2 (ndim l) -> into_dim d d2 l = Ok l.
Proof. intros [W _] F1 F2. unfold into_dim, try_into, ndim in *. destruct d as [n|], d2 as [m|]; cbn [fits] in *; try (cbn [or_layout_error bind]; now rewrite layout_eta).
  - rewrite F1 in F2. subst m. rewrite W, F1, Nat.eqb_refl. cbn. now rewrite layout_eta.
  - rewrite W, F2, Nat.eqb_refl. cbn. now rewrite layout_eta. Qed.
Lemma into_dim_unfit d d2 l : fits d (ndim l) -> ~ fits d2 (ndim l) -> into_dim d d2 l = Err InvalidLayout.
Proof. intros F1 F2. unfold into_dim, try_into, ndim in *. destruct d2 as [m|]; cbn [fits] in *; [|now destruct F2]. destruct d as [n|]; cbn [fits] in *.
  - rewrite F1 in F2. destruct (Nat.eqb_spec n m); [contradiction|]. reflexivity.
  - destruct (Nat.eqb_spec (length (l_shape l)) m); [contradiction|]. reflexivity. Qed.
Lemma ok_wf {T} (t : tensor T) : tensor_ok t -> wf (t_layout t).
Proof. intros H. apply H. Qed.

Lemma l_dim_defined : forall T d d2 (t : tensor T), tensor_ok t -> fits d (length (t_shape t)) ->
  ((exists r, tensor_into_dim d d2 t = Ok r) <-> fits d2 (length (t_shape t))) /\
  (~ fits d2 (length (t_shape t)) -> tensor_into_dim d d2 t = Err InvalidLayout /\ tensor_into_dim_unwrap d d2 t = Panic).
Proof. intros T d d2 t K F. apply ok_wf in K. unfold t_shape in *. change (length (l_shape (t_layout t))) with (ndim (t_layout t)) in *.
  assert (D : fits d2 (ndim (t_layout t)) \/ ~ fits d2 (ndim (t_layout t))).
  { destruct d2; cbn; [|now left]. destruct (Nat.eq_dec (ndim (t_layout t)) n); auto. }
  unfold tensor_into_dim_unwrap, tensor_into_dim. split.
  - split; [|intros F2; rewrite into_dim_fits by auto; cbn; eauto]. intros [r E]. destruct D as [|N]; auto. rewrite into_dim_unfit in E by auto. discriminate E.
  - intros N. rewrite into_dim_unfit by auto. auto. Qed.

Lemma l_dim_elements : forall T d d2 (t r : tensor T), tensor_ok t -> fits d (length (t_shape t)) -> tensor_into_dim d d2 t = Ok r ->
  t_shape r = t_shape t /\ (forall ix, at_ r ix = at_ t ix) /\ t_data r = t_data t /\ t_layout r = t_layout t /\
  tensor_into_dim_unwrap d d2 t = Ok r /\ tensor_into_dim d2 d r = Ok t.
Proof. intros T d d2 t r K F E. assert (F2 : fits d2 (length (t_shape t))) by (apply (proj1 (l_dim_defined T d d2 t K F)); eauto).
  pose proof (ok_wf t K) as W. unfold t_shape in *. change (length (l_shape (t_layout t))) with (ndim (t_layout t)) in *.
  pose proof E as E0. unfold tensor_into_dim in E. rewrite into_dim_fits in E by auto. cbn in E. injection E as <-. rewrite tensor_eta in *. unfold tensor_into_dim_unwrap. rewrite E0.
  repeat split. unfold tensor_into_dim. rewrite into_dim_fits by auto. cbn. now rewrite tensor_eta. Qed.

Lemma l_into_dyn : forall T d (t : tensor T), tensor_ok t -> fits d (length (t_shape t)) ->
  exists r, tensor_into_dyn d t = Ok r /\ t_shape r = t_shape t /\ (forall ix, at_ r ix = at_ t ix) /\ t_data r = t_data t.
Proof. intros T d t K F. destruct (proj2 (proj1 (l_dim_defined T d IxD t K F)) I) as [r E]. exists r.
  destruct (l_dim_elements T d IxD t r K F E) as (A & B & C & _ & U & _). now unfold tensor_into_dyn. Qed.

Lemma upd_app2 {A} (u : list A) (x y z : A) : upd (u ++ [x; y]) (length u) z = u ++ [z; y] /\ upd (u ++ [x; y]) (length u + 1) z = u ++ [x; z].
Proof. induction u as [|a u [I1 I2]]; [split; reflexivity|]. cbn [app length Nat.add upd]. now rewrite I1, I2. Qed.
Lemma swap_last {A} (u : list A) (x y : A) : swap_at (u ++ [x; y]) (length u + 1) (length u) = u ++ [y; x].
Proof. unfold swap_at. rewrite !nth_error_app2, Nat.sub_diag by lia. replace (length u + 1 - length u)%nat with 1%nat by lia. cbn [nth_error].
  rewrite (proj2 (upd_app2 u x y x)). apply upd_app2. Qed.
Lemma last_axes n : check_axis (-1) (n + 2) = Ok (n + 1)%nat /\ check_axis (-2) (n + 2) = Ok n.
Proof. unfold check_axis. cbn [Z.ltb Z.compare]. split.
  - replace ((0 <=? Z.of_nat (n + 2) + -1) && (Z.of_nat (n + 2) + -1 <? Z.of_nat (n + 2)))%bool with true by lia. f_equal. lia.
  - replace ((0 <=? Z.of_nat (n + 2) + -2) && (Z.of_nat (n + 2) + -2 <? Z.of_nat (n + 2)))%bool with true by lia. f_equal. lia. Qed.
Lemma two_last {A} (u : list A) : (2 <= length u)%nat -> exists v x y, u = v ++ [x; y].
Proof. destruct (rev u) as [|y [|x v]] eqn:E; intros H.
  - apply (f_equal (@length A)) in E. rewrite rev_length in E. cbn in E. lia.
  - apply (f_equal (@length A)) in E. rewrite rev_length in E. cbn in E. lia.
  - exists (rev v), x, y. rewrite <- (rev_involutive u), E. cbn. now rewrite <- app_assoc. Qed.
Lemma mT_layout bs ss m n s1 s2 off : length ss = length bs ->
  swapaxes (mkLayout (bs ++ [m; n]) (ss ++ [s1; s2]) off) (-1) (-2) = Ok (mkLayout (bs ++ [n; m]) (ss ++ [s2; s1]) off).
Proof. intros L. unfold swapaxes, ndim. cbn [l_shape l_stride l_offset]. rewrite app_length. cbn [length]. destruct (last_axes (length bs)) as [-> ->]. cbn [bind].
  rewrite swap_last, <- L, swap_last. reflexivity. Qed.

Lemma l_mT_defined : forall T (t : tensor T), tensor_ok t ->
  ((exists r, matrix_transpose t = Ok r) <-> (2 <= length (t_shape t))%nat) /\ ((length (t_shape t) < 2)%nat -> matrix_transpose t = Err AxisError).
Proof. intros T t K. pose proof (ok_wf t K) as [W _]. unfold matrix_transpose, tensor_swapaxes, t_shape in *.
  assert (N : (length (l_shape (t_layout t)) < 2)%nat -> swapaxes (t_layout t) (-1) (-2) = Err AxisError).
  { intros H. unfold swapaxes, ndim. destruct (length (l_shape (t_layout t))) as [|[|]]; [reflexivity|reflexivity|lia]. }
  split; [split|].
  - intros [r E]. destruct (le_lt_dec 2 (length (l_shape (t_layout t)))); auto. rewrite N in E by auto. discriminate E.
  - intros H. destruct (t_layout t) as [sh st off]. cbn [l_shape l_stride] in *. destruct (two_last sh H) as (bs & m & n & ->). destruct (two_last st) as (ss & s1 & s2 & ->); [lia|].
    rewrite !app_length in W. cbn in W. rewrite mT_layout by lia. cbn. eauto.
  - intros H. now rewrite N. Qed.

Lemma l_mT : forall T (t r : tensor T) bs m n, tensor_ok t -> t_shape t = bs ++ [m; n] -> matrix_transpose t = Ok r ->
  t_shape r = bs ++ [n; m] /\ t_data r = t_data t /\
  (forall b i j, valid bs b -> (i < m)%nat -> (j < n)%nat -> at_ r (b ++ [j; i]) = at_ t (b ++ [i; j])) /\
  matrix_transpose r = Ok t.
Proof. intros T t r bs m n K S E. pose proof (ok_wf t K) as [W _]. unfold matrix_transpose, tensor_swapaxes, t_shape in *. destruct t as [data [sh st off]]. cbn [t_layout t_data l_shape l_stride] in *. subst sh.
  rewrite app_length in W. cbn in W. destruct (two_last st) as (ss & s1 & s2 & ->); [lia|]. rewrite app_length in W. cbn in W.
  rewrite mT_layout in E by lia. cbn in E. injection E as <-. cbn [t_layout t_data l_shape l_stride]. rewrite mT_layout by lia. cbn. repeat split.
  intros b i j V _ _. unfold at_, elem, addr. cbn [t_layout t_data l_stride l_offset]. apply valid_length in V. rewrite !dot_app by lia. cbn [dot]. f_equal. lia. Qed.
