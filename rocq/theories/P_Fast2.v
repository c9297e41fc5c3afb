From Verif Require Import Base Spec Spec_Matmul P_Index P_List M_Layout P_Layout P_Bounds P_Contig P_Strides M_Indexer P_Indexer M_Broadcast P_Broadcast Q_Broadcast M_Rearr P_Rearr P_BinOp M_Iter P_Iter M_Kernel P_Kernel Q_Rearr Q_Kernel M_Tensor P_Tensor Q_Tensor Q_Copy M_Matmul P_Matmul P_Matmul2 P_Matmul3 P_Matmul4 P_Tri3 Q_Matmul M_Fast P_Fast.
Local Open Scope Z_scope.

Lemma reverse_twice l : reverse_axes (reverse_axes l) = l.
Proof. destruct l. unfold reverse_axes. cbn. now rewrite !rev_involutive. Qed.
Section Kernels.
  Context {T : Type} (zero one : T) (add mul : T -> T -> T) (eqb : T -> T -> bool) (SR : comm_semiring zero add mul) (EQ : forall x y, eqb x y = true <-> x = y) (ONE : forall x, mul one x = x).
  Notation filled := (filled add mul).
  Notation entry := (entry zero add mul).
  Notation at0 := (at0 zero).

  Lemma none_renew z v : renew add None z v = add (mul zero z) v.
  Proof using SR. clear one eqb EQ ONE. cbn. rewrite (mul_comm zero add mul SR), (mul_zero zero add mul SR), (add_zero zero add mul SR). reflexivity. Qed.
  (** the library writes the product where the layout says *)
  Lemma lib_filled M N lc c old a pa b pb K alpha beta pc W : l_shape lc = [M; N] -> inside lc (length c) -> injective lc ->
    (forall i j, (i < M)%nat -> (j < N)%nat -> pc i j = addr lc [i; j]) ->
    (forall i k, (i < M)%nat -> (k < K)%nat -> 0 <= pa i k < Z.of_nat (length a)) -> (forall k j, (k < K)%nat -> (j < N)%nat -> 0 <= pb k j < Z.of_nat (length b)) ->
    (forall z v, renew add old z v = add (mul beta z) v) ->
    (forall i j, (i < M)%nat -> (j < N)%nat -> total zero add (map (fun k => mul (at0 a (pa i k)) (at0 b (pb k j))) (seq 0 K)) = W i j) ->
    exists c', lib_product zero add mul (all_cells M N) old alpha c pc a pa b pb K = Ok c' /\ filled M N lc W alpha beta c c'.
  Proof using SR. clear one eqb EQ ONE. intros Sc Ic Jc HP Ra Rb HO HW. assert (IN : forall ij, In ij (all_cells M N) -> (fst ij < M)%nat /\ (snd ij < N)%nat) by (intros [i j] H; now apply in_all in H).
    assert (IC : forall i j, (i < M)%nat -> (j < N)%nat -> 0 <= pc i j < Z.of_nat (length c)). { intros i j Hi Hj. rewrite HP by auto. apply Ic. rewrite Sc. now apply valid_tuple2. }
    destruct (lib_product_ok zero add mul SR old alpha pc a pa b pb K (all_cells M N) c) as (c' & E & L & V & U).
    - apply (nodup_cells pc _ M N); auto using nodup_all. intros i j i' j' Hi Hj Hi' Hj' E. rewrite !HP in E by auto. apply Jc in E; try (rewrite Sc; now apply valid_tuple2). injection E as -> ->. auto.
    - intros ij H. apply IN in H as [H1 H2]. auto.
    - intros ij k H Hk. apply IN in H as [H1 H2]. auto.
    - intros ij k H Hk. apply IN in H as [H1 H2]. auto.
    - exists c'. split; [exact E|]. split; [auto|]. split.
      + intros m n Hm Hn. destruct (V (m, n)) as (z & Hz & H). { now apply in_all. } cbn [fst snd] in *. rewrite HP in * by auto. exists z. split; auto. rewrite H, HO, HW by auto. reflexivity.
      + intros p Hp. apply U. intros ij H. apply IN in H as [H1 H2]. rewrite HP by auto. auto. Qed.

  (** ** faer *)
  Lemma faer_filled M K N c lc a la b lb old alpha beta : l_shape la = [M; K] -> l_shape lb = [K; N] -> l_shape lc = [M; N] -> inside la (length a) -> inside lb (length b) -> inside lc (length c) -> injective lc ->
    (forall z v, renew add old z v = add (mul beta z) v) ->
    exists c', faer_product zero add mul (all_cells M N) old alpha c lc a la b lb = Ok c' /\ filled M N lc (entry a la b lb K) alpha beta c c'.
  Proof using SR. clear one eqb EQ ONE. intros Sa Sb Sc Ia Ib Ic Jc HO. unfold faer_product, extent. rewrite Sa. cbn [nth]. apply lib_filled; auto.
    - intros i k Hi Hk. apply Ia. rewrite Sa. now apply valid_tuple2.
    - intros k j Hk Hj. apply Ib. rewrite Sb. now apply valid_tuple2. Qed.
  Lemma gemm_faer_filled M K N c lc a la b lb alpha beta : l_shape la = [M; K] -> l_shape lb = [K; N] -> l_shape lc = [M; N] -> good lc -> inside la (length a) -> inside lb (length b) -> inside lc (length c) -> injective lc ->
    exists c', gemm_faer zero one add mul eqb c lc a la b lb alpha beta = Ok c' /\ filled M N lc (entry a la b lb K) alpha beta c c'.
  Proof. intros Sa Sb Sc Gc Ia Ib Ic Jc. unfold gemm_faer, extent. rewrite Sa, Sb, Sc. cbn [nth]. rewrite !Nat.eqb_refl. cbn [check bind]. destruct (eqb beta zero) eqn:E0.
    - apply EQ in E0 as ->. apply faer_filled; auto. apply none_renew.
    - destruct (eqb beta one) eqn:E1; cbn [bind].
      + apply EQ in E1 as ->. apply faer_filled; auto. intros z v. cbn [renew]. now rewrite ONE.
      + unfold op_muta_numb. destruct (op1_kernel Fixed contig_switch c lc (fun x => mul x beta)) as (c1 & -> & [L1 U1] & V1); auto. { unfold contig_switch. lia. } { apply Gc. } { apply Gc. } { now apply accepted_distinct. }
        cbn [bind]. destruct (faer_filled M K N c1 lc a la b lb (Some (fun x => x)) alpha one) as (c' & E & L & V & U); auto. { now rewrite L1. } { intros z v. cbn [renew]. now rewrite ONE. }
        exists c'. split; [exact E|]. split; [congruence|]. split.
        * intros m n Hm Hn. destruct (V1 [m; n]) as (z & Hz & Hz1). { rewrite Sc. now apply valid_tuple2. } destruct (V m n) as (z' & Hz' & H); auto. unfold elem in *. exists z. split; auto. rewrite H. do 2 f_equal. rewrite Hz1 in Hz'. injection Hz' as <-. rewrite ONE. apply (mul_comm zero add mul SR).
        * intros p Hp. rewrite U by auto. apply U1. intros ix V'. rewrite Sc in V'. change [M; N] with ([] ++ [M; N]) in V'. apply valid_mat_inv in V' as (bx & m & n & -> & Vb & Hm & Hn). apply valid_nil in Vb as ->. cbn [app]. auto. Qed.

  (** ** a triangle and its copy *)
  Lemma symmetric a la K m n : wf la -> ndim la = 2%nat -> entry a la a (reverse_axes la) K m n = entry a la a (reverse_axes la) K n m.
  Proof using SR. clear one eqb EQ ONE. intros [L _] N. unfold P_Fast.entry, ndim in *. f_equal. apply map_ext. intro k. rewrite (mul_comm zero add mul SR), !reverse_addr' by (cbn; lia). reflexivity. Qed.
  (** [low]: the triangle that the library writes is the lower one *)
  Lemma triangle_filled (low : bool) n lc c a pa b pb K alpha pc W cells tri srcs : l_shape lc = [n; n] -> inside lc (length c) -> injective lc -> (forall l, Permutation (tri l) l) ->
    (forall i j, (i < n)%nat -> (j < n)%nat -> pc i j = addr lc [i; j]) ->
    (forall i k, (i < n)%nat -> (k < K)%nat -> 0 <= pa i k < Z.of_nat (length a)) -> (forall k j, (k < K)%nat -> (j < n)%nat -> 0 <= pb k j < Z.of_nat (length b)) ->
    (forall i j, (i < n)%nat -> (j < n)%nat -> total zero add (map (fun k => mul (at0 a (pa i k)) (at0 b (pb k j))) (seq 0 K)) = W i j) -> (forall i j, W i j = W j i) ->
    cells = (if low then lower_cells n else upper_cells n) -> 
    srcs = map (fun ij => if low then (addr lc [fst ij; snd ij], addr lc [snd ij; fst ij]) else (addr lc [snd ij; fst ij], addr lc [fst ij; snd ij])) (tri (strict_lower n)) ->
    exists c', (let* c := lib_product zero add mul cells None alpha c pc a pa b pb K in fold_res copy_cell srcs c) = Ok c' /\ filled n n lc W alpha zero c c'.
  Proof using SR. clear one eqb EQ ONE. intros Sc Ic Jc PT HP Ra Rb HW SY EC ES.
    assert (IN : forall i j, In (i, j) cells <-> (i < n)%nat /\ (j < n)%nat /\ if low then (j <= i)%nat else (i <= j)%nat).
    { intros i j. subst cells. destruct low; unfold lower_cells, upper_cells; rewrite filter_In, in_all; cbn [fst snd]; lia. }
    assert (ND : NoDup cells) by (subst cells; destruct low; apply NoDup_filter, nodup_all).
    assert (RC : forall i j, (i < n)%nat -> (j < n)%nat -> 0 <= addr lc [i; j] < Z.of_nat (length c)). { intros i j Hi Hj. apply Ic. rewrite Sc. now apply valid_tuple2. }
    assert (J : forall i j i' j', (i < n)%nat -> (j < n)%nat -> (i' < n)%nat -> (j' < n)%nat -> addr lc [i; j] = addr lc [i'; j'] -> i = i' /\ j = j').
    { intros i j i' j' H1 H2 H3 H4 E. apply Jc in E; try (rewrite Sc; now apply valid_tuple2). injection E as -> ->. auto. }
    destruct (lib_product_ok zero add mul SR None alpha pc a pa b pb K cells c) as (c1 & E1 & L1 & V1 & U1).
    { apply (nodup_cells pc _ n n); auto. - intros [i j] H. apply IN in H. cbn [fst snd]. tauto. - intros i j i' j' H1 H2 H3 H4 E. rewrite !HP in E by auto. now apply J. }
    { intros [i j] H. apply IN in H. cbn [fst snd]. rewrite HP by tauto. apply RC; tauto. } { intros [i j] k H Hk. apply IN in H. cbn [fst snd]. apply Ra; tauto. } { intros [i j] k H Hk. apply IN in H. cbn [fst snd]. apply Rb; tauto. }
    rewrite E1. cbn [bind].
    assert (TI : forall i j, In (i, j) (tri (strict_lower n)) <-> (j < i)%nat /\ (i < n)%nat). { intros i j. rewrite <- in_strict. split; apply Permutation_in; auto. symmetry. auto. }
    assert (DS : map snd srcs = map (fun ij : nat * nat => if low then addr lc [snd ij; fst ij] else addr lc [fst ij; snd ij]) (tri (strict_lower n))). { subst srcs. rewrite map_map. apply map_ext. intros. now destruct low. }
    assert (NT : NoDup (tri (strict_lower n))). { eapply Permutation_NoDup; [symmetry; apply PT|]. apply nodup_strict. }
    assert (DD : forall q, In q (map snd srcs) <-> exists i j, (j < i)%nat /\ (i < n)%nat /\ q = if low then addr lc [j; i] else addr lc [i; j]).
    { intro q. rewrite DS, in_map_iff. split. - intros ([i j] & <- & H). apply TI in H. exists i, j. cbn [fst snd]. tauto. - intros (i & j & H1 & H2 & ->). exists (i, j). split; auto. apply TI. auto. }
    destruct (copies_ok srcs c1) as (c' & E' & L' & V' & U').
    { rewrite DS. destruct low.
      - apply (nodup_cells (fun i j => addr lc [j; i]) _ n n); auto. + intros [i j] H. apply TI in H. cbn [fst snd]. lia. + intros i j i' j' H1 H2 H3 H4 E. apply J in E; tauto.
      - apply (nodup_cells (fun i j => addr lc [i; j]) _ n n); auto. intros [i j] H. apply TI in H. cbn [fst snd]. lia. }
    { intros p Hp. pose proof Hp as Hd. apply (in_map snd) in Hd. rewrite L1. subst srcs. apply in_map_iff in Hp as ([i j] & <- & H). apply TI in H as [H1 H2]. cbn [fst snd] in *. split; [destruct low; cbn [fst]; apply RC; lia|]. split; [destruct low; cbn [snd]; apply RC; lia|].
      intro X. apply DD in X as (i' & j' & H3 & H4 & E). destruct low; cbn [fst] in E; apply J in E; lia. }
    exists c'. split; [exact E'|]. split; [congruence|]. split.
    - assert (DIR : forall i j, In (i, j) cells -> exists z, peek c (addr lc [i; j]) = Some z /\ peek c1 (addr lc [i; j]) = Some (add (mul zero z) (mul alpha (W i j)))).
      { intros i j H. destruct (V1 _ H) as (z & Hz & R). apply IN in H. cbn [fst snd] in *. rewrite HP in * by tauto. exists z. split; auto. rewrite R, HW by tauto. now rewrite none_renew. }
      assert (KEEP : forall i j, In (i, j) cells -> peek c' (addr lc [i; j]) = peek c1 (addr lc [i; j])).
      { intros i j H. apply IN in H. apply U'. intro X. apply DD in X as (i' & j' & H3 & H4 & E). destruct low; apply J in E; lia. }
      intros m k Hm Hk. assert (RG : 0 <= addr lc [m; k] < Z.of_nat (length c)) by (apply RC; auto). destruct (proj1 (peek_inside c _) RG) as (z & Hz). exists z. split; auto.
      assert (CS : In (m, k) cells \/ (In (k, m) cells /\ In (addr lc [k; m], addr lc [m; k]) srcs)).
      { rewrite !IN. subst srcs. rewrite in_map_iff. destruct low.
        - destruct (le_lt_dec k m); [left; lia|]. right. split; [lia|]. exists (k, m). split; auto. apply TI. lia.
        - destruct (le_lt_dec m k); [left; lia|]. right. split; [lia|]. exists (m, k). split; auto. apply TI. lia. }
      destruct CS as [H|[H HS]].
      + rewrite KEEP by auto. destruct (DIR _ _ H) as (z' & Hz' & ->). congruence.
      + rewrite (V' _ HS : peek c' (addr lc [m; k]) = peek c1 (addr lc [k; m])). destruct (DIR _ _ H) as (z' & Hz' & ->). rewrite SY. rewrite (mul_comm zero add mul SR zero z'), (mul_comm zero add mul SR zero z), !(mul_zero zero add mul SR). reflexivity.
    - intros p Hp. rewrite U'. + apply U1. intros [i j] H. apply IN in H. cbn [fst snd]. rewrite HP by tauto. apply Hp; tauto.
      + intro X. apply DD in X as (i & j & H1 & H2 & E). destruct low; symmetry in E; revert E; apply Hp; lia. Qed.
  Lemma syrk_faer_filled tri n K c lc a la alpha : (forall l, Permutation (tri l) l) -> l_shape la = [n; K] -> l_shape lc = [n; n] -> wf la -> inside la (length a) -> inside lc (length c) -> injective lc ->
    exists c', gemm_with_syrk_faer zero one add mul eqb tri c lc a la alpha zero = Ok c' /\ filled n n lc (entry a la a (reverse_axes la) K) alpha zero c c'.
  Proof. intros PT Sa Sc Wa Ia Ic Jc. unfold gemm_with_syrk_faer. rewrite (proj2 (EQ zero zero) eq_refl). cbn [negb]. unfold syrk_faer, faer_product, extent. rewrite Sa, Sc. cbn [nth]. rewrite !Nat.eqb_refl. cbn [check bind].
    assert (Ir : inside (reverse_axes la) (length a)) by now apply rev_inside.
    apply (triangle_filled true) with (tri := tri); auto.
    - intros i k Hi Hk. apply Ia. rewrite Sa. now apply valid_tuple2.
    - intros k j Hk Hj. apply Ir. cbn [reverse_axes l_shape]. rewrite Sa. now apply valid_tuple2.
    - intros. apply symmetric; auto. unfold ndim. now rewrite Sa. Qed.
  Lemma able_syrk_ok same la lb beta : able_syrk zero eqb same la lb beta = true -> beta = zero /\ same = true /\ la = reverse_axes lb.
  Proof using EQ. unfold able_syrk. rewrite !andb_true_iff. intros ((((E & S) & O) & H) & Z). apply EQ in E. split; auto. split; auto. apply same_shape_eq in H. unfold same_z in Z. destruct (list_eq_dec Z.eq_dec _ _); [|discriminate]. apply Z.eqb_eq in O. destruct la. cbn in *. subst. reflexivity. Qed.
  Lemma dispatch_faer_filled tri same M K N c lc a la b lb alpha beta : (forall l, Permutation (tri l) l) -> (same = true -> a = b) -> l_shape la = [M; K] -> l_shape lb = [K; N] -> l_shape lc = [M; N] ->
    good lc -> wf la -> inside la (length a) -> inside lb (length b) -> inside lc (length c) -> injective lc ->
    exists c', dispatch_faer zero one add mul eqb tri same c lc a la b lb alpha beta = Ok c' /\ filled M N lc (entry a la b lb K) alpha beta c c'.
  Proof. intros PT HS Sa Sb Sc Gc Wa Ia Ib Ic Jc. unfold dispatch_faer. destruct (able_syrk zero eqb same la lb beta) eqn:E; [|now apply gemm_faer_filled].
    apply able_syrk_ok in E as (-> & E & ->). apply HS in E as <-. cbn [reverse_axes l_shape] in Sa. rewrite Sb in Sa. injection Sa as ->.
    pose proof (reverse_twice lb) as RT. set (lr := reverse_axes lb) in *. rewrite <- RT. apply syrk_faer_filled; auto; subst lr. cbn [reverse_axes l_shape]. rewrite Sb. reflexivity. Qed.
End Kernels.
