(** Proofs about the result layout of binary operations (get_layout_for_binary_op). *)
From Verif Require Import Base Spec P_Index P_List M_Layout P_Layout P_Bounds P_Contig P_Strides M_Indexer P_Indexer M_Broadcast M_Rearr P_Iter P_Rearr.
Local Open Scope Z_scope.

Lemma mem_in k l : mem k l = true <-> In k l.
Proof. unfold mem. rewrite existsb_exists. split; [intros (x & H & E); apply Nat.eqb_eq in E; now subst|intro H; exists k; split; auto; apply Nat.eqb_refl]. Qed.
Lemma mem_notin k l : mem k l = false <-> ~ In k l.
Proof. rewrite <- mem_in. destruct (mem k l); split; congruence. Qed.

(** ** which axes get a stride *)
Lemma comp_c_sub sh st r : forall c, incl (comp_c_loop sh st r c) r /\ (NoDup r -> NoDup (comp_c_loop sh st r c)).
Proof. induction r as [|i r IH]; intro c; cbn [comp_c_loop]; [split; [apply incl_refl|auto]|]. destruct (nth i st 0 =? c).
  - destruct (IH (c * Z.of_nat (nth i sh 0%nat))) as [H1 H2]. split.
    + intros x [->|Hx]; [now left|right; auto].
    + intro N. inversion N; subst. constructor; auto.
  - destruct (IH c) as [H1 H2]. split; [intros x Hx; right; auto|]. intro N. inversion N; auto. Qed.
Lemma common_prefix_sub a : forall b, incl (common_prefix a b) a /\ (NoDup a -> NoDup (common_prefix a b)).
Proof. induction a as [|x a IH]; intros [|y b]; cbn [common_prefix]; try (split; [apply incl_nil_l|intros; constructor]).
  destruct (Nat.eqb_spec x y); [|split; [apply incl_nil_l|constructor]]. destruct (IH b) as [H1 H2]. split.
  - intros z [->|Hz]; [now left|right; auto].
  - intro N. inversion N; subst. constructor; auto. Qed.
Lemma nodup_app {A} (a b : list A) : NoDup a -> NoDup b -> (forall x, In x a -> ~ In x b) -> NoDup (a ++ b).
Proof. induction 1 as [|x a Hx Ha IH]; intros Hb D; cbn; auto. constructor.
  - rewrite in_app_iff. intros [H|H]; [auto|]. apply (D x); [now left|auto].
  - apply IH; auto. intros y Hy. apply D. now right. Qed.

(** ** strides assigned along a list of axes *)
Lemma assign_notin sh A : forall c st k, ~ In k A -> nth k (assign_strides sh A c st) 0 = nth k st 0.
Proof. induction A as [|a A IH]; intros c st k H; cbn [assign_strides]; auto. cbn in H. rewrite IH by tauto. rewrite nth_upd. replace (a =? k)%nat with false by (symmetry; apply Nat.eqb_neq; tauto). reflexivity. Qed.
Lemma assign_length sh A : forall c st, length (assign_strides sh A c st) = length st.
Proof. induction A; intros c st; cbn; auto. now rewrite IHA, upd_length. Qed.
Lemma assign_nonneg sh A : forall c st, 0 <= c -> Forall (fun z => 0 <= z) st -> Forall (fun z => 0 <= z) (assign_strides sh A c st).
Proof. induction A as [|a A IH]; intros c st Hc F; cbn [assign_strides]; auto. apply IH; [nia|]. apply Forall_forall. intros x Hx. apply In_nth with (d := 0) in Hx as (k & Hk & <-).
  rewrite nth_upd. rewrite upd_length in Hk. destruct (_ && _); auto. rewrite Forall_forall in F. apply F. now apply nth_In. Qed.
Lemma assign_sum sh A ix : forall c st, NoDup A -> (forall a, In a A -> (a < length st)%nat) ->
  zsum (map (fun k => nth k (assign_strides sh A c st) 0 * Z.of_nat (nth k ix 0%nat)) A) = c * Z.of_nat (rav_f (pick A 0%nat sh) (pick A 0%nat ix)).
Proof. induction A as [|a A IH]; intros c st N H; [cbn; lia|]. inversion N; subst. cbn [map zsum fold_right assign_strides pick rav_f].
  change (fold_right Z.add 0 ?l) with (zsum l). rewrite assign_notin by auto. rewrite nth_upd_same by (apply H; now left).
  rewrite IH; auto. - fold (pick A 0%nat sh). fold (pick A 0%nat ix). nia. - intros b Hb. rewrite upd_length. apply H. now right. Qed.
Lemma assign_pick sh A : forall c st, NoDup A -> (forall a, In a A -> (a < length st)%nat) ->
  pick A 0 (assign_strides sh A c st) = cum_strides (fun n => n) (pick A 0%nat sh) c.
Proof. induction A as [|a A IH]; intros c st N H; [reflexivity|]. inversion N; subst. cbn [pick map assign_strides cum_strides].
  rewrite assign_notin by auto. rewrite nth_upd_same by (apply H; now left). f_equal. fold (pick A 0%nat sh). rewrite <- (IH _ (upd st a c)); auto. intros b Hb. rewrite upd_length. apply H. now right. Qed.
Lemma zsum_zero {X} (f : X -> Z) l : (forall x, In x l -> f x = 0) -> zsum (map f l) = 0.
Proof. induction l as [|x l IH]; intro H; cbn; auto. change (fold_right Z.add 0 ?l) with (zsum l). rewrite H by now left. rewrite IH; auto. intros; apply H; now right. Qed.
Lemma filter_notin_perm A n : NoDup A -> (forall a, In a A -> (a < n)%nat) -> Permutation (seq 0 n) (A ++ filter (fun k => negb (mem k A)) (seq 0 n)).
Proof. intros N H. apply NoDup_Permutation; [apply seq_NoDup| |].
  - apply nodup_app; auto; [apply NoDup_filter, seq_NoDup|]. intros x Hx Y. apply filter_In in Y as [_ Y]. apply negb_true_iff, mem_notin in Y. auto.
  - intro x. rewrite in_app_iff, filter_In, in_seq, negb_true_iff, mem_notin. split.
    + intro. destruct (in_dec Nat.eq_dec x A); auto. + intros [X|X]; [apply H in X; lia|tauto]. Qed.
Lemma zsum_on A n (f : nat -> Z) : NoDup A -> (forall a, In a A -> (a < n)%nat) -> (forall k, (k < n)%nat -> ~ In k A -> f k = 0) ->
  zsum (map f (seq 0 n)) = zsum (map f A).
Proof. intros N H Z0. rewrite (zsum_perm _ _ (Permutation_map f (filter_notin_perm A n N H))). rewrite map_app, zsum_app. rewrite (zsum_zero f (filter _ _)); [lia|].
  intros x Hx. apply filter_In in Hx as [H1 H2]. apply in_seq in H1. apply negb_true_iff, mem_notin in H2. apply Z0; auto. lia. Qed.
Lemma size_on A n (f : nat -> nat) : NoDup A -> (forall a, In a A -> (a < n)%nat) -> (forall k, (k < n)%nat -> ~ In k A -> f k = 1%nat) ->
  size (map f (seq 0 n)) = size (map f A).
Proof. intros N H Z0. rewrite (size_perm _ _ (Permutation_map f (filter_notin_perm A n N H))). rewrite map_app, size_app.
  assert (E : size (map f (filter (fun k => negb (mem k A)) (seq 0 n))) = 1%nat).
  { assert (G : forall l, (forall x, In x l -> f x = 1%nat) -> size (map f l) = 1%nat). { induction l as [|x l IH]; intro X; cbn [map]; auto. rewrite size_cons, X by (now left). rewrite IH; [lia|]. intros y Hy. apply X. now right. }
    apply G. intros x Hx. apply filter_In in Hx as [H1 H2]. apply in_seq in H1. apply negb_true_iff, mem_notin in H2. apply Z0; auto. lia. }
  rewrite E. lia. Qed.

(** axes of extent 1 only *)
Lemma unit_stride_spec o a1 : forall st, Forall (fun z => 0 <= z) st -> let r := fold_left (unit_stride o) a1 st in
  length r = length st /\ Forall (fun z => 0 <= z) r /\ forall k, ~ In k a1 -> nth k r 0 = nth k st 0.
Proof. induction a1 as [|a a1 IH]; intros st F; cbn [fold_left]; auto.
  assert (F' : Forall (fun z => 0 <= z) (unit_stride o st a)).
  { unfold unit_stride. apply Forall_forall. intros x Hx. apply In_nth with (d := 0) in Hx as (k & Hk & <-). rewrite nth_upd. rewrite upd_length in Hk. rewrite Forall_forall in F.
    destruct (_ && _); [|apply F; now apply nth_In]. unfold nonzero_or_1. destruct (find _ _) eqn:E; [|lia]. apply find_some in E as [E _]. apply F.
    destruct o; [|apply in_rev in E]. + rewrite <- (firstn_skipn a st). apply in_or_app. auto. + rewrite <- (firstn_skipn a st). apply in_or_app. auto. }
  destruct (IH (unit_stride o st a) F') as (L & P & K). cbv zeta in *. split; [|split; auto].
  - rewrite L. unfold unit_stride. apply upd_length.
  - intros k Hk. cbn in Hk. rewrite K by tauto. unfold unit_stride. rewrite nth_upd. replace (a =? k)%nat with false by (symmetry; apply Nat.eqb_neq; tauto). reflexivity. Qed.

Lemma binop_layout la lb o : wf la -> wf lb -> l_shape la = l_shape lb ->
  exists A lo, get_layout_for_binary_op la lb o = Ok lo /\ l_shape lo = l_shape la /\ l_offset lo = 0 /\ wf lo /\ Forall (fun z => 0 <= z) (l_stride lo) /\
    NoDup A /\ (forall k, In k A <-> (k < ndim la)%nat /\ nth k (l_shape la) 0%nat <> 1%nat /\ both_broadcast la lb k = false) /\
    (forall ix, valid (l_shape la) ix -> addr lo ix = Z.of_nat (rav_f (pick A 0%nat (l_shape la)) (pick A 0%nat ix))) /\
    pick A 0 (l_stride lo) = cum_strides (fun n => n) (pick A 0%nat (l_shape la)) 1 /\
    (forall k, (k < ndim la)%nat -> ~ In k A -> nth k (l_shape la) 0%nat <> 1%nat -> nth k (l_stride lo) 0 = 0).
Proof. intros [W1 W2] [V1 V2] E. unfold get_layout_for_binary_op. destruct (list_eq_dec Nat.eq_dec (l_shape la) (l_shape lb)); [|congruence]. cbn [check bind].
  unfold get_axes_composition. assert (En : ndim lb = ndim la) by (unfold ndim; congruence). rewrite En, <- E.
  set (n := ndim la). set (sh := l_shape la). set (ca := filter (fun i => (nth i sh 0 =? 1)%nat) (seq 0 n)).
  set (ba := filter (fun i => negb (nth i sh 0 =? 1)%nat && (nth i (l_stride la) 0 =? 0)) (seq 0 n)).
  set (bb := filter (fun i => negb (nth i sh 0 =? 1)%nat && (nth i (l_stride lb) 0 =? 0)) (seq 0 n)).
  set (ra := sort_by (fun i j => Z.abs (nth i (l_stride la) 0) <=? Z.abs (nth j (l_stride la) 0)) (filter (fun i => negb (mem i ca) && negb (mem i ba)) (seq 0 n))).
  set (rb := sort_by (fun i j => Z.abs (nth i (l_stride lb) 0) <=? Z.abs (nth j (l_stride lb) 0)) (filter (fun i => negb (mem i ca) && negb (mem i bb)) (seq 0 n))).
  set (cca := comp_c_loop sh (l_stride la) ra 1). set (ccb := comp_c_loop sh (l_stride lb) rb 1). cbv beta iota zeta.
  set (a0 := filter (fun i => mem i bb) ba). set (ac := common_prefix cca ccb).
  set (ad := filter (fun i => negb (mem i a0) && negb (mem i ac) && negb (mem i ca)) (seq 0 n)).
  assert (I1 : forall k, In k ca <-> (k < n)%nat /\ nth k sh 0%nat = 1%nat). { intro k. unfold ca. rewrite filter_In, in_seq, Nat.eqb_eq. intuition lia. }
  assert (I2 : forall k, In k ba <-> (k < n)%nat /\ nth k sh 0%nat <> 1%nat /\ nth k (l_stride la) 0 = 0). { intro k. unfold ba. rewrite filter_In, in_seq, andb_true_iff, negb_true_iff, Nat.eqb_neq, Z.eqb_eq. intuition lia. }
  assert (I3 : forall k, In k bb <-> (k < n)%nat /\ nth k sh 0%nat <> 1%nat /\ nth k (l_stride lb) 0 = 0). { intro k. unfold bb. rewrite filter_In, in_seq, andb_true_iff, negb_true_iff, Nat.eqb_neq, Z.eqb_eq. intuition lia. }
  assert (I4 : forall k, In k ra -> (k < n)%nat /\ nth k sh 0%nat <> 1%nat /\ nth k (l_stride la) 0 <> 0).
  { intro k. unfold ra. rewrite sort_in, filter_In, in_seq, andb_true_iff, !negb_true_iff, !mem_notin, I1, I2. intros (H1 & H2 & H3). assert (k < n)%nat by lia. destruct (Nat.eq_dec (nth k sh 0%nat) 1); destruct (Z.eq_dec (nth k (l_stride la) 0) 0); tauto. }
  assert (I5 : forall k, In k a0 <-> In k ba /\ In k bb). { intro k. unfold a0. now rewrite filter_In, mem_in. }
  assert (NDra : NoDup ra). { unfold ra. eapply Permutation_NoDup; [apply sort_perm|]. apply NoDup_filter, seq_NoDup. }
  destruct (comp_c_sub sh (l_stride la) ra 1) as [C1 C2]. fold cca in C1, C2. destruct (common_prefix_sub cca ccb) as [D1 D2]. fold ac in D1, D2.
  assert (Iac : forall k, In k ac -> (k < n)%nat /\ nth k sh 0%nat <> 1%nat /\ nth k (l_stride la) 0 <> 0) by auto.
  set (ad' := match o with RowMajor => rev ad | ColMajor => ad end).
  assert (Iad : forall k, In k ad' <-> (k < n)%nat /\ ~ In k a0 /\ ~ In k ac /\ ~ In k ca).
  { intro k. assert (X : In k ad <-> (k < n)%nat /\ ~ In k a0 /\ ~ In k ac /\ ~ In k ca). { unfold ad. rewrite filter_In, in_seq, !andb_true_iff, !negb_true_iff, !mem_notin. intuition lia. } unfold ad'. destruct o; rewrite <- ?in_rev; auto. }
  set (A := ac ++ ad').
  assert (ND : NoDup A). { unfold A. apply nodup_app; auto.
    - assert (NoDup ad) by (unfold ad; apply NoDup_filter, seq_NoDup). unfold ad'. destruct o; [now apply NoDup_rev|auto].
    - intros x Hx Hy. apply Iad in Hy. tauto. }
  assert (IA : forall k, In k A <-> (k < n)%nat /\ nth k sh 0%nat <> 1%nat /\ both_broadcast la lb k = false).
  { intro k. unfold A. rewrite in_app_iff, Iad, I5, I2, I3, I1. unfold both_broadcast. rewrite andb_false_iff, !Z.eqb_neq. split.
    - intros [H|H]; [apply Iac in H; tauto|]. destruct H as (H1 & H2 & H3 & H4). assert (nth k sh 0%nat <> 1%nat) by tauto. split; auto. split; auto.
      destruct (Z.eq_dec (nth k (l_stride la) 0) 0); destruct (Z.eq_dec (nth k (l_stride lb) 0) 0); tauto.
    - intros (H1 & H2 & H3). destruct (in_dec Nat.eq_dec k ac); [now left|right]. tauto. }
  assert (BA : forall a, In a A -> (a < n)%nat) by (intros a Ha; apply IA in Ha; tauto).
  set (st0 := assign_strides sh A 1 (repeat 0 n)).
  assert (F0 : Forall (fun z => 0 <= z) st0). { apply assign_nonneg; [lia|]. apply Forall_forall. intros x Hx. apply repeat_spec in Hx. lia. }
  destruct (unit_stride_spec o ca st0 F0) as (L & F & K). cbv zeta in L, F, K. set (st := fold_left (unit_stride o) ca st0) in *.
  assert (Lst : length st = n) by (rewrite L; unfold st0; rewrite assign_length, repeat_length; auto).
  exists A. eexists. split; [reflexivity|]. cbn [l_shape l_offset l_stride]. fold st. split; auto. split; auto. split; [split; [exact Lst|cbn; lia]|]. split; auto. split; auto. split; auto. split; [|split].
  2:{ rewrite <- (assign_pick sh A 1 (repeat 0 n)) by (auto; intros a Ha; rewrite repeat_length; auto). apply map_ext_in. intros k Hk. fold st0. apply K. intro X. apply I1 in X. apply IA in Hk. tauto. }
  2:{ intros k Hk HA E1. rewrite K by (rewrite I1; tauto). unfold st0. rewrite assign_notin by auto. now rewrite nth_repeat. }
  intros ix Vix. unfold addr. cbn [l_offset l_stride]. apply valid_nth in Vix as [Lx Vx]. fold sh in Lx, Vx. assert (Ln : length ix = n) by exact Lx.
  rewrite dot_sum by lia. rewrite Ln. rewrite (zsum_on A n); auto.
  - rewrite Z.add_0_l. transitivity (1 * Z.of_nat (rav_f (pick A 0%nat sh) (pick A 0%nat ix))); [|lia]. rewrite <- (assign_sum sh A ix 1 (repeat 0 n)) by (auto; intros a Ha; rewrite repeat_length; auto). f_equal. apply map_ext_in. intros k Hk. f_equal. fold st0. apply K. intro X. apply I1 in X. apply IA in Hk. tauto.
  - intros k Hk HA. destruct (Nat.eq_dec (nth k sh 0%nat) 1) as [E1|E1].
    + specialize (Vx k). rewrite <- Lx in Vx. specialize (Vx ltac:(lia)). replace (nth k ix 0%nat) with 0%nat by lia. lia.
    + rewrite K by (rewrite I1; tauto). unfold st0. rewrite assign_notin by auto. rewrite nth_repeat. lia. Qed.
