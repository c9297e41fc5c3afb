(** Statements about index_select, take and bool_select (C41). *)
From Verif Require Import Base Spec P_Index P_List M_Layout P_Layout P_Bounds P_Contig P_Strides M_Indexer P_Indexer M_Broadcast M_Rearr M_Iter P_Rearr M_Kernel P_Kernel Q_Kernel M_Tensor P_Tensor Q_Tensor P_Axes P_Manip P_Tri3 M_Select Spec_Select P_Select.
Local Open Scope Z_scope.

Definition denoted (n : nat) (i : Z) (p : nat) : Prop := index_denotes i n p.
Lemma front_ok n idx ix : Forall2 (denoted n) idx ix -> map_res (fun i => let j := if i <? 0 then Z.of_nat n + i else i in let* _ := check ((0 <=? j) && (j <? Z.of_nat n)) IndexError in Ok (Z.to_nat j)) idx = Ok ix.
Proof. intro F. apply map_res_ok. induction F as [|i p idx ix [H1 H2] F IH]; constructor; auto. cbv zeta. assert (E : (if i <? 0 then Z.of_nat n + i else i) = Z.of_nat p) by (destruct (Z.ltb_spec i 0); lia). rewrite E. replace ((0 <=? Z.of_nat p) && (Z.of_nat p <? Z.of_nat n)) with true by lia. cbn [check bind]. now rewrite Nat2Z.id. Qed.
Lemma front_err n idx : ~ Forall (fun i => exists p, index_denotes i n p) idx -> exists e, map_res (fun i => let j := if i <? 0 then Z.of_nat n + i else i in let* _ := check ((0 <=? j) && (j <? Z.of_nat n)) IndexError in Ok (Z.to_nat j)) idx = Err e.
Proof. intro H. induction idx as [|i idx IH]; [exfalso; auto|]. cbn [map_res]. cbv zeta. set (j := if i <? 0 then Z.of_nat n + i else i). destruct ((0 <=? j) && (j <? Z.of_nat n)) eqn:E; cbn [check bind]; [|eauto]. destruct IH as (e & He).
  - intro F. apply H. constructor; auto. exists (Z.to_nat j). unfold index_denotes, axis_denotes, j in *. destruct (Z.ltb_spec i 0); lia.
  - cbv zeta in He. rewrite He. cbn. eauto. Qed.
Lemma Forall_exists_list {A B} (R : A -> B -> Prop) l : Forall (fun x => exists y, R x y) l -> exists l', Forall2 R l l'.
Proof. induction 1 as [|x l (y & H) F (l' & IH)]; [exists []; constructor|]. exists (y :: l'). now constructor. Qed.

Lemma select_main {T} k o (t : tensor T) axis idx a : tensor_ok t -> axis_denotes (length (t_shape t)) axis a -> Forall (fun i => exists p, index_denotes i (nth a (t_shape t) 0%nat) p) idx -> idx <> [] \/ nth a (t_shape t) 0%nat <> 0%nat ->
  exists r, index_select_f k o t axis idx = Ok r /\ tensor_ok r /\ gathers a idx t r /\ forall pool r', index_select_rayon pool k o t axis idx r' -> r' = Ok r.
Proof. intros Ht Ax F Hn. apply tensor_ok_good in Ht as [Gt It]. destruct (Forall_exists_list _ _ F) as (ix & F2). pose proof (Forall2_length _ _ _ F2) as L.
  assert (Hp : (0 < nth a (t_shape t) 0)%nat). { destruct Hn as [Hn|Hn]; [|lia]. destruct F as [|i idx (p & Hp & _) F]; [congruence|lia]. }
  assert (Hix : Forall (fun i => (i < nth a (t_shape t) 0)%nat) ix). { clear - F2. induction F2 as [|i p idx ix [H _] F IH]; constructor; auto. }
  pose proof (proj1 Ax) as Ha. assert (Ep : select_plan o t axis idx = Ok (a, ix, new_contig Dyn (upd (t_shape t) a (length ix)) 0 o)).
  { unfold select_plan. rewrite (proj2 (check_axis_spec axis (ndim (t_layout t)) a) Ax). cbn [bind]. cbv zeta. pose proof (front_ok _ _ _ F2) as E. cbv zeta in E. rewrite E. reflexivity. }
  unfold index_select_f, index_select_rayon. rewrite Ep. cbn [bind]. set (sh := upd (t_shape t) a (length ix)) in *. set (lc := new_contig Dyn sh 0 o).
  destruct (contig_facts Dyn sh o) as (Gc & J & Cv & Sc & O). fold lc in Gc, J, Cv, Sc, O. assert (Ls : l_size lc = size sh) by (unfold l_size; now rewrite Sc). rewrite Ls. assert (LU : length (uninit T (Z.of_nat (size sh))) = size sh) by (rewrite uninit_length by lia; lia).
  destruct (kernel_ok lc (t_layout t) a (t_data t) ix (uninit T (Z.of_nat (size sh))) Gc Gt J It Ha Sc Hix k) as (c' & E & [[L' U] Q] & R). { rewrite LU. now apply covers_inside. } { apply chopped_good. unfold sh. now rewrite upd_length. } { exact Hp. }
  rewrite E. cbn [bind]. destruct (fresh_result lc c' (fun jx v => elem (t_data t) (t_layout t) (from a ix jx) = Some v)) as (d & E1 & E2 & L2 & I2 & Q2); auto. { now rewrite L', LU. } { intros jx V. destruct (Q jx V) as (v & H1 & H2). eauto. }
  rewrite E1. cbn [bind]. rewrite E2. exists (mkTensor d lc). split; auto. split. { apply tensor_ok_good. auto. } split.
  - split; [unfold t_shape at 1; cbn [t_layout]; rewrite Sc; unfold sh; now rewrite L|]. unfold t_shape at 1. cbn [t_layout]. intros jx V. destruct (Q2 jx V) as (v & H1 & H2). rewrite Sc in V. unfold sh in V. apply valid_nth in V as [_ V]. specialize (V a). rewrite upd_length, nth_upd_same in V by auto. specialize (V Ha).
    exists (nth (nth a jx 0%nat) ix 0%nat), v. split; [|split; auto]. apply (Forall2_nth _ _ _ 0 0%nat F2). lia.
  - intros pool r' (rc & Hr & ->). apply R in Hr. subst rc. cbn [bind]. rewrite E1. cbn [bind]. exact E2. Qed.
Lemma select_err {T} k o (t : tensor T) axis idx : (~ exists a, axis_denotes (length (t_shape t)) axis a /\ Forall (fun i => exists p, index_denotes i (nth a (t_shape t) 0%nat) p) idx) -> exists e, select_plan o t axis idx = Err e /\ index_select_f k o t axis idx = Err e.
Proof. intro H. unfold index_select_f. assert (X : exists e, select_plan o t axis idx = Err e). { unfold select_plan. destruct (check_axis axis (ndim (t_layout t))) as [a|e|] eqn:E; cbn [bind]; [|eauto|now apply check_axis_nopanic in E]. apply check_axis_spec in E. cbv zeta. destruct (front_err (nth a (t_shape t) 0%nat) idx) as (e & He). { intro F. apply H. eauto. } cbv zeta in He. rewrite He. cbn. eauto. }
  destruct X as (e & X). rewrite X. cbn. eauto. Qed.

Lemma l_index_select : forall (T : Type) k o (t : tensor T) axis idx, tensor_ok t ->
  (forall a, axis_denotes (length (t_shape t)) axis a -> Forall (fun i => exists p, index_denotes i (nth a (t_shape t) 0%nat) p) idx -> idx <> [] \/ nth a (t_shape t) 0%nat <> 0%nat ->
     exists r, index_select_f k o t axis idx = Ok r /\ tensor_ok r /\ gathers a idx t r) /\
  ((~ exists a, axis_denotes (length (t_shape t)) axis a /\ Forall (fun i => exists p, index_denotes i (nth a (t_shape t) 0%nat) p) idx) -> exists e, index_select_f k o t axis idx = Err e).
Proof. intros T k o t axis idx Ht. split.
  - intros a Ax F Hn. destruct (select_main k o t axis idx a Ht Ax F Hn) as (r & E & K & G & _). eauto.
  - intro H. destruct (select_err k o t axis idx H) as (e & _ & E). eauto. Qed.
Lemma l_take : forall (T : Type) k o (t : tensor T) axis idx, take_f k o t idx axis = index_select_f k o t axis idx.
Proof. reflexivity. Qed.
Lemma l_gathers_unique : forall (T : Type) a idx (t r1 r2 : tensor T), gathers a idx t r1 -> gathers a idx t r2 -> t_shape r1 = t_shape r2 /\ forall jx, valid (t_shape r1) jx -> at_ r1 jx = at_ r2 jx.
Proof. intros T a idx t r1 r2 [S1 Q1] [S2 Q2]. split; [congruence|]. intros jx V. destruct (Q1 jx V) as (k1 & v1 & [H1 D1] & E1 & ->). destruct (Q2 jx) as (k2 & v2 & [H2 D2] & E2 & ->); [congruence|]. assert (k1 = k2) as -> by lia. congruence. Qed.

Lemma empty_checks {T} o (t : tensor T) axis a : axis_denotes (length (t_shape t)) axis a -> nth a (t_shape t) 0%nat = 0%nat ->
  select_plan o t axis [] = Ok (a, [], new_contig Dyn (upd (t_shape t) a 0%nat) 0 o) /\ select_checks (new_contig Dyn (upd (t_shape t) a 0%nat) 0 o) (t_layout t) a [] = Err IndexError.
Proof. intros Ax Z0. pose proof (proj1 Ax) as Ha. split. { unfold select_plan. rewrite (proj2 (check_axis_spec axis (ndim (t_layout t)) a) Ax). reflexivity. }
  assert (Sc : forall s, l_shape (new_contig Dyn s 0 o) = s) by (intro; now destruct o). unfold select_checks, ndim. rewrite !Sc, upd_length. unfold t_shape in *. rewrite Nat.eqb_refl. cbn [check bind]. rewrite (proj2 (check_axis_spec (Z.of_nat a) (length (l_shape (t_layout t))) a)) by (split; [auto|lia]). cbn [bind]. rewrite nth_upd_same by exact Ha. cbn [length Nat.eqb check bind fold_right]. now rewrite Z0. Qed.
Lemma empty_index {T} k o (t : tensor T) axis a : axis_denotes (length (t_shape t)) axis a -> nth a (t_shape t) 0%nat = 0%nat -> index_select_f k o t axis [] = Err IndexError.
Proof. intros Ax Z0. destruct (empty_checks o t axis a Ax Z0) as [E1 E2]. unfold index_select_f. rewrite E1. cbn [bind]. unfold select_kernel. rewrite E2. reflexivity. Qed.
Lemma empty_rayon {T} pool k o (t : tensor T) axis a r : axis_denotes (length (t_shape t)) axis a -> nth a (t_shape t) 0%nat = 0%nat -> index_select_rayon pool k o t axis [] r -> r = Err IndexError.
Proof. intros Ax Z0. destruct (empty_checks o t axis a Ax Z0) as [E1 E2]. unfold index_select_rayon. rewrite E1. intros (rc & Hr & ->). unfold select_kernel_rayon, select_kernel in Hr. rewrite E2 in Hr. destruct pool; cbn [negb bind] in Hr; subst rc; reflexivity. Qed.
Lemma l_empty_index_refuted : forall (T : Type) k o (t : tensor T) axis a, tensor_ok t -> axis_denotes (length (t_shape t)) axis a -> nth a (t_shape t) 0%nat = 0%nat ->
  gathers a [] t t /\ index_select_f k o t axis [] = Err IndexError.
Proof. intros T k o t axis a Ht Ax Z0. split; [|eapply empty_index; eauto]. split; [cbn [length]; rewrite <- Z0 at 1; symmetry; apply upd_same|]. intros jx V. exfalso. apply valid_nth in V as [_ V]. specialize (V a (proj1 Ax)). lia. Qed.

(** composition and identity *)
Lemma l_gathers_all : forall (T : Type) a (t : tensor T), tensor_ok t -> (a < length (t_shape t))%nat -> gathers a (map Z.of_nat (seq 0 (nth a (t_shape t) 0%nat))) t t.
Proof. intros T a t Ht Ha. apply tensor_ok_good in Ht as [Gt It]. split; [rewrite map_length, seq_length; symmetry; apply upd_same|]. intros jx V. pose proof V as V'. apply valid_nth in V' as [_ V']. specialize (V' a Ha). destruct (elem_inside (t_data t) (t_layout t) jx It V) as (v & Hv).
  exists (nth a jx 0%nat), v. split; [|rewrite upd_same; auto]. rewrite (nth_indep _ 0 (Z.of_nat 0)) by (rewrite map_length, seq_length; auto). rewrite map_nth, seq_nth by auto. split; auto. Qed.
Lemma l_gathers_twice : forall (T : Type) a i1 i2 i3 (t r s : tensor T), (a < length (t_shape t))%nat -> gathers a i1 t r -> gathers a i2 r s ->
  length i3 = length i2 -> (forall p, (p < length i2)%nat -> exists q, index_denotes (nth p i2 0) (length i1) q /\ nth p i3 0 = nth q i1 0) -> gathers a i3 t s.
Proof. intros T a i1 i2 i3 t r s Ha [S1 Q1] [S2 Q2] L C. rewrite S1 in S2. split; [rewrite S2, P_Indexer.upd_upd; now rewrite L|]. intros jx V. destruct (Q2 jx V) as (q & v & D2 & E2 & Es). pose proof V as V'. rewrite S2, P_Indexer.upd_upd in V'. pose proof (valid_length _ _ V') as Lj. rewrite upd_length in Lj.
  rewrite S1, nth_upd_same in D2 by auto. assert (Vq : valid (t_shape r) (upd jx a q)). { rewrite S1. destruct D2 as [D2 _]. apply (valid_upd _ _ _ (length i2)); [now rewrite upd_length|now rewrite P_Indexer.upd_upd|now rewrite nth_upd_same]. }
  destruct (Q1 _ Vq) as (k & w & D1 & E1 & Er). rewrite nth_upd_same in D1 by lia. rewrite P_Indexer.upd_upd in E1. exists k, w. split; [|split; [auto|congruence]].
  apply valid_nth in V' as [_ V']. specialize (V' a). rewrite upd_length, nth_upd_same in V' by auto. destruct (C (nth a jx 0%nat)) as (q' & Dq & ->); [auto|]. assert (q' = q) as -> by (destruct Dq, D2; lia). exact D1. Qed.

(** ** masks *)
Lemma mask_positions m : map fst (filter (fun p => snd p) (combine (seq 0 (length m)) m)) = trues m.
Proof. unfold trues. assert (X : forall m s, map fst (filter (fun p => snd p) (combine (seq s (length m)) m)) = filter (fun i => nth (i - s) m false) (seq s (length m))).
  { clear. induction m as [|b m IH]; intro s; cbn [length seq combine filter]; auto. cbn [snd]. rewrite Nat.sub_diag. change (nth 0 (b :: m) false) with b. assert (E : filter (fun i => nth (i - s) (b :: m) false) (seq (S s) (length m)) = filter (fun i => nth (i - S s) m false) (seq (S s) (length m))). { apply filter_ext_in. intros i Hi. apply in_seq in Hi. replace (i - s)%nat with (S (i - S s)) by lia. reflexivity. }
    rewrite E, <- IH. destruct b; reflexivity. }
  rewrite X. apply filter_ext. intro i. now rewrite Nat.sub_0_r. Qed.
Lemma l_bool_select : forall (T : Type) k o (t : tensor T) axis mask, tensor_ok t ->
  (forall a, axis_denotes (length (t_shape t)) axis a -> (forall i, nth i mask false = true -> (i < nth a (t_shape t) 0)%nat) -> nth a (t_shape t) 0%nat <> 0%nat ->
     exists r, bool_select_f k o t axis mask = Ok r /\ tensor_ok r /\ gathers a (map Z.of_nat (trues mask)) t r) /\
  ((~ exists a, axis_denotes (length (t_shape t)) axis a /\ forall i, nth i mask false = true -> (i < nth a (t_shape t) 0)%nat) -> exists e, bool_select_f k o t axis mask = Err e).
Proof. intros T k o t axis mask Ht. assert (X : forall n, Forall (fun i => exists p, index_denotes i n p) (map Z.of_nat (trues mask)) <-> forall i, nth i mask false = true -> (i < n)%nat).
  { intro n. rewrite Forall_map, Forall_forall. split.
    - intros H i Hi. destruct (H i) as (p & H1 & H2); [|lia]. apply filter_In. split; auto. apply in_seq. split; [lia|]. destruct (Nat.lt_ge_cases i (length mask)); [lia|]. rewrite nth_overflow in Hi by auto. discriminate.
    - intros H i Hi. apply filter_In in Hi as [_ Hi]. exists i. split; auto. }
  unfold bool_select_f. cbv zeta. rewrite mask_positions. destruct (l_index_select T k o t axis (map Z.of_nat (trues mask)) Ht) as [A B]. split.
  - intros a Ax H Hn. apply A; auto. now apply X.
  - intro H. apply B. intros (a & Ax & F). apply H. exists a. split; auto. now apply X. Qed.

Lemma l_select_rayon : forall (T : Type) pool k o (t : tensor T) axis idx r, tensor_ok t -> index_select_rayon pool k o t axis idx r -> r = index_select_f k o t axis idx.
Proof. intros T pool k o t axis idx r Ht H.
  assert (D : (exists a, axis_denotes (length (t_shape t)) axis a /\ Forall (fun i => exists p, index_denotes i (nth a (t_shape t) 0%nat) p) idx) \/ ~ exists a, axis_denotes (length (t_shape t)) axis a /\ Forall (fun i => exists p, index_denotes i (nth a (t_shape t) 0%nat) p) idx).
  { destruct (check_axis axis (length (t_shape t))) as [a|e|] eqn:E.
    - apply check_axis_spec in E. assert (Q : forall i, {exists p, index_denotes i (nth a (t_shape t) 0%nat) p} + {~ exists p, index_denotes i (nth a (t_shape t) 0%nat) p}).
      { intro i. set (n := nth a (t_shape t) 0%nat). destruct (Z_le_gt_dec (- Z.of_nat n) i) as [H1|H1]; [destruct (Z_lt_ge_dec i (Z.of_nat n)) as [H2|H2]|].
        - left. exists (Z.to_nat (if i <? 0 then Z.of_nat n + i else i)). unfold index_denotes, axis_denotes. destruct (Z.ltb_spec i 0); lia.
        - right. intros (p & P1 & P2). subst n. lia.
        - right. intros (p & P1 & P2). subst n. lia. }
      destruct (Forall_dec _ Q idx) as [F|F]; [left; eauto|]. right. intros (a' & A' & F'). apply F. assert (a' = a) as -> by (destruct E, A'; lia). auto.
    - right. intros (a & A & _). apply check_axis_spec in A. congruence.
    - exfalso. now apply check_axis_nopanic in E. }
  destruct D as [(a & Ax & F)|D].
  - destruct idx as [|i0 idx'] eqn:Ei; [destruct (Nat.eq_dec (nth a (t_shape t) 0%nat) 0) as [Z0|Z0]|].
    + rewrite (empty_index k o t axis a Ax Z0). eapply empty_rayon; eauto.
    + destruct (select_main k o t axis [] a Ht Ax F (or_intror Z0)) as (r0 & -> & _ & _ & R). eapply R; eauto.
    + destruct (select_main k o t axis (i0 :: idx') a Ht Ax F) as (r0 & -> & _ & _ & R); [left; discriminate|]. eapply R; eauto.
  - destruct (select_err k o t axis idx D) as (e & E1 & ->). unfold index_select_rayon in H. rewrite E1 in H. exact H. Qed.
