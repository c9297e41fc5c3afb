(** Property lemmas about layout rearrangement (C21-C25). *)
From Verif Require Import Base Spec P_Index P_List M_Layout P_Layout P_Bounds P_Contig P_Strides Q_Layout M_Indexer P_Indexer M_Broadcast M_Rearr M_Iter P_Iter P_Rearr P_BinOp.
Local Open Scope Z_scope.

Lemma l_k_order_iter : forall dflt k l o, accepted l -> o = OK \/ o = OG ->
  exists it ps, iter_layout_new dflt k l o = Ok it /\ collect it = Ok ps /\ Permutation ps (addrs RowMajor l).
Proof. intros dflt k l o G Ho. apply good_accepted in G. destruct (greedy_keep_ok l G) as (l' & ax & f & E & P & R & W & N & S).
  destruct (iter_new_inv ColMajor k l' W N) as (it & E1 & I & L & Pn). exists (mkIterLayout ColMajor it), (addrs ColMajor l').
  assert (X : iter_layout_new dflt k l OK = Ok (mkIterLayout ColMajor it)). { unfold iter_layout_new, translate_unary. rewrite E. cbn [bind fst]. now rewrite E1. }
  split; [destruct Ho as [->| ->]; exact X|]. split; [rewrite collect_ok by auto; cbn; now rewrite Pn|]. eapply renames_perm; eauto. Qed.

Lemma accepted_distinct l : good l -> distinct l.
Proof. intros G i j Vi. revert i j Vi. assert (A := proj1 (good_accepted l) G). destruct A as [W H]. destruct l as [sh st off]. cbn [l_shape l_stride l_offset] in *.
  intros i j Vi. apply new_no_alias in H; [|apply W; cbn; eapply valid_size_pos; eauto]. destruct H as (_ & _ & H & _). now apply H. Qed.

Lemma translate_g_ok dflt l : good l -> size (l_shape l) <> 0%nat -> exists g, translate_unary dflt l OG = Ok g /\ wf g /\ nonneg g /\ injective g /\
  (forall z, (exists j, valid (l_shape g) j /\ addr g j = z) <-> exists i, valid (l_shape l) i /\ addr l i = z).
Proof. intros G S. pose proof G as (W & N & _). unfold translate_unary, greedy_layout, l_size. replace (size (l_shape l) =? 0)%nat with false by (symmetry; now apply Nat.eqb_neq). cbn [bind].
  set (ax := sort_by _ _). assert (P : Permutation ax (seq 0 (ndim l))) by apply sort_seq_perm. rewrite transpose_nat by auto. cbn [unwrap bind fst].
  exists (collapse (permuted ax l)). split; auto. pose proof (permuted_renames ax l P W) as R. pose proof (permuted_wf ax l P W) as Wp.
  assert (Sp : size (l_shape (permuted ax l)) <> 0%nat). { cbn [permuted l_shape]. rewrite (size_perm _ _ (pick_perm ax 0%nat (l_shape l) P)). auto. }
  destruct (collapse_ok (permuted ax l) Wp (renames_nonneg _ _ _ R N) Sp) as (C1 & C2 & C3 & C4). split; auto. split; auto. split.
  - apply C4. apply permuted_distinct; auto. now apply accepted_distinct.
  - intro z. rewrite C3. pose proof (renames_perm _ _ _ RowMajor RowMajor R) as Pm. split; intros (j & V & E).
    + assert (X : In z (addrs RowMajor (permuted ax l))). { unfold addrs. rewrite in_map_iff. exists j. split; auto. now apply in_enum. }
      eapply Permutation_in in X; [|exact Pm]. unfold addrs in X. apply in_map_iff in X as (i & E' & Hi). exists i. split; auto. now apply in_enum in Hi.
    + assert (X : In z (addrs RowMajor l)). { unfold addrs. rewrite in_map_iff. exists j. split; auto. now apply in_enum. }
      eapply Permutation_in in X; [|apply Permutation_sym, Pm]. unfold addrs in X. apply in_map_iff in X as (i & E' & Hi). exists i. split; auto. now apply in_enum in Hi. Qed.

Lemma l_g_order : forall dflt k l, accepted l -> size (l_shape l) <> 0%nat ->
  exists g ps, translate_unary dflt l OG = Ok g /\ dispatch_positions k g = Ok ps /\ NoDup ps /\ (forall z, In z ps <-> In z (addrs RowMajor l)).
Proof. intros dflt k l G S. apply good_accepted in G. destruct (translate_g_ok dflt l G S) as (g & E & W & N & I & Z0). exists g, (addrs ColMajor g).
  split; auto. split; [now apply dispatch_ok|]. split.
  - unfold addrs. apply NoDup_map_inj_in; [|apply enum_nodup]. intros x y Hx Hy. apply in_enum in Hx, Hy. now apply I.
  - intro z. unfold addrs. rewrite !in_map_iff. split; intros (x & E' & Hx); apply in_enum in Hx; [destruct (proj1 (Z0 z)) as (y & V & Y)|destruct (proj2 (Z0 z)) as (y & V & Y)]; eauto; exists y; split; auto; now apply in_enum. Qed.

Lemma l_joint : forall dflt k ls o sh, ls <> [] -> Forall accepted ls -> Forall (fun l => l_shape l = sh) ls ->
  o = OC \/ o = OF \/ o = OK \/ (o = OA /\ sh <> []) ->
  exists ls' ixs, translate_to_col_major dflt ls o = Ok ls' /\ Permutation ixs (row_major sh) /\
    Forall2 (fun l l' => dispatch_positions k l' = Ok (map (addr l) ixs)) ls ls' /\
    (o = OC -> ixs = row_major sh) /\ (o = OF -> ixs = col_major sh).
Proof. intros dflt k ls o sh NE G Sh Ho. destruct (joint_ok dflt ls o sh NE) as (ls' & ixs & E & P & F & H1 & H2); auto.
  { eapply Forall_impl; [|exact G]. intros l. apply good_accepted. }
  exists ls', ixs. split; auto. split; auto. split; auto. clear - F. induction F as [|l l' ls ls' H F IH]; constructor; auto.
  destruct H as (W & N & _ & A). rewrite <- A. now apply dispatch_ok. Qed.
Lemma l_joint_mismatch : forall dflt l1 l2 ls o, l_shape l1 <> l_shape l2 -> translate_to_col_major dflt (l1 :: l2 :: ls) o = Err InvalidLayout.
Proof. intros dflt l1 l2 ls o H. unfold translate_to_col_major. cbn [same_shapes]. destruct (list_eq_dec _ _ _); [congruence|]. reflexivity. Qed.
Lemma l_joint_order_a_refuted : exists l, accepted l /\ translate_to_col_major RowMajor [l; l] OA = Panic.
Proof. exists (mkLayout [] [] 0). repeat split; cbn; lia. Qed.
Lemma l_joint_order_b_refuted : exists l1 l2 ls' p1 p2, accepted l1 /\ accepted l2 /\ l_shape l1 = l_shape l2 /\
  translate_to_col_major RowMajor [l1; l2] OB = Ok ls' /\ map_res (dispatch_positions Fixed) ls' = Ok [p1; p2] /\
  ~ exists ixs, Forall (valid (l_shape l1)) ixs /\ p1 = map (addr l1) ixs /\ p2 = map (addr l2) ixs.
Proof. exists (mkLayout [3]%nat [-1] 2), (mkLayout [3]%nat [1] 0), [mkLayout [3]%nat [1] 2; mkLayout [3]%nat [1] 0], [2; 3; 4], [0; 1; 2]. split; [repeat split; cbn; lia|]. split; [repeat split; cbn; lia|]. split; [reflexivity|].
  split; [reflexivity|]. split; [reflexivity|]. intros (ixs & F & E1 & E2). destruct ixs as [|i0 [|i1 [|i2 [|? ?]]]]; try discriminate E1.
  cbn [map] in E1. assert (E1' : addr (mkLayout [3%nat] [-1] 2) i2 = 4) by congruence. apply Forall_inv_tail, Forall_inv_tail, Forall_inv in F. apply valid_cons_inv in F as (i & r & -> & H & V). apply valid_nil in V as ->. unfold addr in E1'. cbn [l_offset l_stride dot] in E1'. lia. Qed.

Lemma min_fold_const c ls : forall m, m = c -> (forall l, In l ls -> ndim_of_f_contig l = c) -> fold_left (fun m l => Nat.min m (ndim_of_f_contig l)) ls m = c.
Proof. induction ls as [|l ls IH]; intros m -> H; cbn [fold_left]; auto. apply IH; [rewrite (H l) by (now left); lia|]. intros; apply H; now right. Qed.
Lemma l_contig : forall k ls ls' n sh, Forall (fun l => wf l /\ nonneg l) ls -> Forall (fun l => l_shape l = sh) ls ->
  with_contig ls = (ls', n) -> n <> 0%nat ->
  Forall2 (fun l l' => exists ps, dispatch_positions k l' = Ok ps /\ dispatch_positions k l = Ok (flat_map (fun p => consecutive p n) ps)) ls ls'.
Proof. intros k ls ls' n sh G Sh H Hn. destruct ls as [|l0 r]; [cbn in H; inversion H; congruence|]. cbn [with_contig] in H.
  set (m := fold_left (fun m l => Nat.min m (ndim_of_f_contig l)) r (ndim_of_f_contig l0)) in *. cbv zeta in H. destruct (Nat.eqb_spec m 0); [inversion H; congruence|].
  injection H as <- <-. destruct (min_fold r (ndim_of_f_contig l0)) as [M1 M2]. fold m in M1, M2.
  assert (M : forall l, In l (l0 :: r) -> (m <= ndim_of_f_contig l)%nat) by (intros l [<-|Hl]; auto).
  rewrite Forall_forall in G, Sh. assert (S0 : size sh <> 0%nat).
  { intro X. apply Hn. assert (Q : m = ndim l0).
    { unfold m. apply min_fold_const; [|intros l Hl]; unfold ndim_of_f_contig, l_size, ndim; rewrite ?(Sh l0 (or_introl eq_refl)), ?(Sh l (or_intror Hl)), X, Nat.eqb_refl, orb_true_r; reflexivity. }
    rewrite Q. unfold ndim. rewrite firstn_all, Sh by now left. exact X. }
  replace (size (firstn m (l_shape l0))) with (size (firstn m sh)) in * by (now rewrite (Sh l0 (or_introl eq_refl))).
  assert (Q : forall l, In l (l0 :: r) -> exists ps, dispatch_positions k (mkLayout (skipn m (l_shape l)) (skipn m (l_stride l)) (l_offset l)) = Ok ps /\
      dispatch_positions k l = Ok (flat_map (fun p => consecutive p (size (firstn m sh))) ps)).
  { intros l Hl. destruct (G l Hl) as [W N]. specialize (Sh l Hl). pose proof W as [W1 W2]. pose proof (M l Hl) as Ml. pose proof (ndim_of_f_contig_bound l W) as B.
    set (l' := mkLayout _ _ _). assert (Wl : wf l'). { split; cbn; [rewrite !skipn_length; lia|intros _; apply W2; now rewrite Sh]. }
    pose proof (chunk_addrs l m W) as C. rewrite Sh in C. specialize (C S0 Ml ltac:(lia)). rewrite <- Sh in C at 1.
    assert (Sp : size (firstn m sh) <> 0%nat). { intro Z0. apply S0. rewrite <- (firstn_skipn m sh), size_app, Z0. lia. }
    assert (Nl : nonneg l'). { intros ix V. assert (I0 : In (addr l' ix) (addrs ColMajor l)).
      { rewrite C. apply in_flat_map. exists (addr l' ix). split; [|apply in_consecutive; lia]. replace (mkLayout (skipn m sh) (skipn m (l_stride l)) (l_offset l)) with l' by (unfold l'; now rewrite Sh). unfold addrs. apply in_map. now apply in_enum. }
      unfold addrs in I0. apply in_map_iff in I0 as (jx & <- & Hj). apply in_enum in Hj. now apply N. }
    exists (addrs ColMajor l'). split; [now apply dispatch_ok|]. rewrite dispatch_ok by auto. rewrite C. do 2 f_equal. }
  clear - Q. generalize m Q. clear. change (forall m, (forall l, In l (l0 :: r) -> exists ps, dispatch_positions k (mkLayout (skipn m (l_shape l)) (skipn m (l_stride l)) (l_offset l)) = Ok ps /\
      dispatch_positions k l = Ok (flat_map (fun p => consecutive p (size (firstn m sh))) ps)) -> Forall2 (fun l l' => exists ps, dispatch_positions k l' = Ok ps /\ dispatch_positions k l = Ok (flat_map (fun p => consecutive p (size (firstn m sh))) ps)) (l0 :: r)
    (map (fun l => mkLayout (skipn m (l_shape l)) (skipn m (l_stride l)) (l_offset l)) (l0 :: r))). intros m Q.
  induction (l0 :: r) as [|l t IH]; cbn [map]; constructor; [apply Q; now left|]. apply IH. intros; apply Q; now right. Qed.

Lemma l_binop_layout : forall la lb o, wf la -> wf lb -> l_shape la = l_shape lb ->
  exists lo, get_layout_for_binary_op la lb o = Ok lo /\ l_shape lo = l_shape la /\ l_offset lo = 0 /\ length (l_stride lo) = length (l_shape la) /\
    Forall (fun z => 0 <= z) (l_stride lo) /\
    (forall i j, valid (l_shape la) i -> valid (l_shape la) j ->
       (addr lo i = addr lo j <-> forall k, (k < ndim la)%nat -> both_broadcast la lb k = false -> nth k i 0%nat = nth k j 0%nat)) /\
    (size (l_shape la) <> 0%nat -> forall z, (exists ix, valid (l_shape la) ix /\ addr lo ix = z) <-> 0 <= z < Z.of_nat (size (own_extents la lb))).
Proof. intros la lb o Wa Wb E. destruct (binop_layout la lb o Wa Wb E) as (A & lo & E1 & Es & Eo & W & F & ND & IA & Ad & _ & _). exists lo.
  split; auto. split; auto. split; auto. split; [destruct W as [W _]; now rewrite W, Es|]. split; auto.
  assert (VA : forall ix, valid (l_shape la) ix -> valid (pick A 0%nat (l_shape la)) (pick A 0%nat ix)).
  { intros ix V. apply valid_nth in V as [L V]. apply valid_nth. rewrite !pick_length. split; auto. intros k Hk. rewrite !nth_pick by auto. apply V. apply (nth_In A 0%nat) in Hk. apply IA in Hk. unfold ndim in Hk. tauto. }
  split.
  - intros i j Vi Vj. rewrite !Ad by auto. split.
    + intros X k Hk Hb. apply Nat2Z.inj in X. assert (Y : pick A 0%nat i = pick A 0%nat j) by (rewrite <- (unrav_rav_f _ _ (VA i Vi)), <- (unrav_rav_f _ _ (VA j Vj)); congruence).
      destruct (Nat.eq_dec (nth k (l_shape la) 0%nat) 1) as [E0|E0].
      * apply valid_nth in Vi as [_ Vi], Vj as [_ Vj]. specialize (Vi k Hk). specialize (Vj k Hk). lia.
      * assert (I : In k A) by (apply IA; auto). apply In_nth with (d := 0%nat) in I as (q & Hq & Eq). apply (f_equal (fun l => nth q l 0%nat)) in Y. rewrite !nth_pick in Y by auto. now rewrite Eq in Y.
    + intro X. f_equal. f_equal. apply map_ext_in. intros k Hk. apply IA in Hk. apply X; tauto.
  - intros S z.
    assert (Sz : size (own_extents la lb) = size (pick A 0%nat (l_shape la))).
    { unfold own_extents. rewrite (size_on A); auto.
      - f_equal. apply map_ext_in. intros k Hk. apply IA in Hk as (_ & _ & ->). reflexivity.
      - intros a Ha. apply IA in Ha. tauto.
      - intros k Hk HA. destruct (both_broadcast la lb k) eqn:Eb; auto. destruct (Nat.eq_dec (nth k (l_shape la) 0%nat) 1); auto. exfalso. apply HA, IA. auto. }
    rewrite Sz. split.
    + intros (ix & V & <-). rewrite Ad by auto. pose proof (rav_f_bound _ _ (VA ix V)). lia.
    + intros Hz. set (q := unrav_f (pick A 0%nat (l_shape la)) (Z.to_nat z)). assert (Vq : valid (pick A 0%nat (l_shape la)) q) by (apply unrav_f_valid; lia).
      set (ix := map (fun k => if mem k A then nth (index_of k A) q 0%nat else 0%nat) (seq 0 (ndim la))).
      assert (Lx : length ix = ndim la) by (unfold ix; now rewrite map_length, seq_length).
      assert (Nx : forall k, (k < ndim la)%nat -> nth k ix 0%nat = if mem k A then nth (index_of k A) q 0%nat else 0%nat).
      { intros k Hk. unfold ix. rewrite (map_nth_in _ _ _ 0%nat) by now rewrite seq_length. now rewrite seq_nth by auto. }
      pose proof (valid_length _ _ Vq) as Lq. rewrite pick_length in Lq.
      assert (Vx : valid (l_shape la) ix).
      { apply valid_nth. split; auto. intros k Hk. rewrite Nx by auto. destruct (mem k A) eqn:Em.
        - apply mem_in in Em. destruct (index_of_spec k A Em) as [I1 I2]. apply valid_nth in Vq as [_ Vq]. specialize (Vq (index_of k A)). rewrite pick_length, nth_pick, I2 in Vq by auto. now apply Vq.
        - apply size_pos_forall in S. rewrite Forall_forall in S. apply S. now apply nth_In. }
      exists ix. split; auto. rewrite Ad by auto. assert (P : pick A 0%nat ix = q).
      { apply (nth_eq_ext 0%nat); rewrite pick_length; auto. intros k Hk. rewrite nth_pick by auto. assert (I : In (nth k A 0%nat) A) by now apply nth_In. rewrite Nx by (apply IA in I; tauto). apply mem_in in I. rewrite I. now rewrite index_of_nth. }
      rewrite P. unfold q. rewrite rav_unrav_f by lia. lia. Qed.
Lemma l_binop_mismatch : forall la lb o, l_shape la <> l_shape lb -> get_layout_for_binary_op la lb o = Err InvalidLayout.
Proof. intros la lb o H. unfold get_layout_for_binary_op. destruct (list_eq_dec _ _ _); [congruence|]. reflexivity. Qed.

Lemma l_copy_layout : forall k dflt l o, accepted l -> o = OC \/ o = OF \/ o = OA \/ o = OK ->
  exists l', layout_for_array_copy k dflt l o = Ok l' /\ l_shape l' = l_shape l /\ l_offset l' = 0 /\
    Permutation (addrs RowMajor l') (consecutive 0 (size (l_shape l))).
Proof. intros k dflt l o G Ho. apply good_accepted in G. destruct (copy_layout_ok k dflt l o G Ho) as (l' & E & W & O & S & P). eauto 8. Qed.
