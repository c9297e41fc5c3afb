(** Assembled statements for Properties_Layout.v. *)
From Verif Require Import Base Spec P_Index P_List M_Layout P_Layout P_Bounds P_Contig.
Local Open Scope Z_scope.

Lemma new_no_alias : forall sh st off l, 0 <= off -> layout_new sh st off = Ok l ->
  l = mkLayout sh st off /\ length st = length sh /\
  (forall i j, valid sh i -> valid sh j -> addr l i = addr l j ->
     forall k, (k < length sh)%nat -> nth k st 0 <> 0 -> nth k i 0%nat = nth k j 0%nat) /\
  ((forall k, (k < length sh)%nat -> (1 < nth k sh 0)%nat -> nth k st 0 <> 0) -> injective l).
Proof. intros sh st off l Ho H. apply layout_new_ok in H; auto. destruct H as (E & Hw & Hn & Hc).
  assert (A : forall i j, valid sh i -> valid sh j -> addr l i = addr l j ->
     forall k, (k < length sh)%nat -> nth k st 0 <> 0 -> nth k i 0%nat = nth k j 0%nat).
  { intros i j Hi Hj Ha k Hk Ht. pose proof (check_strides_sound l i j Hw Hc) as S. rewrite E in S, Ha. cbn in S.
    unfold ndim in S. cbn in S. destruct (S Hi Hj Ha k Hk); auto. contradiction. }
  split; [exact E|]. split; [rewrite E in Hw; apply Hw|]. split; [exact A|].
  intros Hz i j Hi Hj Ha. rewrite E in Hi, Hj. cbn in Hi, Hj.
  apply nth_eq_ext with (d := 0%nat). apply valid_length in Hi, Hj. congruence.
  rewrite (valid_length _ _ Hi). intros k Hk.
  destruct (Nat.ltb_spec 1 (nth k sh 0%nat)) as [Hd|Hd]; [apply A; auto|].
  apply valid_nth in Hi, Hj. destruct Hi as [_ Hi], Hj as [_ Hj]. specialize (Hi k Hk). specialize (Hj k Hk). lia. Qed.

Lemma new_incomplete : exists sh st off, 0 <= off /\ injective (mkLayout sh st off) /\ nonneg (mkLayout sh st off) /\
  layout_new sh st off = Err InvalidLayout.
Proof. exists [2; 3]%nat, [3; 2], 0. split; [lia|]. split; [|split; [|reflexivity]].
  - apply NoDup_injective. cbn. repeat constructor; cbn; intuition lia.
  - intros ix Hv. apply in_row_major in Hv. cbn in Hv. intuition (subst; cbn; lia). Qed.

Lemma bounds_exact : forall l, wf l ->
  (forall lo hi, bounds_index l = Ok (lo, hi) ->
     (size (l_shape l) <> 0%nat -> 0 <= lo) /\ (forall ix, valid (l_shape l) ix -> lo <= addr l ix < hi) /\
     (size (l_shape l) = 0%nat -> lo = hi) /\
     (size (l_shape l) <> 0%nat ->
        (exists ix, valid (l_shape l) ix /\ addr l ix = lo) /\ (exists ix, valid (l_shape l) ix /\ addr l ix = hi - 1))) /\
  ((exists e, bounds_index l = Err e) <-> exists ix, valid (l_shape l) ix /\ addr l ix < 0) /\
  bounds_index l <> Panic.
Proof. intros l Hw. split; [intros; now apply bounds_index_sound|]. split; [now apply bounds_index_err|].
  apply bounds_index_nopanic, Hw. Qed.

Lemma index_python : forall l ix, wf l -> nonneg l ->
  (forall r, index_f l ix = Ok r <->
     exists kx, length ix = ndim l /\
       Forall2 (fun id k => index_denotes (fst id) (snd id) k) (combine ix (l_shape l)) kx /\ r = addr l kx) /\
  index_f l ix <> Panic.
Proof. intros. split; [intros; now apply index_f_spec|apply index_f_nopanic]. Qed.

Lemma contig_bijection : forall ty s off, 0 <= off ->
  map (addr (new_c_contig ty s off)) (row_major s) = consecutive off (size s) /\
  map (addr (new_f_contig ty s off)) (col_major s) = consecutive off (size s) /\
  (forall o, wf (new_contig ty s off o) /\ l_shape (new_contig ty s off o) = s /\ injective (new_contig ty s off o)).
Proof. intros ty s off Ho. split; [apply new_c_contig_addrs|]. split; [apply new_f_contig_addrs|].
  intro o. split; [now apply new_contig_wf|]. split; [now destruct o|].
  assert (C : NoDup (consecutive off (size s))).
  { unfold consecutive. apply NoDup_map_inj_in; [|apply seq_NoDup]. intros; lia. }
  apply NoDup_injective. destruct o; cbn [new_contig l_shape new_c_contig new_f_contig].
  - fold (new_c_contig ty s off). change (l_shape (new_c_contig ty s off)) with s. now rewrite new_c_contig_addrs.
  - eapply Permutation_NoDup. apply Permutation_map. symmetry. apply row_col_perm.
    now rewrite new_f_contig_addrs. Qed.

Lemma contig_predicates : forall l, wf l -> size (l_shape l) <> 0%nat ->
  (c_contig l = true <-> map (addr l) (row_major (l_shape l)) = consecutive (l_offset l) (size (l_shape l))) /\
  (f_contig l = true <-> map (addr l) (col_major (l_shape l)) = consecutive (l_offset l) (size (l_shape l))) /\
  (forall m, (m <= ndim l)%nat -> (m <= ndim_of_f_contig l)%nat <->
     f_contig (mkLayout (firstn m (l_shape l)) (firstn m (l_stride l)) (l_offset l)) = true) /\
  (forall m, (m <= ndim l)%nat -> (m <= ndim_of_c_contig l)%nat <->
     c_contig (mkLayout (skipn (ndim l - m) (l_shape l)) (skipn (ndim l - m) (l_stride l)) (l_offset l)) = true).
Proof. intros l Hw Hs. split; [now apply c_contig_iff|]. split; [now apply f_contig_iff|].
  split; intros; [now apply ndim_of_f_contig_prefix|now apply ndim_of_c_contig_suffix]. Qed.

Lemma unravel_enumerates : forall ty s k, (k < size s)%nat ->
  (forall ix, unravel_index_f ty s k = Ok ix <-> nth_error (col_major s) k = Some ix) /\
  (forall ix, unravel_index_c ty s k = Ok ix <-> nth_error (row_major s) k = Some ix).
Proof. intros ty s k Hk. rewrite unravel_f_ok, unravel_c_ok, nth_col_major, nth_row_major by auto.
  split; intro; split; congruence. Qed.
Lemma unravel_contig_position : forall ty s ix, valid s ix ->
  exists k, (k < size s)%nat /\ addr (new_c_contig ty s 0) ix = Z.of_nat k /\ unravel_index_c ty s k = Ok ix.
Proof. intros ty s ix Hv. exists (rav_c s ix). split; [now apply rav_c_bound|]. split.
  - unfold addr. cbn. rewrite stride_c_dot; auto.
  - rewrite unravel_c_ok by now apply rav_c_bound. pose proof (valid_length _ _ Hv). rewrite rav_c_rev by auto.
    rewrite unrav_rav_f by now apply valid_rev. now rewrite rev_involutive. Qed.
Lemma unravel_contig_position_f : forall ty s ix, valid s ix ->
  exists k, (k < size s)%nat /\ addr (new_f_contig ty s 0) ix = Z.of_nat k /\ unravel_index_f ty s k = Ok ix.
Proof. intros ty s ix Hv. exists (rav_f s ix). split; [now apply rav_f_bound|]. split.
  - unfold addr. cbn. rewrite stride_f_dot; auto.
  - rewrite unravel_f_ok by now apply rav_f_bound. now rewrite unrav_rav_f. Qed.

Lemma transpose_full : forall l axes l', wf l -> transpose l axes = Ok l' ->
  wf l' /\ exists ax, Forall2 (axis_denotes (ndim l)) axes ax /\ Permutation ax (seq 0 (ndim l)) /\
  l_shape l' = pick ax 0%nat (l_shape l) /\
  (forall ix, valid (l_shape l) ix ->
     valid (l_shape l') (pick ax 0%nat ix) /\ addr l' (pick ax 0%nat ix) = addr l ix) /\
  (forall jx, valid (l_shape l') jx -> exists ix, valid (l_shape l) ix /\ jx = pick ax 0%nat ix).
Proof. exact transpose_elems. Qed.
Lemma transpose_accepts : forall l axes, wf l ->
  (exists l', transpose l axes = Ok l') <->
  (exists ax, Forall2 (axis_denotes (ndim l)) axes ax /\ Permutation ax (seq 0 (ndim l))).
Proof. intros l axes Hw. split.
  - intros (l' & H). apply transpose_spec in H. destruct H as (ax & ? & ? & _). eauto.
  - intros (ax & ? & ?). eexists. apply transpose_spec. eauto. Qed.
Lemma swapaxes_elems : forall l a b l', wf l -> swapaxes l a b = Ok l' ->
  exists i j, axis_denotes (ndim l) a i /\ axis_denotes (ndim l) b j /\
  (forall ix jx, valid (l_shape l) ix -> length jx = ndim l ->
     nth i jx 0%nat = nth j ix 0%nat -> nth j jx 0%nat = nth i ix 0%nat ->
     (forall k, k <> i -> k <> j -> nth k jx 0%nat = nth k ix 0%nat) ->
     valid (l_shape l') jx /\ addr l' jx = addr l ix) /\
  swapaxes l' a b = Ok l.
Proof. intros l a b l' Hw H. apply swapaxes_spec in H; auto. destruct H as (i & j & Hi & Hj & ->).
  exists i, j. split; auto. split; auto. pose proof Hw as [Hl Ho]. pose proof Hi as [Hi' _]. pose proof Hj as [Hj' _].
  pose proof (swap_perm_perm _ _ _ Hi' Hj') as Hp. split.
  - intros ix jx Hv Hlj E1 E2 E3. pose proof (valid_length _ _ Hv) as Hlx.
    assert (jx = swap_at ix i j) as ->.
    { unfold swap_at. assert (Hix : (i < length ix)%nat) by (rewrite Hlx; auto). assert (Hjx : (j < length ix)%nat) by (rewrite Hlx; auto).
      rewrite (nth_error_nth' ix 0%nat Hix), (nth_error_nth' ix 0%nat Hjx).
      apply nth_eq_ext with (d := 0%nat); rewrite ?upd_length; [rewrite Hlx; exact Hlj|]. intros k Hk. rewrite Hlj in Hk.
      rewrite !nth_upd, !upd_length, Hlx. fold (ndim l). replace (k <? ndim l)%nat with true by lia. rewrite !andb_true_r.
      destruct (Nat.eqb_spec j k); [congruence|]. destruct (Nat.eqb_spec i k); [congruence|]. apply E3; auto. }
    rewrite swap_at_pick with (d := 0%nat) by (rewrite Hlx; auto).
    rewrite Hlx. fold (ndim l). split; [now apply valid_pick|]. unfold addr; cbn. f_equal. apply dot_pick; [congruence|now rewrite Hlx].
  - assert (L : length (swap_perm (ndim l) i j) = ndim l) by (unfold swap_perm; now rewrite map_length, seq_length).
    apply swapaxes_spec; [split; cbn [l_shape l_stride l_offset]; [now rewrite !pick_length|now rewrite (size_perm _ _ (pick_perm _ 0%nat (l_shape l) Hp))]|].
    assert (N : ndim (mkLayout (pick (swap_perm (ndim l) i j) 0%nat (l_shape l)) (pick (swap_perm (ndim l) i j) 0 (l_stride l)) (l_offset l)) = ndim l).
    { unfold ndim at 1. cbn. now rewrite pick_length. }
    rewrite N. exists i, j. split; auto. split; auto. cbn.
    assert (II : forall A (d : A) v, length v = ndim l -> pick (swap_perm (ndim l) i j) d (pick (swap_perm (ndim l) i j) d v) = v).
    { intros A d v Hv. apply nth_eq_ext with (d := d); rewrite !pick_length, L; [auto|]. intros k Hk.
      rewrite nth_pick by lia.
      assert (E : forall k, (k < ndim l)%nat -> nth k (swap_perm (ndim l) i j) 0%nat = if (k =? i)%nat then j else if (k =? j)%nat then i else k).
      { intros m Hm. unfold swap_perm. rewrite map_nth_in with (d := 0%nat) by (now rewrite seq_length). now rewrite seq_nth. }
      rewrite (E k) by auto. rewrite nth_pick by (rewrite L; destruct (k =? i)%nat, (k =? j)%nat; auto).
      f_equal. rewrite E by (destruct (k =? i)%nat, (k =? j)%nat; auto).
      destruct (Nat.eqb_spec k i), (Nat.eqb_spec k j); subst; repeat match goal with |- context [(?x =? ?y)%nat] => destruct (Nat.eqb_spec x y) end; lia. }
    rewrite !II; auto. now destruct l. Qed.

Lemma permutation_undo : forall l ax, wf l -> Permutation ax (seq 0 (ndim l)) ->
  exists l' ax', transpose l (map Z.of_nat ax) = Ok l' /\ Permutation ax' (seq 0 (ndim l)) /\
    pick ax' 0%nat ax = seq 0 (ndim l) /\ transpose l' (map Z.of_nat ax') = Ok l.
Proof. intros l ax Hw Hp. destruct (transpose_inverse l ax Hw Hp) as (l' & H1 & H2). exists l', (inv_perm ax).
  split; auto. split; [now apply inv_perm_perm|]. split; [|auto].
  pose proof (inv_perm_perm _ _ Hp) as Hq. pose proof (Permutation_length Hq) as Hlq. rewrite seq_length in Hlq.
  apply nth_eq_ext with (d := 0%nat); rewrite pick_length, Hlq; [now rewrite seq_length|]. intros k Hk.
  rewrite nth_pick, seq_nth by lia. now apply nth_inv_perm with (n := ndim l). Qed.
Lemma reverse_full : forall l, wf l -> reverse_axes (reverse_axes l) = l /\
  forall ix, valid (l_shape l) ix -> valid (l_shape (reverse_axes l)) (rev ix) /\ addr (reverse_axes l) (rev ix) = addr l ix.
Proof. intros l Hw. split; [apply reverse_axes_involutive|]. intros; now apply reverse_axes_elems. Qed.

Lemma diagonal_diag : forall l off ax1 ax2 a1 a2 l', wf l ->
  let o := match off with Some o => o | None => 0 end in
  axis_denotes (ndim l) (match ax1 with Some a => a | None => 0 end) a1 ->
  axis_denotes (ndim l) (match ax2 with Some a => a | None => 1 end) a2 -> a1 <> a2 ->
  let d1 := Z.of_nat (nth a1 (l_shape l) 0%nat) in
  let d2 := Z.of_nat (nth a2 (l_shape l) 0%nat) in
  ~ (d1 <= o < d2) -> ~ (d2 < o < d1) ->
  diagonal l off ax1 ax2 = Ok l' ->
  let rest := axes_except (ndim l) [a1; a2] in
  (forall ix, valid (l_shape l) ix -> Z.of_nat (nth a2 ix 0%nat) - Z.of_nat (nth a1 ix 0%nat) = o ->
     let jx := pick rest 0%nat ix ++ [Nat.min (nth a1 ix 0%nat) (nth a2 ix 0%nat)] in
     valid (l_shape l') jx /\ addr l' jx = addr l ix) /\
  (forall jx, valid (l_shape l') jx -> exists ix, valid (l_shape l) ix /\
     Z.of_nat (nth a2 ix 0%nat) - Z.of_nat (nth a1 ix 0%nat) = o /\
     jx = pick rest 0%nat ix ++ [Nat.min (nth a1 ix 0%nat) (nth a2 ix 0%nat)]).
Proof. intros l off ax1 ax2 a1 a2 l' Hw o H1 H2 Hne d1 d2 Hn1 Hn2 H rest.
  destruct (diagonal_spec l off ax1 ax2 a1 a2 l' Hw H1 H2 Hne Hn1 Hn2 H) as [A B].
  assert (E : forall ix, valid (l_shape l) ix -> drop2 ix a1 a2 = pick rest 0%nat ix).
  { intros ix Hv. rewrite (drop2_pick ix a1 a2 0%nat), rest_axes_except, (valid_length _ _ Hv). reflexivity. }
  split.
  - intros ix Hv Ho. rewrite <- (E ix Hv). exact (A ix Hv Ho).
  - intros jx Hj. destruct (B jx Hj) as (ix & Hv & Ho & Ej). exists ix. rewrite <- (E ix Hv). auto. Qed.

Lemma diagonal_wide_wrong : exists l l', wf l /\ l_shape l = [2; 5]%nat /\ diagonal l (Some 3) None None = Ok l' /\
  (exists ix, valid (l_shape l) ix /\ Z.of_nat (nth 1 ix 0%nat) - Z.of_nat (nth 0 ix 0%nat) = 3) /\
  forall jx, ~ valid (l_shape l') jx.
Proof. exists (mkLayout [2; 5]%nat [5; 1] 0), (mkLayout [0]%nat [6] 0).
  split; [split; [reflexivity|cbn; lia]|]. split; [reflexivity|]. split; [reflexivity|]. split.
  - exists [0; 3]%nat. split; [repeat constructor; lia|reflexivity].
  - intros jx Hv. apply valid_size_pos in Hv. apply Hv. reflexivity. Qed.
Lemma diagonal_tall_wrong : exists l l', wf l /\ l_shape l = [5; 2]%nat /\ diagonal l (Some 3) None None = Ok l' /\
  (forall ix, valid (l_shape l) ix -> Z.of_nat (nth 1 ix 0%nat) - Z.of_nat (nth 0 ix 0%nat) <> 3) /\
  exists n, l_shape l' = [n] /\ Z.of_nat n = 2 ^ 64 - 1.
Proof. destruct diagonal_tall as (l' & H1 & H2). exists (mkLayout [5; 2]%nat [2; 1] 0), l'.
  split; [split; [reflexivity|cbn; lia]|]. split; [reflexivity|]. split; [exact H1|]. split.
  - intros ix Hv. cbn in Hv. apply valid_cons_inv in Hv. destruct Hv as (i & r & -> & Hi & Hv).
    apply valid_cons_inv in Hv. destruct Hv as (j & r' & -> & Hj & Hv). cbn. lia.
  - exists (Z.to_nat (2 ^ 64 - 1)). split; [exact H2|]. rewrite Z2Nat.id by lia. reflexivity. Qed.

Lemma normalize_axes_rules : forall nd v dup srt,
  (forall ax, normalize_axes_index (AxVec v) nd dup srt = Ok ax <->
     exists ax0, Forall2 (axis_denotes nd) v ax0 /\ (dup = true \/ NoDup ax0) /\
       (if srt then Permutation ax0 ax /\ StronglySorted le ax else ax = ax0)) /\
  normalize_axes_index (AxVec v) nd dup srt <> Panic.
Proof. intros nd v dup srt. split; [|apply normalize_nopanic]. intro ax. rewrite normalize_spec. split.
  - intros (ax0 & H1 & H2 & ->). exists ax0. split; auto. split; auto. destruct srt; auto.
    split; [apply sort_perm|apply sort_nat_sorted].
  - intros (ax0 & H1 & H2 & H3). exists ax0. split; auto. split; auto. destruct srt; auto.
    destruct H3 as [H3 H4]. assert (P : Permutation ax (sort_by Nat.leb ax0)) by (rewrite <- H3; apply sort_perm).
    pose proof (sort_nat_sorted ax0) as S. revert P S. generalize (sort_by Nat.leb ax0). clear - H4. 
    induction H4 as [|x ax HS IH HF]; intros q P S.
    + apply Permutation_nil in P. congruence.
    + destruct q as [|y q]; [symmetry in P; now apply Permutation_nil in P|].
      inversion S; subst. assert (x = y).
      { rewrite Forall_forall in *. assert (In x (y :: q)) by (eapply Permutation_in; [eauto|now left]).
        assert (In y (x :: ax)) by (eapply Permutation_in; [symmetry; eauto|now left]).
        destruct H, H0; auto. specialize (HF y H0). specialize (H2 x H). lia. }
      subst y. f_equal. apply IH; auto. eapply Permutation_cons_inv; eauto. Qed.

Lemma layout_equality : forall a b, wf a -> wf b ->
  (layout_eqb a b = true -> l_shape a = l_shape b /\ forall ix, valid (l_shape a) ix -> addr a ix = addr b ix) /\
  (size (l_shape a) <> 0%nat -> l_shape a = l_shape b -> (forall ix, valid (l_shape a) ix -> addr a ix = addr b ix) ->
     layout_eqb a b = true) /\
  layout_eqb a a = true /\ (layout_eqb a b = true -> layout_eqb b a = true) /\
  (forall c, wf c -> layout_eqb a b = true -> layout_eqb b c = true -> layout_eqb a c = true).
Proof. intros a b Ha Hb. split; [now apply layout_eqb_same_addr|]. split; [intros; now apply same_addr_layout_eqb|].
  split; [now apply layout_eqb_refl|]. split; [now apply layout_eqb_sym|].
  intros c Hc H1 H2. exact (layout_eqb_trans a b c Ha Hb Hc H1 H2). Qed.
