(** Layouts produced for results are themselves accepted, and fresh results are written in full. *)
From Verif Require Import Base Spec P_Index P_List M_Layout P_Layout P_Bounds P_Contig P_Strides M_Indexer P_Indexer M_Broadcast P_Broadcast Q_Broadcast M_Rearr M_Iter P_Iter P_Rearr P_BinOp Q_Rearr M_Kernel P_Kernel Q_Kernel M_Tensor.
Local Open Scope Z_scope.

(** ** contiguous layouts are accepted *)
Lemma pass_cum g s : forall c, 1 <= c -> Forall (fun d => (0 < d)%nat) s -> (forall d, (0 < d)%nat -> g d = d) -> pass (nz (combine s (cum_strides g s c))) (c - 1).
Proof. induction s as [|d s IH]; intros c Hc F G; cbn [cum_strides combine]; [exact I|]. inversion F; subst.
  unfold nz. cbn [filter]. unfold nzp at 1. cbn [fst snd]. replace (c =? 0) with false by lia. cbn [negb]. rewrite andb_true_r. destruct (Nat.ltb_spec 1 d) as [L|L].
  - cbn [map fst snd pass]. split; [lia|]. fold (nz (combine s (cum_strides g s (c * Z.of_nat (g d))))). rewrite Z.abs_eq by lia. rewrite G by auto.
    eapply pass_mono; [|apply IH; auto; nia]. nia.
  - fold (nz (combine s (cum_strides g s (c * Z.of_nat (g d))))). assert (d = 1%nat) by lia. subst d. rewrite G by auto. eapply pass_mono; [|apply IH; auto; nia]. nia. Qed.
Lemma good_reverse l : good l -> good (reverse_axes l).
Proof. intro G. destruct (Nat.eq_dec (size (l_shape l)) 0) as [E|E].
  - apply good_intro; cbn [reverse_axes l_shape l_stride]; [rewrite !rev_length; apply G|]. rewrite size_rev. congruence.
  - destruct (good_elim l G E) as (L & O & N & C). apply good_intro; cbn [reverse_axes l_shape l_stride]; [rewrite !rev_length; auto|]. intros _. split.
    + intros ix V. cbn [reverse_axes l_shape] in V. rewrite <- (rev_involutive ix) in V |- *. rewrite valid_rev_iff in V. rewrite reverse_addr; auto. apply valid_length in V. congruence.
    + rewrite combine_rev by auto. eapply chk_perm; [|exact C]. apply Permutation_rev. Qed.
Lemma contig_f_good k s off : 0 <= off -> good (new_f_contig k s off).
Proof. intro Ho. apply good_intro; cbn [new_f_contig l_shape l_stride]; [apply stride_f_length|]. intro S. split.
  - intros ix V. unfold addr. cbn [l_offset l_stride new_f_contig l_shape] in *. rewrite stride_f_dot by auto. lia.
  - exists (nz (combine s (stride_f_contig k s))). split; auto. change 0 with (1 - 1). apply size_pos_forall in S. destruct k; apply pass_cum; auto; try lia. intros d Hd. now apply max1_id. Qed.
Lemma contig_good k s off o : 0 <= off -> good (new_contig k s off o).
Proof. intro Ho. destruct o; [|now apply contig_f_good]. assert (E : new_contig k s off RowMajor = reverse_axes (new_f_contig k (rev s) off)).
  { unfold new_contig, new_c_contig, reverse_axes, new_f_contig. cbn [l_shape l_stride l_offset]. now rewrite rev_involutive, stride_c_rev. }
  rewrite E. now apply good_reverse, contig_f_good. Qed.
Lemma permuted_good ax l : good l -> Permutation ax (seq 0 (ndim l)) -> good (permuted ax l).
Proof. intros G P. destruct (Nat.eq_dec (size (l_shape l)) 0) as [E|E].
  - apply good_intro; cbn [permuted l_shape l_stride]; [now rewrite !pick_length|]. rewrite (size_perm _ _ (pick_perm ax 0%nat (l_shape l) P)). congruence.
  - apply (sub_axes_good l ax []); auto. now rewrite app_nil_r. Qed.

(** every storage cell belongs to some element *)
Definition covers (l : layout) (n : nat) : Prop := forall p, 0 <= p < Z.of_nat n <-> exists ix, valid (l_shape l) ix /\ addr l ix = p.
Lemma covers_inside l n : covers l n -> inside l n.
Proof. intros H ix V. apply H. eauto. Qed.
Lemma perm_covers l n : Permutation (addrs RowMajor l) (consecutive 0 n) -> covers l n.
Proof. intros P p. rewrite <- (Z.add_0_l (Z.of_nat n)), <- in_consecutive. split.
  - intro H. eapply Permutation_in in H; [|symmetry; exact P]. apply in_map_iff in H as (ix & E & H). apply in_enum in H. eauto.
  - intros (ix & V & <-). eapply Permutation_in; [exact P|]. apply in_map_iff. exists ix. split; auto. now apply in_enum. Qed.
Lemma perm_injective l n : Permutation (addrs RowMajor l) (consecutive 0 n) -> injective l.
Proof. intro P. apply NoDup_injective. change (NoDup (addrs RowMajor l)). eapply Permutation_NoDup; [symmetry; exact P|]. unfold consecutive. apply FinFun.Injective_map_NoDup; [|apply seq_NoDup]. intros a b. lia. Qed.
Lemma bounds_covers l n : wf l -> l_offset l = 0 -> covers l n -> exists lo, bounds_index l = Ok (lo, Z.of_nat n).
Proof. intros W O C. assert (N : nonneg l). { intros ix V. apply (covers_inside l n C) in V. lia. }
  apply bounds_index_ok_iff in N as ([lo hi] & E); auto. destruct (bounds_index_sound l lo hi W E) as (_ & H1 & _ & H3). exists lo. rewrite E. f_equal. f_equal.
  destruct (Nat.eq_dec (size (l_shape l)) 0) as [Z0|Z0].
  - rewrite bounds_index_eq, Z0, O in E by apply W. cbn in E. injection E as <- <-. destruct n as [|n]; auto. destruct (proj1 (C 0)) as (ix & V & _); [lia|]. exfalso. eapply valid_size_pos; eauto.
  - destruct (H3 Z0) as [_ (ix & V & Ex)]. pose proof (covers_inside l n C ix V). destruct (proj1 (C (Z.of_nat n - 1))) as (ix' & V' & Ex'); [lia|]. apply H1 in V'. lia. Qed.
Lemma copy_layout_good k dflt l o : good l -> o = OC \/ o = OF \/ o = OA \/ o = OK ->
  exists l', layout_for_array_copy k dflt l o = Ok l' /\ good l' /\ l_offset l' = 0 /\ l_shape l' = l_shape l /\ injective l' /\ covers l' (size (l_shape l)).
Proof. intros G Ho. destruct (copy_layout_ok k dflt l o G Ho) as (l' & E & W & O & S & P). exists l'. split; auto. split.
  2:{ split; auto. split; auto. split; [eapply perm_injective; eauto|now apply perm_covers]. }
  assert (C : forall d, good (new_contig k (l_shape l) 0 d)) by (intro d; apply contig_good; lia).
  unfold layout_for_array_copy in E. destruct Ho as [->|[->|[->| ->]]].
  - injection E as <-. apply (C RowMajor).
  - injection E as <-. apply (C ColMajor).
  - destruct (c_contig l); [injection E as <-; apply (C RowMajor)|]. destruct (f_contig l); [injection E as <-; apply (C ColMajor)|]. injection E as <-. destruct dflt; [apply (C RowMajor)|apply (C ColMajor)].
  - destruct (greedy_keep_ok l G) as (g & ax & f & Eg & Pa & _ & _ & _ & Sg). rewrite Eg in E. cbn [bind fst snd] in E. rewrite (reversed_permute_ok ax (ndim l) Pa) in E.
    set (c := new_f_contig k (l_shape g) 0) in *. assert (Nc : ndim c = ndim l). { unfold ndim, c. cbn [new_f_contig l_shape]. rewrite Sg, pick_length, (Permutation_length Pa), seq_length. reflexivity. }
    pose proof (inv_perm_perm ax (ndim l) Pa) as P2. rewrite <- Nc in P2. rewrite transpose_nat in E by auto. injection E as <-. apply permuted_good; auto. apply contig_f_good. lia. Qed.

(** ** the result layout of a binary operation *)
Lemma nz_nil L : (forall p, In p L -> nzp p = false) -> nz L = [].
Proof. intro H. unfold nz. replace (filter nzp L) with (@nil (nat * Z)); auto. symmetry. induction L as [|p L IH]; cbn; auto. rewrite H by (now left). apply IH. intros; apply H; now right. Qed.
Lemma combine_seq {A B} (a : list A) (b : list B) da db n : length a = n -> length b = n -> combine a b = map (fun k => (nth k a da, nth k b db)) (seq 0 n).
Proof. intros La Lb. rewrite <- (map_nth_seq da a) at 1. rewrite <- (map_nth_seq db b) at 1. rewrite La, Lb. now rewrite combine_map. Qed.
Lemma binop_good la lb o : wf la -> wf lb -> l_shape la = l_shape lb -> exists lo n, get_layout_for_binary_op la lb o = Ok lo /\ l_shape lo = l_shape la /\ l_offset lo = 0 /\ good lo /\ covers lo n /\
  (forall i j, valid (l_shape la) i -> valid (l_shape la) j -> addr lo i = addr lo j -> addr la i = addr la j /\ addr lb i = addr lb j).
Proof. intros Wa Wb E. destruct (l_binop_layout la lb o Wa Wb E) as (lo & E1 & Es & Eo & Ls & Fs & Inj & Cov). exists lo. exists (if (size (l_shape la) =? 0)%nat then 0%nat else size (own_extents la lb)).
  destruct (binop_layout la lb o Wa Wb E) as (A & lo' & E1' & _ & _ & _ & _ & ND & IA & Ad & Pk & Zk). rewrite E1 in E1'. injection E1' as <-.
  split; auto. split; auto. split; auto. split; [|split].
  - apply good_intro; [congruence|]. rewrite Es. intro S. split.
    + intros ix V. rewrite Es in V. rewrite Ad by auto. lia.
    + rewrite (combine_seq (l_shape la) (l_stride lo) 0%nat 0 (ndim la)) by auto.
      assert (BA : forall a, In a A -> (a < ndim la)%nat) by (intros a Ha; apply IA in Ha; tauto).
      eapply chk_perm; [symmetry; apply Permutation_map, (filter_notin_perm A (ndim la) ND BA)|]. rewrite map_app.
      exists (nz (combine (pick A 0%nat (l_shape la)) (pick A 0 (l_stride lo)))). rewrite nz_app. rewrite (nz_nil (map _ (filter _ _))).
      * rewrite app_nil_r. split; [unfold pick; rewrite combine_map; reflexivity|]. rewrite Pk. change 0 with (1 - 1). apply pass_cum; try lia; auto.
        apply Forall_forall. intros d Hd. apply in_map_iff in Hd as (a & <- & Ha). apply size_pos_forall in S. rewrite Forall_forall in S. apply S. apply nth_In. apply BA in Ha. exact Ha.
      * intros p Hp. apply in_map_iff in Hp as (k & <- & Hk). apply filter_In in Hk as [Hk HA]. apply in_seq in Hk. apply negb_true_iff, mem_notin in HA. unfold nzp. cbn [fst snd].
        destruct (Nat.eq_dec (nth k (l_shape la) 0%nat) 1) as [->|N1]; auto. rewrite Zk by (auto; lia). cbn. now rewrite andb_false_r.
  - intro p. destruct (Nat.eqb_spec (size (l_shape la)) 0) as [S|S]; [|rewrite Es; symmetry; auto]. split; [lia|]. intros (ix & V & _). rewrite Es in V. exfalso. eapply valid_size_pos; eauto.
  - intros i j Vi Vj H. rewrite Inj in H by auto. pose proof (valid_length _ _ Vi) as Li. pose proof (valid_length _ _ Vj) as Lj.
    assert (D : forall l, wf l -> l_shape l = l_shape la -> (forall k, (k < ndim la)%nat -> nth k (l_stride l) 0 = 0 \/ nth k i 0%nat = nth k j 0%nat) -> addr l i = addr l j).
    { intros l [Wl _] Sl Hk. unfold addr. f_equal. rewrite !dot_sum by congruence. rewrite Li, Lj. f_equal. apply map_ext_in. intros k K. apply in_seq in K. destruct (Hk k) as [-> | ->]; unfold ndim; lia. }
    split; apply D; auto; intros k Hk; destruct (both_broadcast la lb k) eqn:B; try (right; now apply H); left; unfold both_broadcast in B; lia. Qed.

(** ** broadcasting keeps a layout acceptable *)
Lemma nz_mask s1 : forall st bt s', length st = length s1 -> length bt = length s1 -> length s' = length s1 ->
  (forall k, (k < length s1)%nat -> (nth k bt Preserve = Preserve /\ nth k s' 0%nat = nth k s1 0%nat) \/ (nth k bt Preserve <> Preserve /\ nth k s1 0%nat = 1%nat)) ->
  nz (combine s' (mask st bt)) = nz (combine s1 st).
Proof. induction s1 as [|d s1 IH]; intros [|t st] [|b bt] [|d' s'] H1 H2 H3 H; try discriminate; auto. cbn in H1, H2, H3. unfold mask. cbn [combine map fst snd].
  fold (mask st bt). unfold nz. cbn [filter]. assert (R : nz (combine s' (mask st bt)) = nz (combine s1 st)). { apply IH; try lia. intros k Hk. apply (H (S k)). cbn; lia. } unfold nz in R.
  specialize (H 0%nat ltac:(cbn; lia)). cbn in H. destruct H as [[-> ->]|[Hb ->]].
  - destruct (nzp (d, t)); cbn [map]; congruence.
  - replace (nzp (d', match b with Preserve => t | _ => 0 end)) with false. 2:{ unfold nzp. cbn [fst snd]. destruct b; try congruence; cbn; now rewrite andb_false_r. } replace (nzp (1%nat, t)) with false by reflexivity. exact R. Qed.
Lemma nth_skipn_gen {A} m (l : list A) k d : nth k (skipn m l) d = nth (m + k) l d.
Proof. revert l; induction m; intros [|x l]; cbn; auto. destruct k; auto. Qed.
Lemma update_row_good l s2 s : good l -> broadcasts RowMajor (l_shape l) s2 s ->
  forall l', update_layout_row l s (map (btype_of (l_shape l) s2 (length s)) (seq 0 (length s))) = Ok l' -> good l'.
Proof. intros G B l' E. pose proof G as ([Hl _] & _). destruct (update_row_spec l s2 s) as (l'' & E' & S & Ls & O & Ad); auto; [apply G|]. rewrite E in E'. injection E' as <-. apply good_intro; [congruence|]. rewrite S. intro Z0.
  assert (Zl : size (l_shape l) <> 0%nat). { destruct (Ad _ (valid_zeros _ Z0)) as [V _]. eapply valid_size_pos; eauto. }
  destruct (good_elim l G Zl) as (_ & _ & N & C). split. { intros ix V. rewrite S in V. destruct (Ad ix V) as [V' ->]. now apply N. }
  unfold update_layout_row, ndim in E. destruct B as [L B]. set (s1 := l_shape l) in *. set (n := length s) in *. replace (n <? length s1)%nat with false in E by lia. set (bt := map (btype_of s1 s2 n) (seq 0 n)) in *.
  assert (Lb : length bt = n) by (unfold bt; now rewrite map_length, seq_length). injection E as <-. cbn [l_stride]. set (m := (n - length s1)%nat). fold (mask (repeat 0 m ++ l_stride l) bt).
  rewrite mask_prefix.
  - rewrite <- (firstn_skipn m s). assert (Lf : length (firstn m s) = m) by (rewrite firstn_length; lia). rewrite combine_app by now rewrite repeat_length.
    destruct C as (p & Pp & Ps). exists p. split; auto. rewrite Pp, nz_app. rewrite (nz_nil (combine (firstn m s) (repeat 0 m))).
    + cbn [app]. rewrite (nz_mask s1); auto; try (rewrite skipn_length; lia). intros k Hk. rewrite !nth_skipn_gen. unfold bt. rewrite btypes_nth by lia. unfold btype_of. replace (length s1 + (m + k) <? n)%nat with false by lia.
      assert (E1 : aligned_ext s1 n (m + k) = nth k s1 0%nat). { rewrite aligned_ext_spec by lia. rewrite (ext_nth s1 k Hk). f_equal. lia. }
      assert (E2 : nth (m + k) s 0%nat = ext RowMajor s (n - 1 - (m + k))) by (apply ext_nth; lia). specialize (B (n - 1 - (m + k))%nat). cbv zeta in B.
      assert (E3 : ext RowMajor s1 (n - 1 - (m + k)) = nth k s1 0%nat). { rewrite (ext_nth s1 k Hk). f_equal. lia. }
      assert (E4 : aligned_ext s2 n (m + k) = ext RowMajor s2 (n - 1 - (m + k))) by (apply aligned_ext_spec; lia). rewrite E1, E2, E4. rewrite E3 in B.
      destruct (Nat.eqb_spec (nth k s1 0%nat) 1); cbn [andb]; [|left; split; auto; lia]. destruct (Nat.eqb_spec (ext RowMajor s2 (n - 1 - (m + k))) 1); cbn [negb]; [left; split; auto; lia|right; split; [discriminate|auto]].
    + intros [d t] Hp. apply in_combine_r in Hp. apply repeat_spec in Hp. subst t. unfold nzp. cbn. now rewrite andb_false_r.
  - rewrite Lb, Hl. unfold m. lia.
  - intros k Hk. unfold bt. rewrite btypes_nth by lia. unfold btype_of. replace (length s1 + k <? n)%nat with true by lia. discriminate. Qed.
Lemma update_good l s2 s o t1 t2 l' : good l -> broadcast_shape (l_shape l) s2 o = Ok (s, t1, t2) -> update_layout_by_shape l s t1 o = Ok l' -> good l'.
Proof. intros G E U. pose proof (broadcast_shape_ok _ _ _ _ _ _ E) as B. destruct o.
  - apply broadcast_row_ok in E as (_ & -> & _). now apply (update_row_good l s2 s G B).
  - rewrite broadcast_shape_col in E. apply bind_ok in E. destruct E as ([[s' t1'] t2'] & E & E'). injection E' as <- <- <-. apply broadcast_row_ok in E. destruct E as (B' & -> & _). cbn [update_layout_by_shape] in U. rewrite !rev_involutive in U.
    apply bind_ok in U as (r & U & X). injection X as <-. apply good_reverse. change (rev (l_shape l)) with (l_shape (reverse_axes l)) in *. eapply (update_row_good (reverse_axes l)); eauto. now apply good_reverse. Qed.

(** an operand that already has the common shape is left alone *)
Lemma mask_all st bt : length bt = length st -> (forall k, (k < length st)%nat -> nth k bt Preserve = Preserve) -> mask st bt = st.
Proof. revert bt; induction st as [|t st IH]; intros [|b bt] L H; try discriminate; auto. unfold mask in *. cbn [combine map fst snd]. rewrite IH; [|cbn in L; lia|intros k Hk; apply (H (S k)); cbn; lia]. specialize (H 0%nat ltac:(cbn; lia)). cbn in H. now subst b. Qed.
Lemma update_row_self l s2 : wf l -> broadcasts RowMajor (l_shape l) s2 (l_shape l) ->
  update_layout_row l (l_shape l) (map (btype_of (l_shape l) s2 (length (l_shape l))) (seq 0 (length (l_shape l)))) = Ok l.
Proof. intros [Hl _] [L B]. unfold update_layout_row, ndim. rewrite Nat.ltb_irrefl, Nat.sub_diag. cbn [repeat app]. set (n := length (l_shape l)) in *. set (bt := map (btype_of (l_shape l) s2 n) (seq 0 n)). fold (mask (l_stride l) bt).
  rewrite mask_all; [now destruct l|unfold bt; now rewrite map_length, seq_length|]. intros k Hk. unfold bt. rewrite btypes_nth by lia. unfold btype_of. fold n. replace (n + k <? n)%nat with false by lia.
  specialize (B (n - 1 - k)%nat). cbv zeta in B. assert (E3 : aligned_ext (l_shape l) n k = ext RowMajor (l_shape l) (n - 1 - k)) by (apply aligned_ext_spec; lia).
  assert (E4 : aligned_ext s2 n k = ext RowMajor s2 (n - 1 - k)) by (apply aligned_ext_spec; lia). rewrite E3, E4.
  destruct (Nat.eqb_spec (ext RowMajor (l_shape l) (n - 1 - k)) 1); cbn [andb]; auto. destruct (Nat.eqb_spec (ext RowMajor s2 (n - 1 - k)) 1); cbn [negb]; auto. lia. Qed.
Lemma update_self l s2 o t1 t2 : wf l -> broadcast_shape (l_shape l) s2 o = Ok (l_shape l, t1, t2) -> update_layout_by_shape l (l_shape l) t1 o = Ok l.
Proof. intros W E. destruct o.
  - apply broadcast_row_ok in E as (B & -> & _). now apply update_row_self.
  - rewrite broadcast_shape_col in E. apply bind_ok in E. destruct E as ([[s' t1'] t2'] & E & E'). injection E' as Es <- <-. assert (s' = rev (l_shape l)) as -> by (now rewrite <- Es, rev_involutive).
    apply broadcast_row_ok in E. destruct E as (B' & -> & _). cbn [update_layout_by_shape]. rewrite rev_involutive. change (rev (l_shape l)) with (l_shape (reverse_axes l)) in *. rewrite update_row_self; auto; [|now apply reverse_wf]. cbn [bind]. now rewrite reverse_axes_involutive. Qed.

(** ** broadcasting two operands *)
Lemma broadcast_good l1 l2 o r1 r2 : good l1 -> good l2 -> broadcast_layout l1 l2 o = Ok (r1, r2) -> exists s, broadcasts o (l_shape l1) (l_shape l2) s /\
  good r1 /\ good r2 /\ l_shape r1 = s /\ l_shape r2 = s /\ (s = l_shape l1 -> r1 = l1) /\ (s = l_shape l2 -> r2 = l2) /\
  (forall ix, valid s ix -> valid (l_shape l1) (source_index o (l_shape l1) ix) /\ addr r1 ix = addr l1 (source_index o (l_shape l1) ix)) /\
  (forall ix, valid s ix -> valid (l_shape l2) (source_index o (l_shape l2) ix) /\ addr r2 ix = addr l2 (source_index o (l_shape l2) ix)).
Proof. intros G1 G2 E. pose proof (l_broadcast_layout o l1 l2 (good_wf _ G1) (good_wf _ G2)) as H. rewrite E in H. destruct H as (s & B & S1 & S2 & _ & _ & F). exists s. split; auto.
  unfold broadcast_layout in E. apply bind_ok in E as ([[s' t1] t2] & E & X). apply bind_ok in X as (q1 & U1 & X). apply bind_ok in X as (q2 & U2 & X). injection X as -> ->.
  assert (s' = s) as -> by (eapply broadcasts_fun; [eapply broadcast_shape_ok; eauto|eauto]).
  assert (E' : broadcast_shape (l_shape l2) (l_shape l1) o = Ok (s, t2, t1)).
  { destruct o.
    - apply broadcast_row_ok in E as (B' & -> & ->). apply broadcast_row_ok. split; [now apply broadcasts_comm|auto].
    - rewrite broadcast_shape_col in E |- *. apply bind_ok in E. destruct E as ([[s' t1'] t2'] & E & E'). injection E' as <- <- <-. apply broadcast_row_ok in E as (B' & -> & ->).
      assert (R : broadcast_shape (rev (l_shape l2)) (rev (l_shape l1)) RowMajor = Ok (s', map (btype_of (rev (l_shape l2)) (rev (l_shape l1)) (length s')) (seq 0 (length s')), map (btype_of (rev (l_shape l1)) (rev (l_shape l2)) (length s')) (seq 0 (length s')))) by (apply broadcast_row_ok; split; [now apply broadcasts_comm|auto]).
      rewrite R. reflexivity. }
  split; [now apply (update_good l1 (l_shape l2) s o t1 t2)|]. split; [now apply (update_good l2 (l_shape l1) s o t2 t1)|]. split; auto. split; auto. split; [|split; [|split]].
  - intros ->. rewrite (update_self l1 (l_shape l2) o t1 t2) in U1; auto; [congruence|apply G1].
  - intros ->. rewrite (update_self l2 (l_shape l1) o t2 t1) in U2; auto; [congruence|apply G2].
  - intros ix V. destruct (F ix V) as (? & ? & ? & ?). auto.
  - intros ix V. destruct (F ix V) as (? & ? & ? & ?). auto. Qed.

(** ** fresh results *)
Lemma assume_some {T} (d : list T) : assume_init (map Some d) = Ok d.
Proof. unfold assume_init. induction d as [|x d IH]; cbn; auto. rewrite IH. reflexivity. Qed.
Lemma all_some {T} (c : list (option T)) : (forall p, 0 <= p < Z.of_nat (length c) -> exists v, peek c p = Some (Some v)) -> exists d, c = map Some d.
Proof. induction c as [|x c IH]; intro H; [exists []; auto|]. destruct IH as (d & ->).
  - intros p Hp. destruct (H (p + 1)) as (v & Hv); [cbn [length]; lia|]. exists v. unfold peek in *. replace (p + 1 <? 0) with false in Hv by lia. replace (p <? 0) with false by lia. replace (Z.to_nat (p + 1)) with (S (Z.to_nat p)) in Hv by lia. exact Hv.
  - destruct (H 0) as (v & Hv); [cbn [length]; lia|]. cbn in Hv. injection Hv as ->. now exists (v :: d). Qed.
Lemma peek_map {A B} (f : A -> B) l p : peek (map f l) p = option_map f (peek l p).
Proof. unfold peek. destruct (p <? 0); auto. apply nth_error_map. Qed.
Lemma uninit_length T n : 0 <= n -> length (uninit T n) = Z.to_nat n.
Proof. intro. unfold uninit. apply repeat_length. Qed.
Lemma tensor_new_ok {T} (d : list T) l : good l -> inside l (length d) -> size (l_shape l) <> 0%nat \/ l_offset l = 0 -> tensor_new d l = Ok (mkTensor d l).
Proof. intros (W & N & C) I S. unfold tensor_new. rewrite C. cbn [bind]. pose proof N as N'. apply bounds_index_ok_iff in N' as ([lo hi] & E); auto. rewrite E. cbn [bind snd].
  replace (hi <=? Z.of_nat (length d)) with true; auto. symmetry. apply Z.leb_le. destruct (Nat.eq_dec (size (l_shape l)) 0) as [Z0|Z0].
  - destruct S as [|O]; [congruence|]. rewrite bounds_index_eq, Z0, O in E by apply W. cbn in E. injection E as <- <-. lia.
  - destruct (bounds_index_sound l lo hi W E) as (_ & _ & _ & H). destruct (H Z0) as [_ (ix & V & Ex)]. apply I in V. lia. Qed.
Lemma fresh_result {C} lc (c' : list (option C)) (P : list nat -> C -> Prop) : good lc -> l_offset lc = 0 -> covers lc (length c') ->
  (forall ix, valid (l_shape lc) ix -> exists v, elem c' lc ix = Some (Some v) /\ P ix v) ->
  exists d, assume_init c' = Ok d /\ tensor_new d lc = Ok (mkTensor d lc) /\ length d = length c' /\ inside lc (length d) /\ forall ix, valid (l_shape lc) ix -> exists v, elem d lc ix = Some v /\ P ix v.
Proof. intros G O Cv H. destruct (all_some c') as (d & Ed).
  - intros p Hp. apply Cv in Hp as (ix & V & <-). destruct (H ix V) as (v & Hv & _). eauto.
  - subst c'. rewrite map_length in Cv. exists d. split; [apply assume_some|]. split; [apply tensor_new_ok; auto; now apply covers_inside|]. rewrite map_length. split; auto. split; [now apply covers_inside|].
    intros ix V. destruct (H ix V) as (v & Hv & Pv). exists v. split; auto. unfold elem in *. rewrite peek_map in Hv. destruct (peek d (addr lc ix)); [cbn in Hv; congruence|discriminate]. Qed.

(** [tensor_ok] of a concrete tensor *)
Ltac concrete_tensor := match goal with |- tensor_ok ?t => let t' := eval hnf in t in change (tensor_ok t') end; split; [repeat split; cbn; lia|let ix := fresh "ix" in let V := fresh "V" in intros ix V;
  repeat (apply valid_cons_inv in V as (? & ? & -> & ? & V)); apply valid_nil in V; subst; unfold addr; cbn [l_offset l_stride dot t_layout t_data length]; lia].
