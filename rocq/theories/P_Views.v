(** Views stay inside the storage of the tensor they were taken from. *)
From Verif Require Import Base Spec P_Index P_List M_Layout P_Layout P_Bounds P_Contig P_Strides M_Indexer P_Indexer M_Broadcast P_Broadcast Q_Broadcast
  M_Reshape P_Reshape Q_Reshape Q_Layout M_Rearr P_Rearr M_Iter P_Iter Q_Iter M_Tensor P_BinOp P_Arg P_Axes M_Manip Spec_Views P_Manip.
Local Open Scope Z_scope.

Lemma shows_refl l : shows_only l l.
Proof. intros jx V. eauto. Qed.
Lemma shows_trans a b c : shows_only a b -> shows_only b c -> shows_only a c.
Proof. intros H1 H2 jx V. apply H2 in V as (ix & V & ->). now apply H1. Qed.
Definition safe (l : layout) : Prop := wf l /\ nonneg l.
Lemma shows_safe l l' : safe l -> shows_only l l' -> length (l_stride l') = length (l_shape l') -> safe l'.
Proof. intros [W N] H L. assert (N' : nonneg l') by (intros jx V; apply H in V as (ix & V & ->); auto). split; auto. split; auto.
  intro S. assert (V : valid (l_shape l') (repeat 0%nat (length (l_shape l')))) by now apply valid_zeros. apply N' in V. unfold addr in V. now rewrite dot_zeros, Z.add_0_r in V. Qed.

Lemma narrow_inv l axis s l' : dim_narrow l axis s = Ok l' -> l' = l \/
  exists a n b t, (a < ndim l)%nat /\ (forall k, (k < n)%nat -> 0 <= b + Z.of_nat k * t < Z.of_nat (nth a (l_shape l) 0%nat)) /\ l' = narrowed l a n b t.
Proof. unfold dim_narrow. intro H. apply bind_ok in H as (a & Ha & H). apply check_axis_spec in Ha as [Ha _].
  destruct (slice_is_full s); [injection H as <-; auto|]. set (step := unwrap_or (sl_step s) 1) in *. set (len := nth a (l_shape l) 0%nat) in *.
  destruct (Z.eqb_spec step 0) as [|Hst]; [discriminate|]. destruct (Z.eqb_spec (Z.of_nat len) 0) as [E0|E0]; [injection H as <-; auto|]. right. destruct (Z.gtb_spec step 0).
  - pose proof (narrow_pos_spec len (sl_start s) (sl_stop s) step ltac:(lia) ltac:(lia)) as N.
    destruct (narrow_pos (Z.of_nat len) (sl_start s) (sl_stop s)) as [b e]. destruct N as (N1 & N2 & N3 & N4). apply layout_new_eq in H.
    exists a, (Z.to_nat (Z.max (Z.quot (e - b + step - 1) step) 0)), b, step. split; auto. split; auto. intros k Hk. apply count_pos in Hk; nia.
  - assert (Hneg : step < 0) by lia. destruct (narrow_neg (Z.of_nat len) (sl_start s) (sl_stop s)) as [b e] eqn:E. apply layout_new_eq in H.
    assert (B : e <= b /\ b < Z.of_nat len /\ -1 <= e /\ 0 <= b).
    { clear - E E0. unfold narrow_neg in E. set (s1 := unwrap_or (sl_start s) (Z.of_nat len - 1)) in *. set (s2 := unwrap_or (sl_stop s) (-1)) in *.
      clearbody s1 s2. destruct (s1 <? 0) eqn:E1, (s2 <? -1) eqn:E2;
      match type of E with (if ?c then _ else _) = _ => destruct c eqn:E3 end;
      try (injection E as <- <-; lia);
      match type of E with (if ?c then _ else _) = _ => destruct c eqn:E4 end; injection E as <- <-; lia. }
    exists a, (Z.to_nat (Z.max (Z.quot (e - b + step + 1) step) 0)), b, step. split; auto. split; auto. intros k Hk. apply count_neg in Hk; nia. Qed.
Lemma narrow_shows l axis s l' : safe l -> dim_narrow l axis s = Ok l' -> safe l' /\ shows_only l l'.
Proof. intros S H. apply narrow_inv in H as [->|(a & n & b & t & Ha & K & ->)]; [split; auto; apply shows_refl|].
  assert (X : shows_only l (narrowed l a n b t)).
  { intros jx V. cbn [narrowed l_shape] in V. pose proof (proj2 (proj1 (valid_nth _ _) V) a) as Va. rewrite nth_upd_same, upd_length in Va by auto.
    pose proof V as Lv. apply valid_length in Lv. rewrite upd_length in Lv. unfold ndim in Ha. specialize (Va ltac:(lia)). pose proof (K _ Va) as R.
    eexists. split; [|apply narrowed_addr; auto; [apply S|lia]]. apply valid_nth. rewrite upd_length. split; [auto|]. intros k Hk. apply valid_nth in V as [_ V]. specialize (V k). rewrite upd_length in V.
    destruct (Nat.eq_dec k a) as [->|Nk]; [rewrite nth_upd_same by lia; lia|]. rewrite nth_upd in *. replace (a =? k)%nat with false in * by lia. apply V. lia. }
  split; auto. eapply shows_safe; eauto. cbn. rewrite !upd_length. apply S. Qed.
Lemma select_shows l axis i l' : safe l -> dim_select l axis i = Ok l' -> safe l' /\ shows_only l l'.
Proof. intros S H. unfold dim_select in H. apply bind_ok in H as (a & Ha & H). apply check_axis_spec in Ha as [Ha _]. set (d := nth a (l_shape l) 0%nat) in *.
  destruct ((0 <=? _) && _) eqn:E; [|discriminate]. apply layout_new_eq in H. set (k := if i <? 0 then Z.of_nat d + i else i) in *. clearbody k.
  assert (X : shows_only l l').
  { intros jx V. rewrite H in V. cbn [l_shape] in V. exists (insert_at jx a (Z.to_nat k)). pose proof (valid_length _ _ V) as Lv. unfold ndim in Ha. rewrite remove_length in Lv by auto. split.
    - rewrite <- (insert_remove (l_shape l) a 0%nat) by auto. apply valid_insert; [rewrite remove_length; lia|]. rewrite remove_length by auto. fold d. split; [lia|]. split; [lia|auto].
    - rewrite H. fold (selected l a k). rewrite <- (Z2Nat.id k) at 1 by lia. apply selected_addr; auto. apply S. }
  split; auto. eapply shows_safe; eauto. rewrite H. cbn. destruct S as [[W _] _]. unfold ndim in Ha. rewrite !remove_length; lia. Qed.
Lemma eliminate_shows l axis l' : safe l -> dim_eliminate l axis = Ok l' -> safe l' /\ shows_only l l'.
Proof. intros S H. unfold dim_eliminate in H. apply bind_ok in H as (a & Ha & H). apply check_axis_spec in Ha as [Ha _].
  destruct (Nat.eqb_spec (nth a (l_shape l) 0%nat) 1) as [E|]; [|discriminate]. cbn [negb] in H. apply layout_new_eq in H.
  assert (X : shows_only l l').
  { intros jx V. rewrite H in V. cbn [l_shape] in V. exists (insert_at jx a 0%nat). pose proof (valid_length _ _ V) as Lv. unfold ndim in Ha. rewrite remove_length in Lv by auto. split.
    - rewrite <- (insert_remove (l_shape l) a 0%nat) by auto. apply valid_insert; [rewrite remove_length; lia|]. rewrite remove_length by auto. rewrite E. split; [lia|]. split; [lia|auto].
    - rewrite H. fold (chopped l a). rewrite chopped_selected. apply selected_addr; auto. apply S. }
  split; auto. eapply shows_safe; eauto. rewrite H. cbn. destruct S as [[W _] _]. unfold ndim in Ha. rewrite !remove_length; lia. Qed.
Lemma insert_shows l axis l' : safe l -> dim_insert l axis = Ok l' -> safe l' /\ shows_only l l'.
Proof. intros S H. unfold dim_insert in H. apply bind_ok in H as (a & Ha & H). apply check_axis_insert_spec in Ha as [Ha _]. apply layout_new_eq in H.
  match type of H with context [insert_at (l_stride l) a ?t] => set (t0 := t) in * end. fold (inserted l a t0) in H.
  assert (X : shows_only l l').
  { intros jx V. rewrite H in V. apply inserted_index in V as (r & -> & V); auto. exists r. split; auto. rewrite H. apply inserted_addr; auto; [apply S|]. now apply valid_length in V. }
  split; auto. eapply shows_safe; eauto. rewrite H. cbn. destruct S as [[W _] _]. unfold ndim in Ha. rewrite !insert_length; lia. Qed.
Lemma slice_loop_shows ixs : forall l cur l' cur', safe l -> slice_loop ixs l cur = Ok (l', cur') -> safe l' /\ shows_only l l'.
Proof. induction ixs as [|x r IH]; intros l cur l' cur' S H; cbn [slice_loop] in H.
  - injection H as <- <-. split; auto. apply shows_refl.
  - apply bind_ok in H as ([l1 c1] & H1 & H). apply IH in H1 as [S1 X1]; auto.
    assert (Y : forall l2, safe l2 /\ shows_only l1 l2 -> safe l2 /\ shows_only l l2) by (intros l2 [A B]; split; auto; eapply shows_trans; eauto).
    destruct x; try discriminate; apply bind_ok in H as (l2 & H2 & H); injection H as <- <-; apply Y; eauto using narrow_shows, select_shows, insert_shows. Qed.
Lemma slice_shows l ixs l' : safe l -> dim_slice l ixs = Ok l' -> safe l' /\ shows_only l l'.
Proof. intros S H. unfold dim_slice in H. apply bind_ok in H as (l0 & H0 & H). apply layout_new_eq in H0. assert (l0 = l) as -> by (now destruct l).
  apply bind_ok in H as ([c e] & _ & H). destruct (_ <? _)%nat; [discriminate|]. apply bind_ok in H as ([l1 cur] & H1 & H). destruct (cur =? 0); [|discriminate]. injection H as <-.
  eapply slice_loop_shows; eauto. Qed.
Lemma fold_shows {A} (f : layout -> A -> res layout) : (forall l a l', safe l -> f l a = Ok l' -> safe l' /\ shows_only l l') ->
  forall v l l', safe l -> fold_res f v l = Ok l' -> safe l' /\ shows_only l l'.
Proof. intros Hf v. induction v as [|a v IH]; intros l l' S H; cbn in H; [injection H as <-; split; auto; apply shows_refl|].
  apply bind_ok in H as (l1 & H1 & H). apply Hf in H1 as [S1 X1]; auto. apply IH in H as [S2 X2]; auto. split; auto. eapply shows_trans; eauto. Qed.
Lemma permuted_shows l p : safe l -> Permutation p (seq 0 (ndim l)) -> safe (permuted p l) /\ shows_only l (permuted p l).
Proof. intros S P. assert (X : shows_only l (permuted p l)).
  { intros jx V. destruct (permuted_renames p l P (proj1 S)) as (_ & R & _). apply R in V as [V1 V2]. eauto. }
  split; auto. eapply shows_safe; eauto. unfold permuted. cbn. unfold pick. now rewrite !map_length. Qed.
Lemma transpose_shows l axes l' : safe l -> transpose l axes = Ok l' -> safe l' /\ shows_only l l'.
Proof. intros S H. apply transpose_spec in H as (ax & _ & P & ->). now apply permuted_shows. Qed.
Lemma reverse_shows l : safe l -> safe (reverse_axes l) /\ shows_only l (reverse_axes l).
Proof. intros S. assert (X : shows_only l (reverse_axes l)).
  { intros jx V. exists (rev jx). destruct (reverse_full (reverse_axes l)) as [E R]; [|rewrite reverse_axes_involutive in R; destruct (R _ V) as [V' A]; auto].
    destruct S as [[W O] _]. split; cbn; [now rewrite !rev_length|]. rewrite size_rev. auto. }
  split; auto. eapply shows_safe; eauto. cbn. destruct S as [[W _] _]. now rewrite !rev_length. Qed.
Lemma swapaxes_shows l a b l' : safe l -> swapaxes l a b = Ok l' -> safe l' /\ shows_only l l'.
Proof. intros S H. apply swapaxes_spec in H as (i & j & [Hi _] & [Hj _] & ->); [|apply S]. apply (permuted_shows l (swap_perm (ndim l) i j)); auto. now apply swap_perm_perm. Qed.
Lemma view_shows o op l l' : safe l -> view_layout o op l = Ok l' -> safe l' /\ shows_only l l'.
Proof. intros S H. destruct op; cbn [view_layout] in H.
  - eapply slice_shows; eauto.
  - destruct axes; cbn in H; [injection H as <-; now apply reverse_shows|eapply transpose_shows; eauto|eapply transpose_shows; eauto].
  - injection H as <-. now apply reverse_shows.
  - eapply swapaxes_shows; eauto.
  - unfold moveaxis in H. repeat (apply bind_ok in H as (? & _ & H)). eapply transpose_shows; eauto.
  - unfold flip in H. apply bind_ok in H as (ax & _ & H). revert H. apply fold_shows; auto. intros; eapply narrow_shows; eauto.
  - unfold expand_dims in H. apply bind_ok in H as (? & _ & H). apply bind_ok in H as (ax & _ & H). revert H. apply fold_shows; auto. intros; eapply insert_shows; eauto.
  - unfold squeeze in H. apply bind_ok in H as (ax & _ & H). revert H. apply fold_shows; auto. intros; eapply eliminate_shows; eauto.
  - pose proof (l_into_broadcast o l shape (proj1 S)) as B. rewrite H in B. destruct B as (_ & E & W & A).
    assert (X : shows_only l l'). { intros jx V. rewrite E in V. apply A in V as [V1 V2]. eauto. } split; auto. eapply shows_safe; eauto. apply W.
  - apply bind_ok in H as (s & _ & H). apply bind_ok in H as (v & Hv & H). destruct v as [l1|]; [|discriminate]. injection H as <-.
    destruct (l_reshape_order ord l s l1 (proj1 S) Hv) as (E & W & A).
    assert (X : shows_only l l1). { intros jx V. assert (I : In (addr l1 jx) (addrs ord l1)). { unfold addrs. apply in_map. now apply in_enum. }
      rewrite A in I. unfold addrs in I. apply in_map_iff in I as (ix & <- & I). apply in_enum in I. eauto. }
    split; auto. eapply shows_safe; eauto. apply W. Qed.
Lemma views_shows {T} o ops : forall (t t' : tensor T), safe (t_layout t) -> views o ops t = Ok t' ->
  t_data t' = t_data t /\ safe (t_layout t') /\ shows_only (t_layout t) (t_layout t').
Proof. induction ops as [|op ops IH]; intros t t' S H; cbn in H; [injection H as <-; split; auto; split; auto; apply shows_refl|].
  apply bind_ok in H as (t1 & H1 & H). unfold view in H1. apply bind_ok in H1 as (l1 & H1 & E). injection E as <-. apply view_shows in H1 as [S1 X1]; auto.
  apply IH in H as (D & S2 & X2); auto. split; [now rewrite D|]. split; auto. eapply shows_trans; eauto. Qed.

(** ** iteration over axes *)
Lemma adj_eq_sorted v : StronglySorted Z.le v -> NoDup v -> adj_eq_z v = false.
Proof. induction 1 as [|a d S IH HF]; intro N; [auto|]. inversion N as [|? ? Na Nd]; subst. destruct d as [|b d]; auto.
  change (adj_eq_z (a :: b :: d)) with ((a =? b) || adj_eq_z (b :: d)). rewrite IH by auto. rewrite orb_false_r. apply Z.eqb_neq. intros ->. apply Na. now left. Qed.
Lemma axes_iter_axes_ok n axes v ax : lists_axes axes v -> v <> [] -> Forall2 (axis_denotes n) v ax -> NoDup ax -> axes_iter_axes n axes = Ok (map Z.of_nat ax).
Proof. intros L Nv D N. unfold axes_iter_axes. rewrite (as_ref_list _ _ L). cbn [bind]. rewrite (norm_axes _ _ _ D). destruct D as [|a k v ax Hk D]; [congruence|].
  assert (E : map Z.of_nat (k :: ax) = Z.of_nat k :: map Z.of_nat ax) by reflexivity. rewrite E. replace (Z.of_nat k <? 0) with false by lia. cbn [negb check bind]. rewrite <- E.
  rewrite adj_eq_sorted; auto.
  - assert (S : StronglySorted (fun a b => (a <=? b) = true) (sort_by Z.leb (map Z.of_nat (k :: ax)))) by (apply sort_sorted; intros; rewrite ?Z.leb_le in *; lia).
    eapply StronglySorted_ind with (P := fun v => StronglySorted Z.le v); [constructor| |exact S]. intros x y _ H1 H2. constructor; auto. rewrite Forall_forall in *. intros z Hz. apply H2 in Hz. lia.
  - eapply Permutation_NoDup; [apply sort_perm|]. apply FinFun.Injective_map_NoDup; auto. intros x y. lia. Qed.
Lemma zget_map {A} (s : list A) d ax : (forall a, In a ax -> (a < length s)%nat) -> map_res (zget s) (map Z.of_nat ax) = Ok (pick ax d s).
Proof. induction ax as [|a ax IH]; intro H; cbn; auto. assert (E : zget s (Z.of_nat a) = Ok (nth a s d)).
  { unfold zget. specialize (H a ltac:(cbn; auto)). rewrite Nat2Z.id. destruct (Z.ltb_spec (Z.of_nat a) 0); [lia|]. unfold vget. now rewrite (nth_error_nth' s d). }
  rewrite E. cbn [bind]. rewrite IH by (intros; apply H; cbn; auto). reflexivity. Qed.
Lemma except_z n ax : filter (fun i => negb (existsb (Z.eqb (Z.of_nat i)) (map Z.of_nat ax))) (seq 0 n) = axes_except n ax.
Proof. unfold axes_except. apply filter_ext. intro k. f_equal. induction ax as [|a ax IH]; cbn; auto. rewrite IH. f_equal. apply eq_iff_eq_true. lia. Qed.
Lemma sub_safe l ax : safe l -> NoDup ax -> (forall a, In a ax -> (a < ndim l)%nat) -> size (pick (axes_except (ndim l) ax) 0%nat (l_shape l)) <> 0%nat -> wf (sub ax l) /\ nonneg (sub ax l).
Proof. intros [W N] ND B S. assert (Nn : nonneg (sub ax l)).
  { intros sx V. cbn [sub l_shape] in V. pose proof (valid_zeros _ S) as Vz. pose proof (merge_valid (l_shape l) ax sx _ ND B V Vz) as Vm. apply N in Vm.
    rewrite (merge_addr l ax sx) in Vm; auto; [|apply valid_length in V; now rewrite pick_length in V|now rewrite repeat_length, pick_length].
    unfold addr in *. cbn [sub l_offset l_stride] in *. rewrite dot_zeros in Vm. lia. }
  split; auto. split; cbn [sub l_shape l_stride]; [now rewrite !pick_length|]. intro S1. pose proof (valid_zeros _ S1) as V. apply (Nn (repeat 0%nat (length (pick ax 0%nat (l_shape l))))) in V. unfold addr in V. rewrite dot_zeros in V. cbn in *. lia. Qed.
Lemma nodup_flat_map' {A B} (f : A -> list B) v : NoDup v -> (forall x, In x v -> NoDup (f x)) ->
  (forall x y z, In x v -> In y v -> x <> y -> In z (f x) -> In z (f y) -> False) -> NoDup (flat_map f v).
Proof. induction 1 as [|x v Hx Nv IH]; intros H1 H2; cbn; [constructor|]. apply nodup_app; [apply H1; now left|apply IH; [intros; apply H1; now right|intros; eapply H2; eauto; now right]|].
  intros z Hz Hv. apply in_flat_map in Hv as (y & Hy & Hz'). eapply (H2 x y); eauto; [now left|now right|congruence]. Qed.
Section AxesIter.
  Variables (dflt : order) (l : layout) (axes : axes_index) (v : list Z) (ax : list nat) (o : iter_order).
  Hypotheses (S : safe l) (L : lists_axes axes v) (Nv : v <> []) (D : Forall2 (axis_denotes (ndim l)) v ax) (ND : NoDup ax).
  Let n := ndim l.
  Let rest := axes_except n ax.
  Hypothesis Sr : size (pick rest 0%nat (l_shape l)) <> 0%nat.
  Let B : forall a, In a ax -> (a < n)%nat := denotes_lt _ _ _ D.
  Definition inner : layout := sub rest l.
  Lemma axes_iter_new_ok : axes_iter_new dflt l axes o = let* it := iter_layout_new dflt Dyn (sub ax l) o in Ok (mkAxesIter it inner).
  Proof. unfold axes_iter_new. rewrite (axes_iter_axes_ok _ _ _ _ L Nv D ND). cbn [bind]. rewrite (zget_map _ 0%nat) by exact B. cbn [bind].
    rewrite (zget_map _ 0); [|intros a Ha; destruct S as [[W _] _]; rewrite W; now apply B]. cbn [bind]. rewrite except_z. reflexivity. Qed.
  (** the view handed out for position [addr (sub ax l) sx] shows the elements of [l] with index [sx] on the axes [ax] *)
  Definition view_at (sx : list nat) (w : layout) : Prop :=
    l_shape w = pick rest 0%nat (l_shape l) /\
    forall jx, valid (l_shape w) jx -> valid (l_shape l) (merge n ax sx jx) /\ addr w jx = addr l (merge n ax sx jx).
  Lemma view_at_ok sx : valid (pick ax 0%nat (l_shape l)) sx -> view_at sx (with_offset inner (addr (sub ax l) sx)).
  Proof. intro V. split; [reflexivity|]. intros jx Vj. cbn [with_offset inner sub l_shape] in Vj. split; [now apply merge_valid|].
    rewrite merge_addr; auto; [|apply S|apply valid_length in V; now rewrite pick_length in V|apply valid_length in Vj; now rewrite pick_length in Vj].
    fold n. fold rest. unfold addr. cbn [with_offset inner sub l_stride l_offset]. lia. Qed.
  Lemma views_cover : Permutation (flat_map (addrs RowMajor) (map (fun sx => with_offset inner (addr (sub ax l) sx)) (row_major (pick ax 0%nat (l_shape l))))) (addrs RowMajor l).
  Proof. rewrite flat_map_map. unfold addrs at 2. cbn [enum].
    assert (E : flat_map (fun sx => addrs RowMajor (with_offset inner (addr (sub ax l) sx))) (row_major (pick ax 0%nat (l_shape l))) =
      map (addr l) (flat_map (fun sx => map (merge n ax sx) (row_major (pick rest 0%nat (l_shape l)))) (row_major (pick ax 0%nat (l_shape l))))).
    { rewrite map_flat_map. apply flat_map_ext_in. intros sx V. apply in_row_major in V. rewrite map_map. unfold addrs. cbn [enum with_offset inner sub l_shape]. apply map_ext_in. intros jx Vj. apply in_row_major in Vj.
      now apply (view_at_ok sx V). }
    rewrite E. apply Permutation_map. apply NoDup_Permutation.
    - apply nodup_flat_map'.
      + apply (enum_nodup RowMajor).
      + intros sx V. apply in_row_major in V. apply NoDup_map_inj_in; [|apply (enum_nodup RowMajor)]. intros x y Hx Hy. apply in_row_major in Hx, Hy.
        intro X. assert (Ls : length sx = length ax) by (apply valid_length in V; now rewrite pick_length in V).
        assert (Lx : forall z, valid (pick rest 0%nat (l_shape l)) z -> length z = length (axes_except n ax)) by (intros z Vz; apply valid_length in Vz; now rewrite pick_length in Vz).
        destruct (merge_spec n ax sx x ND B Ls (Lx _ Hx)) as (_ & _ & <-). rewrite X. now apply merge_spec; auto.
      + intros sx sx' ix V V' N0 H H'. apply in_row_major in V, V'. apply in_map_iff in H as (jx & <- & Vj). apply in_map_iff in H' as (jx' & X & Vj'). apply in_row_major in Vj, Vj'.
        assert (Ls : forall z, valid (pick ax 0%nat (l_shape l)) z -> length z = length ax) by (intros z Vz; apply valid_length in Vz; now rewrite pick_length in Vz).
        assert (Lx : forall z, valid (pick rest 0%nat (l_shape l)) z -> length z = length (axes_except n ax)) by (intros z Vz; apply valid_length in Vz; now rewrite pick_length in Vz).
        apply N0. destruct (merge_spec n ax sx jx ND B (Ls _ V) (Lx _ Vj)) as (_ & <- & _). rewrite <- X. now apply merge_spec; auto.
    - apply (enum_nodup RowMajor).
    - intro ix. rewrite in_flat_map, in_row_major. split.
      + intros (sx & V & H). apply in_row_major in V. apply in_map_iff in H as (jx & <- & Vj). apply in_row_major in Vj. now apply merge_valid.
      + intro V. exists (pick ax 0%nat ix). split; [apply in_row_major; now apply valid_pick_some|]. apply in_map_iff. exists (pick rest 0%nat ix).
        split; [apply merge_split; auto; now apply valid_length in V|]. apply in_row_major. apply valid_pick_some; auto. intros a Ha. unfold rest, axes_except in Ha. apply filter_In in Ha as [Ha _]. apply in_seq in Ha. unfold n, ndim in Ha. lia. Qed.

  Definition views_spec (sxs : list (list nat)) (vs : list layout) : Prop :=
    Forall2 view_at sxs vs /\ Permutation (flat_map (addrs RowMajor) vs) (addrs RowMajor l).
  Definition in_axes_order (sxs : list (list nat)) : Prop :=
    Permutation sxs (row_major (pick ax 0%nat (l_shape l))) /\
    (o = OC -> sxs = row_major (pick ax 0%nat (l_shape l))) /\ (o = OF -> sxs = col_major (pick ax 0%nat (l_shape l))) /\
    (o = OA -> sxs = enum dflt (pick ax 0%nat (l_shape l))).
  Lemma axes_iter_collect : o <> OB -> (o = OK \/ o = OG -> good (sub ax l)) ->
    exists it sxs ps, axes_iter_new dflt l axes o = Ok it /\ in_axes_order sxs /\ ai_inner it = inner /\
      inv (il_order (ai_iter it)) (il_iter (ai_iter it)) /\ pending (il_order (ai_iter it)) (il_iter (ai_iter it)) = ps /\
      size (l_shape (it_layout (il_iter (ai_iter it)))) = size (pick ax 0%nat (l_shape l)) /\
      ps = map (addr (sub ax l)) sxs /\ views_spec sxs (map (with_offset inner) ps).
  Proof. intros HB HG. destruct (sub_safe l ax S ND B Sr) as [W N]. rewrite axes_iter_new_ok.
    assert (M : exists it sxs, iter_layout_new dflt Dyn (sub ax l) o = Ok it /\ in_axes_order sxs /\ inv (il_order it) (il_iter it) /\ 
      size (l_shape (it_layout (il_iter it))) = size (pick ax 0%nat (l_shape l)) /\ pending (il_order it) (il_iter it) = map (addr (sub ax l)) sxs).
    { assert (X : forall q it, il_order it = q -> inv q (il_iter it) -> it_layout (il_iter it) = sub ax l -> pending q (il_iter it) = addrs q (sub ax l) ->
        iter_layout_new dflt Dyn (sub ax l) o = Ok it -> in_axes_order (enum q (pick ax 0%nat (l_shape l))) -> exists it sxs, iter_layout_new dflt Dyn (sub ax l) o = Ok it /\ in_axes_order sxs /\ inv (il_order it) (il_iter it) /\ 
      size (l_shape (it_layout (il_iter it))) = size (pick ax 0%nat (l_shape l)) /\ pending (il_order it) (il_iter it) = map (addr (sub ax l)) sxs).
      { intros q it Q I Li P E O. exists it, (enum q (pick ax 0%nat (l_shape l))). rewrite Q, Li. auto 10. }
      assert (Y : o = OK \/ o = OG -> exists it sxs, iter_layout_new dflt Dyn (sub ax l) o = Ok it /\ in_axes_order sxs /\ inv (il_order it) (il_iter it) /\ 
        size (l_shape (it_layout (il_iter it))) = size (pick ax 0%nat (l_shape l)) /\ pending (il_order it) (il_iter it) = map (addr (sub ax l)) sxs).
      { intro Ho. destruct (greedy_keep_ok (sub ax l) (HG Ho)) as (l' & p & f & E & P & R & W' & N' & _).
        destruct (iter_new_inv ColMajor Dyn l' W' N') as (it & E1 & I & L1 & Pn). exists (mkIterLayout ColMajor it), (map f (enum ColMajor (l_shape l'))).
        split; [destruct Ho as [-> | ->]; unfold iter_layout_new, translate_unary; rewrite E; cbn [bind fst]; now rewrite E1|].
        split; [split; [exact (renames_enum f _ _ ColMajor RowMajor R)|destruct Ho as [-> | ->]; split; [discriminate|split; discriminate|discriminate|split; discriminate]]|].
        split; [exact I|]. cbn [il_iter il_order]. split; [rewrite L1; apply R|]. rewrite Pn. now rewrite (renames_addrs f _ _ ColMajor R). }
      destruct o eqn:Eo; auto; try congruence.
      - destruct (new_order dflt Dyn (sub ax l) RowMajor W N) as (it & E & Q & I & Li & P). apply (X RowMajor it); auto. split; [apply (enum_perm RowMajor RowMajor)|]. split; [auto|]. split; intro; congruence.
      - destruct (new_order dflt Dyn (sub ax l) ColMajor W N) as (it & E & Q & I & Li & P). apply (X ColMajor it); auto. split; [apply (enum_perm ColMajor RowMajor)|]. split; [intro; congruence|]. split; [auto|intro; congruence].
      - destruct (new_dflt dflt Dyn (sub ax l) W N) as (it & E & Q & I & Li & P). apply (X dflt it); auto. split; [apply (enum_perm dflt RowMajor)|]. split; [intro; congruence|]. split; [intro; congruence|auto]. }
    destruct M as (it & sxs & E & O & I & Sz & P). rewrite E. cbn [bind]. exists (mkAxesIter it inner), sxs, (map (addr (sub ax l)) sxs). cbn [ai_inner ai_iter].
    split; auto. split; auto. split; auto. split; auto. split; auto. split; auto. split; auto. rewrite map_map. split.
    - assert (V : forall sx, In sx sxs -> valid (pick ax 0%nat (l_shape l)) sx) by (intros sx H; apply in_row_major; eapply Permutation_in; [apply O|auto]).
      revert V; clear O E P; intro V; induction sxs as [|sx sxs IH]; cbn; [constructor|]. constructor; [apply view_at_ok, V; now left|apply IH; intros; apply V; now right].
    - rewrite <- views_cover. apply Permutation_flat_map. apply Permutation_map. apply O. Qed.
  Lemma axes_run_map ops : forall it outs it', run_calls Dyn ops (ai_iter it) = Ok (outs, it') ->
    axes_iter_run ops it = Ok (map (option_map (with_offset (ai_inner it))) outs, mkAxesIter it' (ai_inner it)).
  Proof. induction ops as [|op ops IH]; intros [it inn] outs it' H; cbn [run_calls axes_iter_run ai_iter ai_inner] in *; [injection H as <- <-; reflexivity|].
    destruct op; unfold axes_iter_next, axes_iter_next_back, axes_iter_split_at; cbn [ai_iter ai_inner]; apply bind_ok in H as ([p q] & H1 & H); rewrite H1; cbn [bind fst snd] in *.
    - apply bind_ok in H as ([outs' q'] & H2 & H). injection H as <- <-. rewrite (IH (mkAxesIter q inn) outs' q') by auto. reflexivity.
    - apply bind_ok in H as ([outs' q'] & H2 & H). injection H as <- <-. rewrite (IH (mkAxesIter q inn) outs' q') by auto. reflexivity.
    - now apply (IH (mkAxesIter p inn)).
    - now apply (IH (mkAxesIter q inn)). Qed.
  Lemma deque_map {A C} (g : A -> C) ops : forall xs, deque ops (map g xs) = (map (option_map g) (fst (deque ops xs)), map g (snd (deque ops xs))).
  Proof. induction ops as [|op ops IH]; intro xs; cbn [deque]; auto. destruct op.
    - destruct xs as [|x xs]; cbn [map]; [pose proof (IH []) as X; cbn [map] in X; rewrite X; reflexivity|rewrite IH; reflexivity].
    - rewrite <- map_rev. destruct (rev xs) as [|x r]; cbn [map]; [pose proof (IH []) as X; cbn [map] in X; rewrite X; reflexivity|]. rewrite <- map_rev, IH. reflexivity.
    - rewrite firstn_map. apply IH.
    - rewrite skipn_map. apply IH. Qed.
  Lemma axes_iter_runs it ps ops : inv (il_order (ai_iter it)) (il_iter (ai_iter it)) -> pending (il_order (ai_iter it)) (il_iter (ai_iter it)) = ps ->
    size (l_shape (it_layout (il_iter (ai_iter it)))) <> 0%nat \/ Forall (fun op => op = Front \/ op = Back) ops -> splits_within ops (map (with_offset (ai_inner it)) ps) ->
    exists it', axes_iter_run ops it = Ok (fst (deque ops (map (with_offset (ai_inner it)) ps)), it') /\ axes_iter_views it' = Ok (snd (deque ops (map (with_offset (ai_inner it)) ps))).
  Proof. intros I P Sz SW. destruct (run_calls_ok Dyn ops (ai_iter it) I Sz) as (it' & R & Q & Li & I' & P').
    { rewrite P. clear - SW. revert ps SW. induction ops as [|op ops IH]; intros ps SW; cbn [splits_within] in *; auto. destruct op; cbn in SW |- *.
      - apply IH. now destruct ps.
      - rewrite <- map_rev in SW. apply IH. destruct (rev ps) as [|x r]; cbn in SW; [exact SW|]. cbn. now rewrite map_rev.
      - rewrite map_length, firstn_map in SW. split; [apply SW|apply IH; apply SW].
      - rewrite map_length, skipn_map in SW. split; [apply SW|apply IH; apply SW]. }
    exists (mkAxesIter it' (ai_inner it)). rewrite (axes_run_map _ _ _ _ R), P, deque_map. split; auto. unfold axes_iter_views. cbn [ai_iter ai_inner]. rewrite collect_ok by auto. cbn [bind]. now rewrite P', P. Qed.
End AxesIter.
