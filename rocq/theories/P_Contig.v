(** Contiguous constructors, unravelling, equality, diagonals: proofs about M_Layout. *)
From Verif Require Import Base Spec P_Index P_List M_Layout P_Layout P_Bounds.
Local Open Scope Z_scope.

(** ** contiguous constructors *)
Lemma cum_strides_length g s acc : length (cum_strides g s acc) = length s.
Proof. revert acc; induction s; intro; cbn; auto. Qed.
Lemma cum_strides_dot g s acc ix : (forall d, (0 < d)%nat -> g d = d) -> valid s ix ->
  dot (cum_strides g s acc) ix = acc * Z.of_nat (rav_f s ix).
Proof. intros Hg Hv. revert acc; induction Hv as [|i d ix s Hi Hv IH]; intro acc; cbn [cum_strides dot rav_f].
  - lia.
  - rewrite IH, Hg by lia. rewrite Nat2Z.inj_add, Nat2Z.inj_mul. ring. Qed.
Lemma max1_id d : (0 < d)%nat -> max1 d = d. Proof. unfold max1. lia. Qed.
Lemma stride_f_dot k s ix : valid s ix -> dot (stride_f_contig k s) ix = Z.of_nat (rav_f s ix).
Proof. intro Hv. destruct k; cbn; [unfold stride_f_fixed|unfold stride_f_dyn];
  (rewrite cum_strides_dot; [lia| |auto]); auto using max1_id. Qed.
Lemma stride_c_rev k s : stride_c_contig k s = rev (stride_f_contig k (rev s)).
Proof. destruct k; reflexivity. Qed.
Lemma stride_f_length k s : length (stride_f_contig k s) = length s.
Proof. destruct k; apply cum_strides_length. Qed.
Lemma stride_c_length k s : length (stride_c_contig k s) = length s.
Proof. rewrite stride_c_rev, rev_length, stride_f_length. apply rev_length. Qed.
Lemma stride_c_dot k s ix : valid s ix -> dot (stride_c_contig k s) ix = Z.of_nat (rav_c s ix).
Proof. intro Hv. rewrite stride_c_rev. pose proof (valid_length _ _ Hv) as Hl.
  rewrite <- (rev_involutive ix) at 1. rewrite dot_rev by (rewrite stride_f_length, !rev_length; auto).
  rewrite stride_f_dot by now apply valid_rev. now rewrite <- rav_c_rev. Qed.
Lemma new_contig_wf k s off o : 0 <= off -> wf (new_contig k s off o).
Proof. intro. destruct o; split; cbn; auto; [apply stride_c_length|apply stride_f_length]. Qed.
Lemma new_f_contig_addrs k s off : map (addr (new_f_contig k s off)) (col_major s) = consecutive off (size s).
Proof. rewrite <- length_col_major. change off with (l_offset (new_f_contig k s off)) at 2.
  apply map_addr_consecutive with (f := rav_f s). rewrite length_col_major. apply map_rav_f_col_major.
  intros ix Hi. apply in_col_major in Hi. now apply stride_f_dot. Qed.
Lemma new_c_contig_addrs k s off : map (addr (new_c_contig k s off)) (row_major s) = consecutive off (size s).
Proof. rewrite <- length_row_major. change off with (l_offset (new_c_contig k s off)) at 2.
  apply map_addr_consecutive with (f := rav_c s). rewrite length_row_major. apply map_rav_c_row_major.
  intros ix Hi. apply in_row_major in Hi. now apply stride_c_dot. Qed.
Lemma new_f_contig_f k s off : 0 <= off -> f_contig (new_f_contig k s off) = true.
Proof. intro Ho. destruct (Nat.eq_dec (size s) 0) as [E|E].
  - unfold f_contig, ndim_of_f_contig, l_size. cbn [l_shape new_f_contig]. rewrite E, orb_true_r. apply Nat.eqb_refl.
  - apply f_contig_iff; auto. apply (new_contig_wf k s off ColMajor Ho). apply new_f_contig_addrs. Qed.
Lemma new_c_contig_c k s off : 0 <= off -> c_contig (new_c_contig k s off) = true.
Proof. intro Ho. destruct (Nat.eq_dec (size s) 0) as [E|E].
  - unfold c_contig, ndim_of_c_contig, l_size. cbn [l_shape new_c_contig]. rewrite E, orb_true_r. apply Nat.eqb_refl.
  - apply c_contig_iff; auto. apply (new_contig_wf k s off RowMajor Ho). apply new_c_contig_addrs. Qed.

(** ** unravel *)
Lemma unravel_f_loop_ok s k : (k < size s)%nat -> unravel_f_loop s k = Ok (unrav_f s k).
Proof. revert k; induction s as [|d s IH]; intros k Hk; [reflexivity|].
  destruct s as [|e s]; [reflexivity|]. rewrite size_cons in Hk.
  change (unravel_f_loop (d :: e :: s) k) with (if (d =? 0)%nat then Panic else let* r := unravel_f_loop (e :: s) (k / d)%nat in Ok ((k mod d)%nat :: r)).
  destruct (Nat.eqb_spec d 0) as [->|Hd]; [lia|].
  rewrite IH. reflexivity. apply Nat.div_lt_upper_bound; auto. Qed.
Lemma div3 k a b : a <> 0%nat -> b <> 0%nat -> ((k mod (a * b)) / a = (k / a) mod b)%nat /\ ((k mod (a * b)) mod a = k mod a)%nat.
Proof. intros Ha Hb. rewrite Nat.mod_mul_r by auto. split.
  - rewrite Nat.mul_comm, Nat.div_add by auto. rewrite Nat.div_small. lia. apply Nat.mod_upper_bound; auto.
  - rewrite Nat.mul_comm, Nat.mod_add by auto. apply Nat.mod_mod; auto. Qed.
Lemma ndiv_ok a b : b <> 0%nat -> ndiv a b = Ok (a / b)%nat.
Proof. unfold ndiv. intro. destruct (Nat.eqb_spec b 0); [lia|auto]. Qed.
Lemma nmod_ok a b : b <> 0%nat -> nmod a b = Ok (a mod b)%nat.
Proof. unfold nmod. intro. destruct (Nat.eqb_spec b 0); [lia|auto]. Qed.
Lemma unravel_f_fixed_ok s k : (k < size s)%nat -> unravel_f_fixed s k = Ok (unrav_f s k).
Proof. intro Hk. destruct s as [|a [|b [|c [|d [|e s]]]]]; try reflexivity.
  - rewrite !size_cons in Hk. assert (a <> 0%nat) by (intros ->; lia).
    cbn [unravel_f_fixed]. rewrite ndiv_ok, nmod_ok by auto. reflexivity.
  - rewrite !size_cons in Hk. assert (a <> 0%nat) by (intros ->; lia). assert (b <> 0%nat) by (intros ->; lia).
    assert (a * b <> 0)%nat by nia. destruct (div3 k a b) as [E1 E2]; auto.
    cbn [unravel_f_fixed]. repeat (rewrite ndiv_ok by auto; cbn [bind]). repeat (rewrite nmod_ok by auto; cbn [bind]).
    rewrite !ndiv_ok by auto. cbn [bind]. rewrite ?nmod_ok by auto. cbn [bind unrav_f].
    rewrite E1, E2, Nat.div_div by auto. reflexivity.
  - rewrite !size_cons in Hk. assert (a <> 0%nat) by (intros ->; lia). assert (b <> 0%nat) by (intros ->; lia).
    assert (c <> 0%nat) by (intros ->; lia).
    assert (a * b <> 0)%nat by nia. assert (a * b * c <> 0)%nat by nia.
    set (k1 := (k mod (a * b * c))%nat).
    destruct (div3 k (a * b) c) as [E1 E2]; auto. fold k1 in E1, E2.
    destruct (div3 k1 a b) as [E3 E4]; auto.
    destruct (div3 k a b) as [E5 E6]; auto.
    cbn [unravel_f_fixed]. rewrite ndiv_ok by auto; cbn [bind]. rewrite nmod_ok by auto; cbn [bind]. fold k1.
    rewrite ndiv_ok by auto; cbn [bind]. rewrite nmod_ok by auto; cbn [bind].
    rewrite ndiv_ok by auto; cbn [bind]. rewrite nmod_ok by auto; cbn [bind unrav_f].
    rewrite E2 in *. rewrite E5, E6, E1. rewrite !Nat.div_div by auto. reflexivity.
  - apply unravel_f_loop_ok; auto. Qed.
Lemma unravel_c_fixed_f s k : unravel_c_fixed s k =
   match length s with 2 | 3 | 4 => (let* r := unravel_f_fixed (rev s) k in Ok (rev r)) | _ => unravel_c_loop s k end%nat.
Proof. destruct s as [|a [|b [|c [|d [|e s]]]]]; try reflexivity.
  - cbn. destruct (ndiv k b); cbn; auto. destruct (nmod k b); auto.
  - cbn. rewrite (Nat.mul_comm b c). repeat (match goal with |- context [ndiv ?x ?y] => destruct (ndiv x y) | |- context [nmod ?x ?y] => destruct (nmod x y) end; cbn; auto).
  - cbn. replace (b * c * d)%nat with (d * c * b)%nat by lia. rewrite (Nat.mul_comm c d).
    repeat (match goal with |- context [ndiv ?x ?y] => destruct (ndiv x y) | |- context [nmod ?x ?y] => destruct (nmod x y) end; cbn; auto). Qed.
Lemma unravel_f_ok ty s k : (k < size s)%nat -> unravel_index_f ty s k = Ok (unrav_f s k).
Proof. destruct ty; [apply unravel_f_fixed_ok|apply unravel_f_loop_ok]. Qed.
Lemma unravel_c_ok ty s k : (k < size s)%nat -> unravel_index_c ty s k = Ok (rev (unrav_f (rev s) k)).
Proof. intro Hk. assert (Hk' : (k < size (rev s))%nat) by now rewrite size_rev.
  assert (E : unravel_c_loop s k = Ok (rev (unrav_f (rev s) k))).
  { unfold unravel_c_loop. now rewrite unravel_f_loop_ok. }
  destruct ty; cbn [unravel_index_c]; auto. rewrite unravel_c_fixed_f.
  destruct (length s) as [|[|[|[|[|n]]]]]; auto; now rewrite unravel_f_fixed_ok. Qed.

(** ** equality *)
Lemma eq_loop_spec sh st1 sh2 st2 : length sh = length sh2 -> length st1 = length sh -> length st2 = length sh2 ->
  eq_loop sh sh2 st1 st2 = true <->
  sh = sh2 /\ forall k, (k < length sh)%nat -> (1 < nth k sh 0)%nat -> nth k st1 0 = nth k st2 0.
Proof. revert st1 sh2 st2; induction sh as [|d sh IH]; intros [|t1 st1] [|d2 sh2] [|t2 st2] H1 H2 H3; try discriminate.
  - cbn. split; [|reflexivity]. intros _. split; [reflexivity|]. intros k Hk. inversion Hk.
  - cbn in H1, H2, H3. cbn [eq_loop hd tl]. destruct (Nat.eqb_spec d d2) as [<-|E]; cbn [negb].
    + destruct (negb (d =? 1)%nat && negb (d =? 0)%nat && negb (t1 =? t2)) eqn:E1.
      * split; [discriminate|]. intros [_ H]. specialize (H 0%nat). cbn in H. lia.
      * rewrite IH by lia. split.
        -- intros [-> H]. split; auto. intros [|k] Hk; cbn [nth]; [lia|]. apply H. cbn in Hk. lia.
        -- intros [E H]. injection E as ->. split; auto. intros k Hk. apply (H (S k)). cbn; lia.
    + split; [discriminate|]. intros [E1 _]. congruence. Qed.
Lemma layout_eqb_spec a b : wf a -> wf b -> layout_eqb a b = true <->
  l_shape a = l_shape b /\ l_offset a = l_offset b /\
  forall k, (k < ndim a)%nat -> (1 < nth k (l_shape a) 0)%nat -> nth k (l_stride a) 0 = nth k (l_stride b) 0.
Proof. intros [Ha _] [Hb _]. unfold layout_eqb, ndim.
  destruct (Nat.eqb_spec (length (l_shape a)) (length (l_shape b))) as [E|E]; cbn [negb].
  - destruct (Z.eqb_spec (l_offset a) (l_offset b)) as [E2|E2]; cbn [negb].
    + rewrite eq_loop_spec by auto. tauto.
    + split; [discriminate|tauto].
  - split; [discriminate|]. intros (H & _). congruence. Qed.
Lemma dot_ext sh st1 st2 ix : length st1 = length sh -> length st2 = length sh ->
  (forall k, (k < length sh)%nat -> (1 < nth k sh 0)%nat -> nth k st1 0 = nth k st2 0) ->
  valid sh ix -> dot st1 ix = dot st2 ix.
Proof. intros H1 H2 H Hv. revert st1 st2 H1 H2 H; induction Hv as [|i d ix sh Hi Hv IH]; intros [|t1 st1] [|t2 st2] H1 H2 H; try discriminate; auto.
  cbn in H1, H2. cbn [dot]. rewrite (IH st1 st2) by (try lia; intros k Hk; apply (H (S k)); cbn; lia).
  destruct (Nat.eq_dec i 0); [subst; lia|]. assert (t1 = t2) as -> by (apply (H 0%nat); cbn; lia). reflexivity. Qed.
Lemma layout_eqb_same_addr a b : wf a -> wf b -> layout_eqb a b = true ->
  l_shape a = l_shape b /\ forall ix, valid (l_shape a) ix -> addr a ix = addr b ix.
Proof. intros Ha Hb H. apply layout_eqb_spec in H; auto. destruct H as (H1 & H2 & H3). split; auto.
  intros ix Hv. unfold addr. rewrite H2. f_equal. apply dot_ext with (sh := l_shape a); auto; try apply Ha.
  rewrite H1. apply Hb. Qed.
(** unit index vectors *)
Definition unit_ix (n k : nat) : list nat := upd (repeat 0%nat n) k 1%nat.
Lemma dot_unit st n k : length st = n -> (k < n)%nat -> dot st (unit_ix n k) = nth k st 0.
Proof. unfold unit_ix. revert n k; induction st as [|t st IH]; intros n k H Hk; cbn in H; [lia|].
  destruct n as [|n]; [lia|]. destruct k as [|k]; cbn [repeat upd dot nth].
  - rewrite dot_zeros. lia. - rewrite IH by lia. lia. Qed.
Lemma valid_unit s k : size s <> 0%nat -> (k < length s)%nat -> (1 < nth k s 0)%nat -> valid s (unit_ix (length s) k).
Proof. intros Hs Hk Hd. apply valid_zeros in Hs. apply valid_nth in Hs. destruct Hs as [Hl Hs]. apply valid_nth.
  unfold unit_ix. rewrite upd_length, repeat_length. split; auto. intros j Hj. rewrite nth_upd, repeat_length.
  specialize (Hs j Hj). destruct (Nat.eqb_spec k j); cbn [andb]; [|auto]. subst. destruct (Nat.ltb_spec j (length s)); lia. Qed.
Lemma same_addr_layout_eqb a b : wf a -> wf b -> size (l_shape a) <> 0%nat ->
  l_shape a = l_shape b -> (forall ix, valid (l_shape a) ix -> addr a ix = addr b ix) -> layout_eqb a b = true.
Proof. intros Ha Hb Hs H1 H. assert (E : l_offset a = l_offset b).
  { pose proof (H _ (valid_zeros _ Hs)) as H0. unfold addr in H0. rewrite !dot_zeros in H0. lia. }
  apply layout_eqb_spec; auto. repeat split; auto. intros k Hk Hd.
  pose proof (H _ (valid_unit _ _ Hs Hk Hd)) as H0. unfold addr in H0.
  rewrite !dot_unit in H0; auto; try apply Ha. lia. rewrite H1; apply Hb. Qed.
Lemma layout_eqb_refl a : wf a -> layout_eqb a a = true.
Proof. intro. apply layout_eqb_spec; auto. Qed.
Lemma layout_eqb_sym a b : wf a -> wf b -> layout_eqb a b = true -> layout_eqb b a = true.
Proof. intros Ha Hb. rewrite !layout_eqb_spec; auto. intros (H1 & H2 & H3). repeat split; auto.
  intros k Hk Hd. symmetry. apply H3; [unfold ndim in *; now rewrite H1|now rewrite H1]. Qed.
Lemma layout_eqb_trans a b c : wf a -> wf b -> wf c -> layout_eqb a b = true -> layout_eqb b c = true -> layout_eqb a c = true.
Proof. intros Ha Hb Hc. rewrite !layout_eqb_spec; auto. intros (H1 & H2 & H3) (H4 & H5 & H6). repeat split; try congruence.
  intros k Hk Hd. rewrite H3; auto. apply H6; unfold ndim in *; rewrite <- H1; auto. Qed.

(** ** diagonal *)
Definition rest_axes (n a1 a2 : nat) : list nat := filter (fun k => negb (k =? a1)%nat && negb (k =? a2)%nat) (seq 0 n).
Lemma rest_axes_except n a1 a2 : rest_axes n a1 a2 = axes_except n [a1; a2].
Proof. unfold rest_axes, axes_except. apply filter_ext. intro k. cbn. now rewrite orb_false_r, negb_orb. Qed.
Lemma drop2_pick {A} (l : list A) a1 a2 d : drop2 l a1 a2 = pick (rest_axes (length l) a1 a2) d l.
Proof. unfold drop2, pick, rest_axes. rewrite <- (map_nth_seq d l) at 2.
  generalize (seq 0 (length l)) as q. intro q. induction q as [|x q IH]; [reflexivity|].
  cbn [map combine filter fst]. destruct (negb (x =? a1)%nat && negb (x =? a2)%nat); cbn [map snd]; rewrite IH; reflexivity. Qed.
Lemma rest_perm n a1 a2 : (a1 < n)%nat -> (a2 < n)%nat -> a1 <> a2 -> Permutation (rest_axes n a1 a2 ++ [a1; a2]) (seq 0 n).
Proof. intros H1 H2 Hne. unfold rest_axes. apply NoDup_Permutation.
  - rewrite <- (rev_involutive (_ ++ _)). apply NoDup_rev. rewrite rev_app_distr. cbn.
    repeat constructor.
    + cbn. rewrite <- in_rev, filter_In. intros [->|[_ H]]; [congruence|]. rewrite Nat.eqb_refl, andb_false_r in H. discriminate.
    + rewrite <- in_rev, filter_In. intros [_ H]. rewrite Nat.eqb_refl in H. discriminate.
    + apply NoDup_rev, NoDup_filter, seq_NoDup.
  - apply seq_NoDup.
  - intro x. rewrite in_app_iff, filter_In, in_seq. cbn. split; [intuition lia|]. intro H.
    destruct (Nat.eqb_spec x a1); [subst; tauto|]. destruct (Nat.eqb_spec x a2); [subst; tauto|]. left. cbn. tauto. Qed.

Lemma diagonal_spec l off ax1 ax2 a1 a2 l' : wf l ->
  let o := match off with Some o => o | None => 0 end in
  axis_denotes (ndim l) (match ax1 with Some a => a | None => 0 end) a1 ->
  axis_denotes (ndim l) (match ax2 with Some a => a | None => 1 end) a2 -> a1 <> a2 ->
  let d1 := Z.of_nat (nth a1 (l_shape l) 0%nat) in
  let d2 := Z.of_nat (nth a2 (l_shape l) 0%nat) in
  ~ (d1 <= o < d2) -> ~ (d2 < o < d1) ->
  diagonal l off ax1 ax2 = Ok l' ->
  (forall ix, valid (l_shape l) ix -> Z.of_nat (nth a2 ix 0%nat) - Z.of_nat (nth a1 ix 0%nat) = o ->
     let jx := drop2 ix a1 a2 ++ [Nat.min (nth a1 ix 0%nat) (nth a2 ix 0%nat)] in
     valid (l_shape l') jx /\ addr l' jx = addr l ix) /\
  (forall jx, valid (l_shape l') jx -> exists ix, valid (l_shape l) ix /\
     Z.of_nat (nth a2 ix 0%nat) - Z.of_nat (nth a1 ix 0%nat) = o /\
     jx = drop2 ix a1 a2 ++ [Nat.min (nth a1 ix 0%nat) (nth a2 ix 0%nat)]).
Proof. intros [Hl Ho] o Ha1 Ha2 Hne d1 d2 Hn1 Hn2 H.
  unfold diagonal in H. destruct (ndim l <? 2)%nat; [discriminate|]. fold o in H.
  pose proof Ha1 as [Hb1 _]. pose proof Ha2 as [Hb2 _]. unfold ndim in Hb1, Hb2.
  apply check_axis_spec in Ha1, Ha2. rewrite Ha1 in H. cbn [bind] in H. rewrite Ha2 in H. cbn [bind] in H.
  fold d1 d2 in H. set (t1 := nth a1 (l_stride l) 0) in *. set (t2 := nth a2 (l_stride l) 0) in *.
  set (p1 := if o <? 0 then Z.to_nat (- o) else 0%nat). set (p2 := if o <? 0 then 0%nat else Z.to_nat o).
  set (rx := rest_axes (length (l_shape l)) a1 a2) in *. pose proof (rest_perm _ _ _ Hb1 Hb2 Hne) as Hperm. fold rx in Hperm.
  assert (Hsh : exists dd off', layout_new (drop2 (l_shape l) a1 a2 ++ [dd]) (drop2 (l_stride l) a1 a2 ++ [t1 + t2]) off' = Ok l'
     /\ dd = Z.to_nat (Z.min (d1 - Z.of_nat p1) (d2 - Z.of_nat p2)) /\ ((0 < dd)%nat -> off' = l_offset l + t1 * Z.of_nat p1 + t2 * Z.of_nat p2)).
  { unfold p1, p2. destruct ((- d1 + 1 <=? o) && (o <? 0)) eqn:E1.
    - eexists _, _. split; [exact H|]. rewrite as_usize_nonneg by lia. destruct (Z.ltb_spec o 0); [|lia]. split; [f_equal; lia|intros _; rewrite Z2Nat.id by lia; lia].
    - destruct ((0 <=? o) && (o <? d1)) eqn:E2.
      + eexists _, _. split; [exact H|]. rewrite as_usize_nonneg by lia. destruct (Z.ltb_spec o 0); [lia|]. split; [f_equal; lia|intros _; rewrite Z2Nat.id by lia; lia].
      + eexists _, _. split; [exact H|]. destruct (Z.ltb_spec o 0); split; try lia. }
  destruct Hsh as (dd & off' & Hnew & Edd & Eoff). clear H.
  assert (El : l' = mkLayout (drop2 (l_shape l) a1 a2 ++ [dd]) (drop2 (l_stride l) a1 a2 ++ [t1 + t2]) off').
  { unfold layout_new in Hnew. apply bind_ok in Hnew. destruct Hnew as (? & _ & Hnew). apply bind_ok in Hnew. destruct Hnew as (? & _ & Hnew). congruence. }
  subst l'. cbn [l_shape]. rewrite (drop2_pick (l_shape l) a1 a2 0%nat), (drop2_pick (l_stride l) a1 a2 0).
  rewrite Hl. fold rx.
  assert (Hpick : forall A (d : A) v, pick (rx ++ [a1; a2]) d v = pick rx d v ++ [nth a1 v d; nth a2 v d]).
  { intros. unfold pick. now rewrite map_app. }
  assert (Addr : forall ix k, valid (l_shape l) ix -> (0 < dd)%nat -> nth a1 ix 0%nat = (k + p1)%nat -> nth a2 ix 0%nat = (k + p2)%nat ->
     addr (mkLayout (pick rx 0%nat (l_shape l) ++ [dd]) (pick rx 0 (l_stride l) ++ [t1 + t2]) off') (pick rx 0%nat ix ++ [k]) = addr l ix).
  { intros ix k Hv Hdd E1 E2. unfold addr. cbn [l_offset l_stride]. rewrite (Eoff Hdd).
    rewrite dot_app by now rewrite !pick_length. cbn [dot].
    apply valid_length in Hv. rewrite <- (dot_pick (rx ++ [a1; a2]) (l_stride l) ix) by (rewrite Hv; auto).
    rewrite !Hpick, dot_app by now rewrite !pick_length. cbn [dot]. rewrite E1, E2. fold t1 t2. rewrite !Nat2Z.inj_add. ring. }
  split.
  - intros ix Hv Hd. rewrite (drop2_pick ix a1 a2 0%nat). pose proof (valid_length _ _ Hv) as Hlx. rewrite Hlx. fold rx.
    pose proof (valid_pick _ _ _ Hperm Hv) as Hv2. rewrite !Hpick in Hv2.
    apply valid_app in Hv2; [|now rewrite !pick_length]. destruct Hv2 as [Hv2 Hv3].
    apply valid_cons in Hv3. destruct Hv3 as [Hi1 Hv3]. apply valid_cons in Hv3. destruct Hv3 as [Hi2 _].
    set (i1 := nth a1 ix 0%nat) in *. set (i2 := nth a2 ix 0%nat) in *.
    assert (E1 : i1 = (Nat.min i1 i2 + p1)%nat) by (unfold p1; destruct (Z.ltb_spec o 0); lia).
    assert (E2 : i2 = (Nat.min i1 i2 + p2)%nat) by (unfold p2; destruct (Z.ltb_spec o 0); lia).
    assert (Hdd : (Nat.min i1 i2 < dd)%nat) by lia.
    split; [|apply Addr; auto; lia]. apply valid_app; [now rewrite !pick_length|]. split; auto. repeat constructor. auto.
  - intros jx Hv. apply valid_app_inv in Hv. destruct Hv as (r & kk & -> & Hr & Hk).
    apply valid_cons_inv in Hk. destruct Hk as (k & z & -> & Hk & Hz). apply valid_nil in Hz. subst z.
    assert (Hv2 : valid (pick (rx ++ [a1; a2]) 0%nat (l_shape l)) (r ++ [k + p1; k + p2]%nat)).
    { rewrite Hpick. apply valid_app; [now apply valid_length in Hr|]. split; auto. repeat constructor; lia. }
    apply valid_pick_inv in Hv2; auto. destruct Hv2 as (ix & Hv & E). rewrite Hpick in E.
    apply app_inj_2 in E; [|reflexivity]. destruct E as [-> E]. injection E as E1 E2.
    exists ix. split; auto. rewrite <- E1, <- E2. split; [unfold p1, p2; destruct (Z.ltb_spec o 0); lia|].
    rewrite (drop2_pick ix a1 a2 0%nat). rewrite (valid_length _ _ Hv). fold rx. do 2 f_equal. unfold p1, p2. destruct (Z.ltb_spec o 0); lia. Qed.

(** ** leading / trailing contiguous axes *)
Lemma combine_firstn' {A B} (a : list A) (b : list B) n : firstn n (combine a b) = combine (firstn n a) (firstn n b).
Proof. revert a b; induction n; intros [|x a] [|y b]; cbn; auto; try (now destruct (firstn n _)). now rewrite IHn. Qed.
Lemma ndim_of_f_contig_prefix l m : wf l -> size (l_shape l) <> 0%nat -> (m <= ndim l)%nat ->
  (m <= ndim_of_f_contig l)%nat <-> f_contig (mkLayout (firstn m (l_shape l)) (firstn m (l_stride l)) (l_offset l)) = true.
Proof. intros [Hl Ho] Hs Hm. unfold f_contig, ndim_of_f_contig, l_size, ndim in *. cbn [l_shape l_stride].
  assert (Hs' : size (firstn m (l_shape l)) <> 0%nat) by (pose proof (size_firstn_skipn m (l_shape l)); nia).
  replace (size (l_shape l) =? 0)%nat with false by lia. replace (size (firstn m (l_shape l)) =? 0)%nat with false by lia.
  rewrite !orb_false_r, firstn_length, Nat.min_l by auto.
  destruct (Nat.eqb_spec m 0) as [->|E0]; [rewrite Nat.eqb_refl; split; [auto|lia]|].
  destruct (Nat.eqb_spec (length (l_shape l)) 0) as [E|E]; [lia|].
  pose proof (contig_loop_prefix (combine (l_stride l) (l_shape l)) 1 0 m) as C.
  rewrite combine_length, Hl, Nat.min_id, !Nat.add_0_l in C. rewrite (C Hm), combine_firstn', Nat.eqb_eq. split; intro; congruence. Qed.
Lemma ndim_of_c_contig_suffix l m : wf l -> size (l_shape l) <> 0%nat -> (m <= ndim l)%nat ->
  (m <= ndim_of_c_contig l)%nat <-> c_contig (mkLayout (skipn (ndim l - m) (l_shape l)) (skipn (ndim l - m) (l_stride l)) (l_offset l)) = true.
Proof. intros Hw Hs Hm. pose proof Hw as [Hl Ho]. rewrite c_contig_reverse by (split; cbn; [now rewrite !skipn_length, Hl|auto]).
  unfold reverse_axes. cbn [l_shape l_stride l_offset].
  pose proof (ndim_of_f_contig_prefix (reverse_axes l) m (reverse_wf l Hw)) as P.
  unfold ndim in *. cbn [l_shape l_stride l_offset reverse_axes] in P. rewrite rev_length, size_rev in P.
  assert (R : forall A (v : list A), length v = length (l_shape l) -> firstn m (rev v) = rev (skipn (length (l_shape l) - m) v)).
  { intros A v Hv. rewrite <- (firstn_skipn (length (l_shape l) - m) v) at 1. rewrite rev_app_distr, firstn_app.
    rewrite rev_length, skipn_length, Hv. replace (m - (length (l_shape l) - (length (l_shape l) - m)))%nat with 0%nat by lia.
    cbn. rewrite app_nil_r. apply firstn_all2. rewrite rev_length, skipn_length. lia. }
  rewrite !R in P by auto. rewrite <- (P Hs Hm). unfold ndim_of_c_contig, ndim_of_f_contig, ndim, l_size, reverse_axes. cbn [l_shape l_stride].
  now rewrite rev_length, size_rev, combine_rev. Qed.

Lemma NoDup_injective l : NoDup (map (addr l) (row_major (l_shape l))) -> injective l.
Proof. intros H i j Hi Hj E. apply in_row_major in Hi, Hj. revert Hi Hj. revert H.
  generalize (row_major (l_shape l)) as L. induction L as [|x L IH]; [easy|]. cbn. intros H Hi Hj. inversion H; subst.
  destruct Hi as [->|Hi], Hj as [->|Hj]; auto; exfalso; apply H2; [rewrite E|rewrite <- E]; now apply in_map. Qed.

Lemma layout_new_1d n t off : 0 <= off -> 0 < t -> layout_new [n] [t] off = Ok (mkLayout [n] [t] off).
Proof. intros Ho Ht. unfold layout_new. rewrite bounds_index_eq by reflexivity. cbn [l_shape l_stride l_offset ndim length Nat.eqb].
  unfold lo_part. cbn [map last_ix dot]. rewrite Z.min_r by lia.
  replace (0 <=? off + (0 * Z.of_nat (n - 1) + 0)) with true by lia.
  replace (bind _ _) with (bind (check_strides (mkLayout [n] [t] off) true) (fun _ => Ok (mkLayout [n] [t] off)))
    by (destruct (size [n] =? 0)%nat; reflexivity).
  unfold check_strides. cbn [l_shape l_stride length Nat.eqb negb]. destruct (_ || _); [reflexivity|].
  unfold sorted_axes. cbn [l_shape l_stride combine filter fst]. destruct (1 <? n)%nat; [|reflexivity].
  cbn [sort_by fold_right insert_sorted map fst snd strides_loop]. rewrite andb_true_r.
  destruct (Z.eqb_spec (Z.abs t) 0); [lia|]. destruct (Z.ltb_spec 0 (Z.abs t)); [reflexivity|lia]. Qed.
Lemma diagonal_tall : exists l', diagonal (mkLayout [5; 2]%nat [2; 1] 0) (Some 3) None None = Ok l' /\
  l_shape l' = [Z.to_nat (2 ^ 64 - 1)].
Proof. exists (mkLayout [Z.to_nat (2 ^ 64 - 1)] [3] 3). split; [|reflexivity].
  rewrite <- layout_new_1d by lia. reflexivity. Qed.
