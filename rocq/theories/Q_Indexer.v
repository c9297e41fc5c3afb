(** Assembled statements for Properties_Indexer.v. *)
From Verif Require Import Base Spec P_Index P_List M_Layout P_Layout P_Bounds P_Contig P_Strides M_Indexer P_Indexer.
Local Open Scope Z_scope.

Lemma narrow_python : forall l axis a s, accepted l -> axis_denotes (ndim l) axis a ->
  let d := nth a (l_shape l) 0%nat in
  (unwrap_or (sl_step s) 1 <> 0 -> plain_slice s d ->
   exists l', dim_narrow l axis s = Ok l' /\ l_shape l' = upd (l_shape l) a (length (slice_positions s d)) /\
     forall jx, valid (l_shape l') jx ->
       exists i, nth_error (slice_positions s d) (nth a jx 0%nat) = Some (Z.of_nat i) /\
         valid (l_shape l) (upd jx a i) /\ addr l' jx = addr l (upd jx a i)) /\
  (unwrap_or (sl_step s) 1 = 0 -> exists e, dim_narrow l axis s = Err e).
Proof. intros l axis a s Hg Hd d. apply good_accepted in Hg. split; [|intro; now apply narrow_step0].
  intros Hst Hp. destruct (narrow_any l axis a s Hg Hd Hst) as (n & b & t & E & Ht & K & P). fold d in K, P. specialize (P Hp).
  exists (narrowed l a n b t). split; auto. rewrite P. split; [cbn; now rewrite map_length, seq_length|].
  intros jx Hj. cbn [narrowed l_shape] in Hj. pose proof (proj1 Hd) as Ha.
  assert (Hn : (nth a jx 0 < n)%nat). { pose proof Hj as H. apply valid_nth in H. destruct H as [_ H]. specialize (H a). rewrite upd_length, nth_upd_same in H by exact Ha. auto. }
  specialize (K _ Hn). exists (Z.to_nat (b + Z.of_nat (nth a jx 0%nat) * t)). split; [|split].
  - rewrite nth_error_map, nth_error_seq by auto. cbn [option_map]. f_equal. cbn [Nat.add]. lia.
  - eapply valid_upd; eauto. fold d. lia.
  - apply narrowed_addr; auto. apply Hg. lia. Qed.

Lemma narrow_low_start : exists l s, accepted l /\ sl_step s = Some (-1) /\ slice_positions s (nth 0 (l_shape l) 0%nat) = [] /\
  exists l', dim_narrow l 0 s = Ok l' /\ l_shape l' = [1%nat].
Proof. exists (mkLayout [3%nat] [1] 0), (mkSlice (Some (-4)) None (Some (-1))). repeat split; try reflexivity; cbn; try lia.
  eexists. split; reflexivity. Qed.
Lemma narrow_stop_m1 : exists l s, accepted l /\ sl_step s = Some (-1) /\ slice_positions s (nth 0 (l_shape l) 0%nat) = [] /\
  exists l', dim_narrow l 0 s = Ok l' /\ l_shape l' = [3%nat].
Proof. exists (mkLayout [3%nat] [1] 0), (mkSlice None (Some (-1)) (Some (-1))). repeat split; try reflexivity; cbn; try lia.
  eexists. split; reflexivity. Qed.

Lemma narrow_subview : forall l axis s l', accepted l -> dim_narrow l axis s = Ok l' ->
  exists a f, axis_denotes (ndim l) axis a /\ accepted l' /\ ndim l' = ndim l /\
    (forall jx, valid (l_shape l') jx -> valid (l_shape l) (f jx) /\ addr l' jx = addr l (f jx) /\
       forall k, k <> a -> nth k (f jx) 0%nat = nth k jx 0%nat) /\
    (forall jx jx', valid (l_shape l') jx -> valid (l_shape l') jx' -> f jx = f jx' -> jx = jx') /\
    (forall len, inside l len -> inside l' len).
Proof. intros l axis s l' Hg H. apply good_accepted in Hg.
  assert (D : exists a, axis_denotes (ndim l) axis a).
  { unfold dim_narrow in H. apply bind_ok in H. destruct H as (a & Ha & _). exists a. now apply check_axis_spec. }
  destruct D as [a Hd].
  assert (Hst : unwrap_or (sl_step s) 1 <> 0). { intro E. destruct (narrow_step0 l axis s E) as [e E']. congruence. }
  destruct (narrow_any l axis a s Hg Hd Hst) as (n & b & t & E & Ht & K & P). rewrite E in H. injection H as <-. pose proof (proj1 Hd) as Ha.
  assert (Hn : forall jx, valid (l_shape (narrowed l a n b t)) jx -> (nth a jx 0 < n)%nat /\ length jx = ndim l).
  { intros jx Hj. apply valid_nth in Hj. cbn [narrowed l_shape] in Hj. rewrite upd_length in Hj. destruct Hj as [L H]. specialize (H a Ha). rewrite nth_upd_same in H by exact Ha. auto. }
  exists a, (fun jx => upd jx a (Z.to_nat (b + Z.of_nat (nth a jx 0%nat) * t))). split; auto.
  split. { apply good_accepted. apply narrowed_good; auto. } split. { unfold ndim. cbn. now rewrite upd_length. }
  assert (M : forall jx, valid (l_shape (narrowed l a n b t)) jx -> valid (l_shape l) (upd jx a (Z.to_nat (b + Z.of_nat (nth a jx 0%nat) * t))) /\
     addr (narrowed l a n b t) jx = addr l (upd jx a (Z.to_nat (b + Z.of_nat (nth a jx 0%nat) * t)))).
  { intros jx Hj. destruct (Hn jx Hj) as [N L]. specialize (K _ N). split.
    - eapply valid_upd; [exact Ha|exact Hj|lia].
    - apply narrowed_addr; [apply Hg|exact Ha|exact Hj|lia]. }
  split. { intros jx Hj. destruct (M jx Hj). repeat split; auto. intros k Hk. rewrite nth_upd. replace (a =? k)%nat with false by lia. auto. }
  split.
  - intros jx jx' Hj Hj' Hf. destruct (Hn jx Hj) as [N L], (Hn jx' Hj') as [N' L'].
    apply nth_eq_ext with (d := 0%nat); [congruence|]. intros k Hk. destruct (Nat.eq_dec k a) as [->|Hne].
    + apply (f_equal (fun q => nth a q 0%nat)) in Hf. rewrite !nth_upd_same in Hf by lia. pose proof (K _ N). pose proof (K _ N'). nia.
    + apply (f_equal (fun q => nth k q 0%nat)) in Hf. rewrite !nth_upd in Hf. replace (a =? k)%nat with false in Hf by lia. exact Hf.
  - intros len Hi jx Hj. destruct (M jx Hj) as [V ->]. apply Hi, V. Qed.

Lemma index_shape_fun ixs sh out out' : one_ellipsis ixs -> index_shape ixs sh out -> index_shape ixs sh out' -> out' = out.
Proof. intros One Ho. revert out'. induction Ho as [|s r d sh out Hs Ho IH|k r d sh i out Hi Ho IH|r sh out Ho IH|r pre sh out Ho IH]; intros out' H';
    try (apply one_ellipsis_cons in One; destruct One as [One H2]; specialize (IH One)).
  - inversion H'; auto.
  - inversion H'; subst. f_equal; auto.
  - inversion H'; subst; auto.
  - inversion H'; subst. f_equal; auto.
  - inversion H' as [| | | |r' pre' sh' o' Ho' Er Es Eo]. subst. specialize (H2 eq_refl). pose proof (shape_noell_length _ _ _ H2 Ho) as L1.
    pose proof (shape_noell_length _ _ _ H2 Ho') as L2. apply app_inj_2 in Es; [|congruence]. destruct Es as [-> ->]. f_equal. auto. Qed.
Lemma mixed_indexing : forall l ixs out, accepted l -> one_ellipsis ixs ->
  index_shape (with_ellipsis ixs) (l_shape l) out -> plain_indexers (with_ellipsis ixs) (l_shape l) ->
  exists l', dim_slice l ixs = Ok l' /\ accepted l' /\ l_shape l' = out /\
    (forall jx, valid out jx <-> exists ix, reads (with_ellipsis ixs) (l_shape l) jx ix) /\
    (forall jx ix, reads (with_ellipsis ixs) (l_shape l) jx ix -> valid (l_shape l) ix /\ addr l' jx = addr l ix).
Proof. intros l ixs out Hg One Ho Hp. apply good_accepted in Hg.
  destruct (dim_slice_spec l ixs Hg) as [(l' & out' & E & G & _ & Ho' & P)|[_ N]]; [|exfalso; apply N; eauto].
  destruct (P Hp) as [S Q]. assert (One' : one_ellipsis (with_ellipsis ixs)).
  { unfold with_ellipsis. destruct (existsb is_ellipsis ixs) eqn:X; auto. now apply one_ellipsis_split. }
  assert (F : out' = out).
  { eapply index_shape_fun; eauto. }
  rewrite F in S. exists l'. split; auto. split; [now apply good_accepted|]. split; auto. split.
  - intro jx. split; intro H.
    + rewrite <- S in H. destruct (Q jx H) as (ix & R & _). eauto.
    + destruct H as (ix & R). apply (reads_valid _ _ _ _ One' R). auto.
  - intros jx ix R. destruct (reads_valid _ _ _ _ One' R) as [V1 V2]. split; auto. specialize (V2 _ Ho). rewrite <- S in V2.
    destruct (Q jx V2) as (ix' & R' & _ & A). rewrite (reads_fun _ _ _ _ _ One' R R'). exact A. Qed.
Lemma mixed_indexing_rejects : forall l ixs, accepted l ->
  dim_slice l ixs <> Panic /\
  ((exists l', dim_slice l ixs = Ok l') <-> one_ellipsis ixs /\ exists out, index_shape (with_ellipsis ixs) (l_shape l) out) /\
  (forall l', dim_slice l ixs = Ok l' -> accepted l').
Proof. intros l ixs Hg. apply good_accepted in Hg.
  destruct (dim_slice_spec l ixs Hg) as [(l' & out' & E & G & One & Ho' & P)|[[e E] N]]; rewrite E.
  - split; [discriminate|]. split; [split; eauto|]. intros l'' [= <-]. now apply good_accepted.
  - split; [discriminate|]. split; [|discriminate]. split; [intros [? ?]; discriminate|]. intro H; contradiction. Qed.
Lemma mixed_indexing_select_insert : forall l axis, accepted l ->
  (forall a i k, axis_denotes (ndim l) axis a -> index_denotes i (nth a (l_shape l) 0%nat) k ->
     exists l', dim_select l axis i = Ok l' /\ accepted l' /\ l_shape l' = remove_at (l_shape l) a /\
       forall jx, valid (l_shape l') jx -> valid (l_shape l) (insert_at jx a k) /\ addr l' jx = addr l (insert_at jx a k)) /\
  (forall a, axis_denotes (ndim l) axis a -> nth a (l_shape l) 0%nat = 1%nat ->
     exists l', dim_eliminate l axis = Ok l' /\ accepted l' /\ l_shape l' = remove_at (l_shape l) a /\
       forall jx, valid (l_shape l') jx -> valid (l_shape l) (insert_at jx a 0%nat) /\ addr l' jx = addr l (insert_at jx a 0%nat)) /\
  (forall a, insert_denotes (ndim l) axis a ->
     exists l', dim_insert l axis = Ok l' /\ accepted l' /\ l_shape l' = insert_at (l_shape l) a 1%nat /\
       forall jx, valid (l_shape l) jx -> valid (l_shape l') (insert_at jx a 0%nat) /\ addr l' (insert_at jx a 0%nat) = addr l jx) /\
  (forall i, (forall a k, axis_denotes (ndim l) axis a -> ~ index_denotes i (nth a (l_shape l) 0%nat) k) -> exists e, dim_select l axis i = Err e) /\
  ((forall a, axis_denotes (ndim l) axis a -> nth a (l_shape l) 0%nat <> 1%nat) -> exists e, dim_eliminate l axis = Err e) /\
  ((forall a, ~ insert_denotes (ndim l) axis a) -> exists e, dim_insert l axis = Err e).
Proof. intros l axis Hg. apply good_accepted in Hg.
  assert (S : forall a k, (a < ndim l)%nat -> (k < nth a (l_shape l) 0)%nat -> forall jx, valid (remove_at (l_shape l) a) jx ->
    valid (l_shape l) (insert_at jx a k) /\ addr (selected l a (Z.of_nat k)) jx = addr l (insert_at jx a k)).
  { intros a k Ha Hk jx Hj. pose proof (valid_length _ _ Hj) as L. rewrite remove_length in L by exact Ha. split.
    - rewrite <- (insert_remove (l_shape l) a 0%nat) by exact Ha. apply valid_insert; [rewrite remove_length by exact Ha; unfold ndim in Ha; lia|].
      rewrite remove_length by exact Ha. auto.
    - apply selected_addr; auto. apply Hg. }
  split; [|split; [|split; [|split; [|split]]]].
  - intros a i k Ha Hi. destruct (select_spec l axis a i k Hg Ha Hi) as [E G]. eexists. split; [exact E|]. split; [now apply good_accepted|]. split; auto.
    apply S. apply Ha. apply Hi.
  - intros a Ha H1. destruct (eliminate_spec l axis a Hg Ha H1) as [E G]. eexists. split; [exact E|]. split; [now apply good_accepted|]. split; auto.
    rewrite chopped_selected. apply S. apply Ha. lia.
  - intros a Ha. destruct (insert_spec l axis a Hg Ha) as (t & E & G). eexists. split; [exact E|]. split; [now apply good_accepted|]. split; auto.
    intros jx Hj. pose proof (valid_length _ _ Hj) as L. split.
    + cbn. apply valid_insert; [apply Ha|]. auto.
    + apply inserted_addr; auto. apply Hg. apply Ha.
  - intros i H. now apply select_err.
  - apply eliminate_err.
  - apply insert_err. Qed.

Lemma split_axes_lossless : forall l axes la lr, wf l -> dim_split_axes l axes = Ok (la, lr) ->
  exists ax, Forall2 (axis_denotes (ndim l)) axes ax /\ NoDup ax /\ let rest := axes_except (ndim l) ax in
    l_shape la = pick ax 0%nat (l_shape l) /\ l_shape lr = pick rest 0%nat (l_shape l) /\
    forall ix, valid (l_shape l) ix ->
      valid (l_shape la) (pick ax 0%nat ix) /\ valid (l_shape lr) (pick rest 0%nat ix) /\
      addr l ix = addr la (pick ax 0%nat ix) + addr lr (pick rest 0%nat ix) - l_offset l.
Proof. intros l axes la lr Hw H. destruct (split_axes_ok l axes la lr Hw H) as (ax & Hd & Hn & E1 & E2 & A). exists ax. split; auto. split; auto.
  cbv zeta. rewrite E1, E2. cbn [l_shape]. split; auto. split; auto. intros ix Hv. split; [|split].
  - apply pick_valid_sub; auto. eapply denotes_lt; eauto.
  - apply pick_valid_sub; auto. intros a Ha. unfold axes_except in Ha. apply filter_In in Ha. destruct Ha as [Ha _]. apply in_seq in Ha. unfold ndim in Ha. lia.
  - rewrite E1, E2 in A. apply A. now apply valid_length in Hv. Qed.
Lemma split_axes_succeeds : forall l axes ax, accepted l -> size (l_shape l) <> 0%nat ->
  Forall2 (axis_denotes (ndim l)) axes ax -> NoDup ax -> exists la lr, dim_split_axes l axes = Ok (la, lr) /\ accepted la /\ accepted lr.
Proof. intros l axes ax Hg Hs Hd Hn. apply good_accepted in Hg. destruct (split_axes_total l axes ax Hg Hs Hd Hn) as (la & lr & E & G1 & G2).
  exists la, lr. split; auto. split; now apply good_accepted. Qed.
Lemma split_at_lossless : forall l axis, wf l ->
  (forall la lr, dim_split_at l axis = Ok (la, lr) ->
     l_shape la ++ l_shape lr = l_shape l /\
     (Z.of_nat (ndim la) = axis \/ Z.of_nat (ndim la) = axis + Z.of_nat (ndim l)) /\
     forall ia ir, valid (l_shape la) ia -> valid (l_shape lr) ir ->
       valid (l_shape l) (ia ++ ir) /\ addr l (ia ++ ir) = addr la ia + addr lr ir - l_offset l) /\
  (- Z.of_nat (ndim l) <= axis <= Z.of_nat (ndim l) <-> exists p, dim_split_at l axis = Ok p).
Proof. intros l axis Hw. unfold dim_split_at. set (norm := if axis <? 0 then Z.of_nat (ndim l) + axis else axis).
  assert (Hnorm : norm = axis \/ norm = axis + Z.of_nat (ndim l)) by (unfold norm; destruct (axis <? 0); lia).
  assert (Hr : (- Z.of_nat (ndim l) <= axis <= Z.of_nat (ndim l)) <-> 0 <= norm <= Z.of_nat (ndim l)) by (unfold norm; destruct (Z.ltb_spec axis 0); lia).
  clearbody norm. destruct ((0 <=? norm) && (norm <=? Z.of_nat (ndim l))) eqn:E; cbn [negb].
  - split; [|split; [eauto|intros _; lia]]. intros la lr [= <- <-]. cbn [l_shape l_stride l_offset]. split; [apply firstn_skipn|].
    unfold ndim in *. cbn [l_shape]. rewrite firstn_len by lia. split; [lia|]. intros ia ir Ha Hr'. pose proof (valid_length _ _ Ha) as La. split.
    + rewrite <- (firstn_skipn (Z.to_nat norm) (l_shape l)). apply valid_app; auto.
    + unfold addr. cbn [l_shape l_stride l_offset]. rewrite <- (firstn_skipn (Z.to_nat norm) (l_stride l)) at 1. rewrite dot_app; [lia|].
      rewrite La, !firstn_length. destruct Hw as [-> _]. auto.
  - split; [discriminate|]. split; [lia|]. intros [p ?]; discriminate. Qed.
