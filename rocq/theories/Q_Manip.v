(** Property lemmas about view-producing functions (C38, C40, C51). *)
From Verif Require Import Base Spec P_Index P_List M_Layout P_Layout P_Bounds P_Contig P_Strides M_Indexer P_Indexer Q_Indexer M_Broadcast P_Broadcast Q_Broadcast
  M_Reshape P_Reshape Q_Reshape Q_Layout M_Rearr P_Rearr M_Iter P_Iter Q_Iter M_Tensor P_Kernel P_BinOp P_Arg P_Axes P_Tensor M_Manip Spec_Views P_Manip P_Views P_Views2.
Local Open Scope Z_scope.

Lemma l_flip : forall l axes v, accepted l -> lists_axes axes v ->
  (forall ax, Forall2 (axis_denotes (ndim l)) v ax -> NoDup ax ->
     exists l', flip l axes = Ok l' /\ accepted l' /\ l_shape l' = l_shape l /\
       (forall ix, valid (l_shape l) ix -> valid (l_shape l) (flip_index (l_shape l) ax ix) /\ addr l' ix = addr l (flip_index (l_shape l) ax ix)) /\
       flip l' axes = Ok l) /\
  ((~ exists ax, Forall2 (axis_denotes (ndim l)) v ax /\ NoDup ax) -> exists e, flip l axes = Err e).
Proof. intros l axes v A L. pose proof A as G. apply good_accepted in G.
  assert (E0 : forall l, flip l axes = let* ax := normalize_axes_index axes (ndim l) false true in fold_res (fun l a => dim_narrow l (Z.of_nat a) (mkSlice None None (Some (-1)))) ax l) by (intro; now inversion L).
  split.
  - intros ax D N. set (sx := sort_by Nat.leb ax). assert (B : forall a, In a sx -> (a < ndim l)%nat) by (apply sort_bound; eapply denotes_lt; eauto).
    destruct (flip_fold sx l G B) as (E & G' & Sh). exists (fold_left flip1 sx l). rewrite !E0. rewrite (normalize_ok _ _ _ false true _ L D N). cbn [bind]. fold sx.
    split; [exact E|]. split; [now apply good_accepted|]. split; [exact Sh|]. split.
    + intros ix V. split; [now apply flip_index_valid|]. rewrite flip_addr; auto.
      * f_equal. unfold flip_index. apply map_ext. intro k. replace (existsb (Nat.eqb k) sx) with (existsb (Nat.eqb k) ax); auto. apply eq_iff_eq_true. rewrite !existsb_exists.
        split; intros (x & Hx & Ex); exists x; split; auto; now apply sort_in in Hx || (apply sort_in; auto).
      * eapply Permutation_NoDup; [apply sort_perm|auto].
    + assert (Nd : ndim (fold_left flip1 sx l) = ndim l) by (unfold ndim; now rewrite Sh). rewrite Nd, (normalize_ok _ _ _ false true _ L D N). cbn [bind]. fold sx.
      destruct (flip_fold sx (fold_left flip1 sx l) G') as (E2 & _); [now rewrite Nd|]. rewrite E2. f_equal. apply flip_fold_invol. apply G.
  - intro H. rewrite E0. destruct (normalize_reject axes v (ndim l) true L H) as [e ->]. cbn. eauto. Qed.
Lemma l_flip_all : forall l, accepted l ->
  exists l', flip l AxNone = Ok l' /\ accepted l' /\ l_shape l' = l_shape l /\
    (forall ix, valid (l_shape l) ix -> addr l' ix = addr l (flip_index (l_shape l) (seq 0 (ndim l)) ix)) /\ flip l' AxNone = Ok l.
Proof. intros l A. pose proof A as G. apply good_accepted in G. unfold flip. cbn [bind].
  assert (B : forall a, In a (seq 0 (ndim l)) -> (a < ndim l)%nat) by (intros a Ha; apply in_seq in Ha; lia).
  destruct (flip_fold _ l G B) as (E & G' & Sh). exists (fold_left flip1 (seq 0 (ndim l)) l). split; auto. split; [now apply good_accepted|]. split; auto. split.
  - intros ix V. apply flip_addr; auto. apply seq_NoDup.
  - assert (Nd : ndim (fold_left flip1 (seq 0 (ndim l)) l) = ndim l) by (unfold ndim at 1 3; now rewrite Sh). rewrite Nd.
    destruct (flip_fold (seq 0 (ndim l)) _ G') as (E2 & _); [now rewrite Nd|]. rewrite E2. f_equal. apply flip_fold_invol. apply G. Qed.

Lemma l_moveaxis : forall l src dst vs vd, wf l -> lists_axes src vs -> lists_axes dst vd ->
  (forall s d, Forall2 (axis_denotes (ndim l)) vs s -> Forall2 (axis_denotes (ndim l)) vd d -> NoDup s -> NoDup d -> length s = length d ->
     exists l' p, moveaxis l src dst = Ok l' /\ wf l' /\ moved (ndim l) s d p /\ Permutation p (seq 0 (ndim l)) /\
       l_shape l' = pick p 0%nat (l_shape l) /\
       (forall ix, valid (l_shape l) ix -> valid (l_shape l') (pick p 0%nat ix) /\ addr l' (pick p 0%nat ix) = addr l ix)) /\
  ((~ exists s d, Forall2 (axis_denotes (ndim l)) vs s /\ Forall2 (axis_denotes (ndim l)) vd d /\ NoDup s /\ NoDup d /\ length s = length d) ->
     exists e, moveaxis l src dst = Err e).
Proof. intros l src dst vs vd W L1 L2. split.
  - intros s d D1 D2 N1 N2 Le. destruct (moveaxis_ok l src dst vs vd s d W L1 L2 D1 D2 N1 N2 Le) as (p & E & M & P). exists (permuted p l), p. split; auto. split; [now apply permuted_wf|].
    split; auto. split; auto. split; auto. assert (T : transpose l (map Z.of_nat p) = Ok (permuted p l)) by now apply transpose_nat.
    destruct (transpose_full _ _ _ W T) as (_ & p' & D & _ & _ & F & _). assert (p' = p) as ->; [|auto].
    eapply denotes_unique; [|exact D]. apply denotes_nat. intros a Ha. apply (Permutation_in a P) in Ha. apply in_seq in Ha. lia.
  - intro H. unfold moveaxis. destruct (normalize_axes_index src (ndim l) false false) as [s|e|] eqn:Es; cbn [bind]; [|eauto|now apply normalize_nopanic in Es].
    destruct (normalize_axes_index dst (ndim l) false false) as [d|e|] eqn:Ed; cbn [bind]; [|eauto|now apply normalize_nopanic in Ed].
    destruct (Nat.eqb_spec (length s) (length d)) as [Le|Le]; cbn [check bind]; [|eauto]. exfalso. apply H. exists s, d.
    rewrite (normalize_list _ _ _ _ _ L1) in Es. rewrite (normalize_list _ _ _ _ _ L2) in Ed. apply normalize_spec in Es as (s0 & ? & [?|?] & ->); [discriminate|]. apply normalize_spec in Ed as (d0 & ? & [?|?] & ->); [discriminate|]. auto. Qed.

Lemma l_expand_dims : forall l axes v, accepted l -> lists_axes axes v ->
  (forall ax, Forall2 (axis_denotes (ndim l + length v)) v ax -> NoDup ax ->
     exists l', expand_dims l axes = Ok l' /\ accepted l' /\ ndim l' = (ndim l + length v)%nat /\
       (forall a, In a ax -> nth a (l_shape l') 0%nat = 1%nat) /\
       pick (axes_except (ndim l + length v) ax) 0%nat (l_shape l') = l_shape l /\
       (forall jx, valid (l_shape l') jx -> let ix := pick (axes_except (ndim l + length v) ax) 0%nat jx in valid (l_shape l) ix /\ addr l' jx = addr l ix)) /\
  ((~ exists ax, Forall2 (axis_denotes (ndim l + length v)) v ax /\ NoDup ax) -> exists e, expand_dims l axes = Err e).
Proof. intros l axes v A L. apply good_accepted in A. split.
  - intros ax D N. destruct (expand_ok l axes v ax A L D N) as (l' & E & G & R). exists l'. split; auto. split; [now apply good_accepted|auto].
  - intro H. unfold expand_dims. rewrite (as_ref_list _ _ L). cbn [bind]. destruct (normalize_reject axes v _ true L H) as [e ->]. cbn. eauto. Qed.

Lemma l_squeeze : forall l axes v, accepted l -> lists_axes axes v ->
  (forall ax, Forall2 (axis_denotes (ndim l)) v ax -> NoDup ax -> (forall a, In a ax -> nth a (l_shape l) 0%nat = 1%nat) ->
     exists l', squeeze l axes = Ok l' /\ is_squeezed l ax l').
Proof. intros l axes v A L ax D N U. apply good_accepted in A. destruct (squeeze_ok l axes v ax A L D N U) as (l' & E & G & R). exists l'. split; auto. split; auto. now apply good_accepted. Qed.
Lemma l_squeeze_all : forall l, accepted l -> exists l', squeeze l AxNone = Ok l' /\
  is_squeezed l (filter (fun a => (nth a (l_shape l) 0 =? 1)%nat) (seq 0 (ndim l))) l'.
Proof. intros l A. apply good_accepted in A. destruct (squeeze_all_ok l A) as (l' & E & G & R). exists l'. split; auto. split; auto. now apply good_accepted. Qed.
Lemma l_squeeze_rejects : forall l axes v, accepted l -> lists_axes axes v -> (forall a, In a v -> - Z.of_nat (ndim l) <= a) ->
  (~ exists ax, Forall2 (axis_denotes (ndim l)) v ax /\ NoDup ax /\ forall a, In a ax -> nth a (l_shape l) 0%nat = 1%nat) -> exists e, squeeze l axes = Err e.
Proof. intros l axes v A L Lo H. apply good_accepted in A. rewrite (squeeze_list _ _ _ L). set (n := ndim l) in *.
  destruct (forallb (fun a => a <? Z.of_nat n) v) eqn:F.
  - rewrite forallb_forall in F. assert (D : Forall2 (axis_denotes n) v (map (fun a => Z.to_nat (if 0 <=? a then a else a + Z.of_nat n)) v)).
    { clear H L. induction v as [|a v IH]; cbn; [constructor|]. constructor; [|apply IH; [intros; apply Lo; now right|intros; apply F; now right]].
      specialize (F a ltac:(now left)). specialize (Lo a ltac:(now left)). unfold axis_denotes. destruct (Z.leb_spec 0 a); lia. }
    set (ax := map _ v) in D. unfold squeeze. rewrite (squeeze_axes_ok _ _ _ D). destruct (adj_eq_z _) eqn:Ea; [cbn; eauto|]. cbn [bind].
    apply (adj_eq_nodup _ (descending_sorted ax)) in Ea. assert (N : NoDup ax) by (eapply Permutation_NoDup; [symmetry; apply sort_perm|exact Ea]).
    apply squeeze_fold_err; auto; [now apply descending_inc| |].
    + intros a Ha. apply sort_in in Ha. eapply denotes_lt; eauto.
    + intro U. apply H. exists ax. split; auto. split; auto. intros a Ha. apply U. now apply sort_in.
  - assert (X : exists a, In a v /\ Z.of_nat n <= a). { clear - F. induction v as [|a v IH]; [discriminate|]. cbn in F. destruct (Z.ltb_spec a (Z.of_nat n)); [destruct IH as (b & Hb & ?); auto; exists b; split; auto; now right|exists a; split; auto; now left]. }
    destruct X as (a & Ha & La). unfold squeeze, squeeze_axes. cbn [axes_as_ref bind]. fold n. set (zs := sort_by _ _).
    assert (I : In a zs). { apply sort_in. apply in_map_iff. exists a. split; auto. destruct (Z.leb_spec 0 a); lia. }
    assert (S : StronglySorted (fun a b => (b <=? a) = true) zs) by (apply sort_sorted; intros; rewrite ?Z.leb_le in *; lia).
    destruct zs as [|b zs']; [easy|]. assert (Hb : a <= b). { destruct I as [->|I]; [lia|]. inversion S as [|? ? _ Fb]; subst. rewrite Forall_forall in Fb. specialize (Fb _ I). lia. }
    replace (b <? 0) with false by lia. cbn [negb check bind]. destruct (adj_eq_z (b :: zs')); cbn [negb check bind]; [eauto|]. cbn [fold_res].
    destruct (eliminate_err l b) as [e ->]; [|cbn; eauto]. intros k Hk. unfold axis_denotes in Hk. fold n in Hk. lia. Qed.
(** an axis below -ndim is accepted when a larger one is given with it *)
Lemma l_squeeze_below_refuted : exists l v l', accepted l /\ (~ exists ax, Forall2 (axis_denotes (ndim l)) v ax) /\ squeeze l (AxVec v) = Ok l'.
Proof. exists (mkLayout [1; 1]%nat [1; 1] 0), [1; -3], (mkLayout [] [] 0). split; [|split; [|vm_compute; reflexivity]].
  - apply good_accepted. apply (good_new [1; 1]%nat [1; 1] 0); [lia|vm_compute; reflexivity].
  - intros (ax & D). inversion D as [|? ? ? ? _ D2]; subst. inversion D2 as [|? ? ? ? H _]; subst. unfold axis_denotes, ndim in H. cbn in H. lia. Qed.
(** expand_dims without axes panics instead of returning an error *)
Lemma l_expand_none_refuted : forall l, expand_dims l AxNone = Panic.
Proof. reflexivity. Qed.

Lemma l_views_inside : forall (T : Type) o ops (t t' : tensor T), tensor_ok t -> views o ops t = Ok t' ->
  t_data t' = t_data t /\ tensor_ok t' /\
  forall jx, valid (l_shape (t_layout t')) jx -> exists ix x, valid (l_shape (t_layout t)) ix /\
    elem (t_data t') (t_layout t') jx = Some x /\ elem (t_data t) (t_layout t) ix = Some x.
Proof. intros T o ops t t' [A I] H. apply good_accepted in A. destruct (views_shows o ops t t') as (D & S & X); auto; [split; apply A|]. split; auto. split; [split; [apply good_accepted; eapply views_good; eauto|rewrite D]|rewrite D].
  - intros jx V. destruct (X jx V) as (ix & Vi & ->). auto.
  - intros jx V. destruct (X jx V) as (ix & Vi & E). destruct (proj1 (peek_inside (t_data t) (addr (t_layout t) ix)) (I ix Vi)) as (x & Ex). exists ix, x. unfold elem. rewrite E. auto. Qed.

Lemma l_axes_iter : forall dflt l axes v ax o, accepted l -> lists_axes axes v -> v <> [] -> Forall2 (axis_denotes (ndim l)) v ax -> NoDup ax ->
  size (pick (axes_except (ndim l) ax) 0%nat (l_shape l)) <> 0%nat -> o <> OB ->
  exists it vs sxs, axes_iter_new dflt l axes o = Ok it /\ axes_iter_views it = Ok vs /\
    Permutation sxs (row_major (pick ax 0%nat (l_shape l))) /\
    (o = OC -> sxs = row_major (pick ax 0%nat (l_shape l))) /\ (o = OF -> sxs = col_major (pick ax 0%nat (l_shape l))) /\
    (o = OA -> sxs = enum dflt (pick ax 0%nat (l_shape l))) /\
    Forall2 (shows_subarray l ax) sxs vs /\
    Permutation (flat_map (addrs RowMajor) vs) (addrs RowMajor l) /\
    forall ops, size (l_shape l) <> 0%nat \/ Forall (fun op => op = Front \/ op = Back) ops -> splits_within ops vs ->
      exists it', axes_iter_run ops it = Ok (fst (deque ops vs), it') /\ axes_iter_views it' = Ok (snd (deque ops vs)).
Proof. intros dflt l axes v ax o A L Nv D ND Sr HB. apply good_accepted in A. assert (S : safe l) by (split; apply A). pose proof (denotes_lt _ _ _ D) as B.
  pose proof (except_perm (ndim l) ax ND B) as P.
  assert (Sz : size (l_shape l) = (size (pick ax 0%nat (l_shape l)) * size (pick (axes_except (ndim l) ax) 0%nat (l_shape l)))%nat).
  { rewrite <- size_app, <- pick_app. symmetry. apply size_perm. now apply pick_perm. }
  assert (HG : o = OK \/ o = OG -> good (sub ax l)).
  { intros _. destruct (Nat.eq_dec (size (l_shape l)) 0) as [Z0|Z0]; [|eapply sub_good; eauto]. apply good_intro; cbn [sub l_shape l_stride]; [now rewrite !pick_length|]. intro X. nia. }
  destruct (axes_iter_collect dflt l axes v ax o S L Nv D ND Sr HB HG) as (it & sxs & ps & E & (O1 & O2 & O3 & O4) & Ei & I & Pp & Sl & Ep & F & C).
  exists it, (map (with_offset (inner l ax)) ps), sxs. split; auto. split; [unfold axes_iter_views; rewrite collect_ok by auto; cbn [bind]; now rewrite Pp, Ei|].
  split; auto. split; auto. split; auto. split; auto. split; [exact F|]. split; auto. intros ops Hs SW. rewrite <- Ei in *. apply axes_iter_runs; auto.
  destruct Hs as [Hs|Hs]; auto. left. rewrite Sl. nia. Qed.
(** with no axes, an axis that is out of range, or a second axis below -ndim, axes_iter panics instead of returning an error *)
Lemma l_axes_iter_refuted : exists l, accepted l /\ axes_iter_new RowMajor l (AxVec []) OC = Panic /\ axes_iter_new RowMajor l (AxVal 2) OC = Panic /\
  axes_iter_new RowMajor l (AxVec [0; -3]) OC = Panic.
Proof. exists (mkLayout [2; 2]%nat [2; 1] 0). split; [|repeat split; vm_compute; reflexivity]. apply good_accepted. apply (good_new [2; 2]%nat [2; 1] 0); [lia|vm_compute; reflexivity]. Qed.
(** the index that comes with the last view is that of the first one *)
Lemma l_indexed_axes_back_refuted : exists l it w it', accepted l /\ indexed_axes_new RowMajor l (AxVal 0) OC = Ok it /\
  indexed_axes_next_back it = Ok (Some ([0%nat], w), it') /\ ~ shows_subarray l [0%nat] [0%nat] w /\ shows_subarray l [0%nat] [1%nat] w.
Proof. exists (mkLayout [2; 2]%nat [2; 1] 0). do 3 eexists. split; [apply good_accepted, (good_new [2; 2]%nat [2; 1] 0); [lia|vm_compute; reflexivity]|].
  split; [vm_compute; reflexivity|]. split; [vm_compute; reflexivity|]. split.
  - intros [_ H]. specialize (H [0%nat]). cbn in H. destruct H as [_ H]; [repeat constructor|]. vm_compute in H. discriminate.
  - split; [reflexivity|]. cbn. intros jx V. apply valid_cons_inv in V as (i & r & -> & Hi & V). apply valid_nil in V as ->. destruct i as [|[|i]]; [| |lia]; vm_compute; split; auto; repeat constructor. Qed.
(** diagonal is the exception: on a tall matrix its result reaches outside the storage *)
Lemma l_diagonal_outside_refuted : exists (t : tensor Z) l', tensor_ok t /\ diagonal (t_layout t) (Some 3) None None = Ok l' /\ ~ inside l' (length (t_data t)).
Proof. exists (mkTensor [0; 0; 0; 0; 0; 0; 0; 0; 0; 0] (mkLayout [5; 2]%nat [2; 1] 0)), (mkLayout [Z.to_nat (2 ^ 64 - 1)] [3] 3). split; [concrete_tensor|]. split.
  - cbn [t_layout]. rewrite <- layout_new_1d by lia. reflexivity.
  - intro I. assert (V : valid (l_shape (mkLayout [Z.to_nat (2 ^ 64 - 1)] [3] 3)) [4%nat]).
    { cbn [l_shape]. constructor; [|constructor]. assert (5 < 2 ^ 64 - 1) by (vm_compute; reflexivity). lia. }
    specialize (I [4%nat] V). unfold addr in I. cbn [l_offset l_stride dot t_data length] in I. lia. Qed.
