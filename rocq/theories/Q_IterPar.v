(** Parallel indexed iteration: however the work is split, each index comes with its own element *)
From Verif Require Import Base Spec Spec_IterElem Spec_Views P_Index P_List M_Layout P_Layout P_Bounds P_Contig P_Strides Q_Layout M_Indexer P_Indexer P_Axes M_Broadcast M_Rearr M_Iter P_Iter Q_Iter P_Rearr Q_Rearr M_Kernel P_Kernel M_Tensor P_Tensor M_Reduce P_Arg M_Manip P_Views Q_Manip M_Mesh M_IterElem Q_IterElem M_IterPar.
Local Open Scope Z_scope.

Lemma leaves_map {A B} (g : A -> B) t : forall xs, leaves t (map g xs) = map (map g) (leaves t xs).
Proof. induction t as [|n a IHa b IHb]; intro xs; cbn [leaves]; auto. now rewrite firstn_map, skipn_map, IHa, IHb, map_app. Qed.
Lemma within_leaves_map {A B} (g : A -> B) t : forall xs, tree_within t xs -> tree_within t (map g xs).
Proof. induction t as [|n a IHa b IHb]; intro xs; cbn [tree_within]; auto. intros (H1 & H2 & H3). rewrite map_length, firstn_map, skipn_map. auto. Qed.
Lemma leaves_in {A} t : forall (xs : list A) part x, In part (leaves t xs) -> In x part -> In x xs.
Proof. intros xs part x H1 H2. rewrite <- (concat_leaves t xs). apply in_concat. eauto. Qed.
(** the items handed to the workers *)
Lemma par_places_ok k t : forall it, inv (il_order it) (il_iter it) -> size (l_shape (it_layout (il_iter it))) <> 0%nat \/ t = Leaf ->
  tree_within t (ipending (il_order it) (il_iter it)) -> par_places k t it = Ok (leaves t (items (it_layout (il_iter it)) (ipending (il_order it) (il_iter it)))).
Proof. induction t as [|n a IHa b IHb]; intros [o it] I S T; cbn [par_places leaves]; cbn [il_order il_iter] in *.
  - now rewrite collect_indexed_ok.
  - destruct S as [S|S]; [|discriminate]. destruct T as (T1 & T2 & T3). destruct (isplit_ok o k it n I S T1) as (x & y & E & Ix & Iy & Lx & Ly & Px & Py).
    unfold il_split_at. cbn [il_order il_iter]. rewrite E. cbn [bind fst snd].
    rewrite IHa; cbn [il_order il_iter]; [|auto|left; now rewrite Lx|now rewrite Px]. cbn [bind].
    rewrite IHb; cbn [il_order il_iter]; [|auto|left; now rewrite Ly|now rewrite Py]. cbn [bind]. unfold items. rewrite Px, Py, Lx, Ly. now rewrite firstn_map, skipn_map. Qed.
Lemma new_indexed dflt k l o : wf l -> nonneg l ->
  exists it, iter_layout_new dflt k l (match o with RowMajor => OC | ColMajor => OF end) = Ok it /\ il_order it = o /\ inv o (il_iter it) /\ it_layout (il_iter it) = l /\ ipending o (il_iter it) = enum o (l_shape l).
Proof. intros W N. destruct (iter_new_inv o k l W N) as (it & E & I & L & P). exists (mkIterLayout o it). pose proof (ipending_new o k l it E L) as Q. unfold iter_layout_new. destruct o; rewrite E; cbn; auto. Qed.
(** reading the elements *)
Lemma indexed_collect_ok {T} (d : list T) it ps : collect_indexed it = Ok ps -> (forall p, In p ps -> exists x, peek d (snd p) = Some x) ->
  exists xs, indexed_elem_collect (mkElems it d) = Ok xs /\ map (fun p => (fst p, Some (snd p))) xs = map (fun p => (fst p, peek d (snd p))) ps.
Proof. unfold collect_indexed, indexed_elem_collect, elem_len. cbn [ei_iter]. destruct (il_len it) as [n| |]; cbn [bind]; try discriminate. generalize (S n). intro fuel. clear n. revert it ps. induction fuel as [|fuel IH]; intros it ps E H; cbn [collect_indexed_loop indexed_elem_loop] in *; [discriminate|].
  unfold indexed_next in E. unfold indexed_elem_next, elem_next. cbn [ei_iter ei_view]. destruct (il_next it) as [([p|], it1)| |] eqn:E1; cbn [bind fst snd option_map look] in *; try discriminate.
  - destruct (collect_indexed_loop fuel it1) as [r| |] eqn:E2; cbn [bind] in E; try discriminate. injection E as <-. destruct (H (it_istart (il_iter it), p)) as (x & Hx); [now left|]. cbn [snd] in Hx. pose proof Hx as Hz. apply zget_peek in Hz. rewrite Hz. cbn [bind fst snd option_map].
    destruct (IH it1 r E2) as (xs & -> & M). { intros q Hq. apply H. now right. } cbn [bind]. eexists. split; [reflexivity|]. cbn [map fst snd]. now rewrite Hx, M.
  - injection E as <-. exists []. auto. Qed.
Lemma par_indexed_ok {T} (d : list T) k t : forall it parts, par_places k t it = Ok parts -> (forall part p, In part parts -> In p part -> exists x, peek d (snd p) = Some x) ->
  exists xs, par_indexed k t (mkElems it d) = Ok xs /\ map (map (fun p => (fst p, Some (snd p)))) xs = map (map (fun p => (fst p, peek d (snd p)))) parts.
Proof. induction t as [|n a IHa b IHb]; intros it parts E H; cbn [par_places par_indexed] in *.
  - destruct (collect_indexed it) as [ps| |] eqn:E1; cbn [bind] in E; try discriminate. injection E as <-. destruct (indexed_collect_ok d it ps E1) as (xs & -> & M). { intros p Hp. apply (H ps); auto. now left. }
    exists [xs]. cbn [bind map]. now rewrite M.
  - unfold elem_split_at. cbn [ei_iter ei_view]. destruct (il_split_at k it n) as [(x, y)| |]; cbn [bind fst snd] in *; try discriminate.
    destruct (par_places k a x) as [pa| |] eqn:Ea; cbn [bind] in E; try discriminate. destruct (par_places k b y) as [pb| |] eqn:Eb; cbn [bind] in E; try discriminate. injection E as <-.
    destruct (IHa x pa Ea) as (xa & -> & Ma). { intros part p H1 H2. apply (H part); auto. apply in_or_app. auto. }
    destruct (IHb y pb Eb) as (xb & -> & Mb). { intros part p H1 H2. apply (H part); auto. apply in_or_app. auto. }
    cbn [bind]. eexists. split; [reflexivity|]. now rewrite !map_app, Ma, Mb. Qed.
Lemma l_par_indexed : forall (T : Type) dflt k o (t : tensor T) tree, tensor_ok t -> size (t_shape t) <> 0%nat \/ tree = Leaf -> tree_within tree (enum o (t_shape t)) ->
  exists e parts, indexed_elems_with_order dflt k t (match o with RowMajor => OC | ColMajor => OF end) = Ok e /\ par_indexed k tree e = Ok parts /\
    map (map (fun p => (fst p, Some (snd p)))) parts = leaves tree (map (fun ix => (ix, at_ t ix)) (enum o (t_shape t))).
Proof. intros T dflt k o t tree Ht S TW. destruct (ok_wf t Ht) as (W & N). destruct (new_indexed dflt k (t_layout t) o W N) as (it & E & O & I & L & P). subst o.
  pose proof (par_places_ok k tree it I) as R. rewrite L, P in R. specialize (R S TW).
  destruct (par_indexed_ok (t_data t) k tree it _ R) as (xs & Ex & M).
  { intros part p H1 H2. pose proof (leaves_in _ _ _ _ H1 H2) as H. apply in_map_iff in H as (ix & <- & H). cbn [snd]. apply in_enum in H. apply peek_inside. now apply Ht. }
  exists (mkElems it (t_data t)), xs. split; [|split; auto].
  - unfold indexed_elems_with_order, elems_with_order. destruct (il_order it); now rewrite E.
  - rewrite M, <- leaves_map. f_equal. unfold items. now rewrite map_map. Qed.
(** updates, each of its own cell *)
Lemma update_items {T} (f : list nat -> T -> T) (ps : list (list nat * Z)) (d : list T) : NoDup (map snd ps) -> (forall p, In p ps -> exists x, peek d (snd p) = Some x) ->
  exists d', fold_res (fun d p => rewrite_at (f (fst p)) d (Some (snd p))) ps d = Ok d' /\ length d' = length d /\ (forall p, In p ps -> peek d' (snd p) = option_map (f (fst p)) (peek d (snd p))) /\ (forall q, ~ In q (map snd ps) -> peek d' q = peek d q).
Proof. intros ND H. destruct (modify_fold (@snd (list nat) Z) (fun p x => Ok (f (fst p) x)) ps d) as (d' & E & L & A & B); auto.
  - intros p Hp. apply peek_inside. auto.
  - intros p x _. eauto.
  - exists d'. split; [rewrite <- E; apply fold_res_ext; intros p s _; unfold rewrite_at, modify; now destruct (zget _ _)|]. split; auto. split; auto.
    intros p Hp. destruct (H p Hp) as (x & Hx). destruct (A p x Hp Hx) as (y & Ey & Py). injection Ey as <-. now rewrite Py, Hx. Qed.
Lemma l_par_indexed_mut : forall (T : Type) dflt k o (t : tensor T) f tree r, tensor_ok t -> injective (t_layout t) -> size (t_shape t) <> 0%nat \/ tree = Leaf -> tree_within tree (enum o (t_shape t)) ->
  exists e, indexed_elems_with_order dflt k t (match o with RowMajor => OC | ColMajor => OF end) = Ok e /\ (par_indexed_updates k f tree e r ->
    exists d, r = Ok d /\ length d = length (t_data t) /\ (forall ix, valid (t_shape t) ix -> elem d (t_layout t) ix = option_map (f ix) (at_ t ix)) /\ (forall p, ~ In p (addrs o (t_layout t)) -> peek d p = peek (t_data t) p)).
Proof. intros T dflt k o t f tree r Ht Inj S TW. destruct (ok_wf t Ht) as (W & N). destruct (new_indexed dflt k (t_layout t) o W N) as (it & E & O & I & L & P). subst o.
  pose proof (par_places_ok k tree it I) as R. rewrite L, P in R. specialize (R S TW). exists (mkElems it (t_data t)).
  split; [unfold indexed_elems_with_order, elems_with_order; destruct (il_order it); now rewrite E|]. unfold par_indexed_updates. cbn [ei_iter ei_view]. rewrite R. intros (ps & Pm & ->). rewrite concat_leaves in Pm.
  assert (Ms : map snd (items (t_layout t) (enum (il_order it) (l_shape (t_layout t)))) = addrs (il_order it) (t_layout t)) by (unfold items, addrs; now rewrite map_map).
  assert (Ps : Permutation (map snd ps) (addrs (il_order it) (t_layout t))) by (rewrite <- Ms; now apply Permutation_map).
  destruct (update_items f ps (t_data t)) as (d & Ed & Ld & A & B).
  - eapply Permutation_NoDup; [symmetry; exact Ps|now apply addrs_nodup].
  - intros p Hp. apply (element_there t (il_order it)); auto. eapply Permutation_in; [exact Ps|]. now apply in_map.
  - exists d. split; auto. split; auto. split.
    + intros ix V. unfold elem. apply (A (ix, addr (t_layout t) ix)). eapply Permutation_in; [symmetry; exact Pm|]. apply (in_map (fun ix => (ix, addr (t_layout t) ix))). now apply in_enum.
    + intros p Hp. apply B. intro X. apply Hp. eapply Permutation_in; eauto. Qed.
(** ** sub-views *)
Lemma par_axes_ok t : forall it, inv (il_order (ai_iter it)) (il_iter (ai_iter it)) -> size (l_shape (it_layout (il_iter (ai_iter it)))) <> 0%nat \/ t = Leaf ->
  tree_within t (pending (il_order (ai_iter it)) (il_iter (ai_iter it))) -> par_axes t it = Ok (leaves t (map (with_offset (ai_inner it)) (pending (il_order (ai_iter it)) (il_iter (ai_iter it))))).
Proof. induction t as [|n a IHa b IHb]; intros [[o it] inn] I S T; cbn [par_axes leaves]; cbn [ai_iter ai_inner il_order il_iter] in *.
  - unfold axes_iter_views. cbn [ai_iter ai_inner]. now rewrite collect_ok.
  - destruct S as [S|S]; [|discriminate]. destruct T as (T1 & T2 & T3). destruct (iter_split_ok o Dyn it n I S T1) as (x & y & E & Ix & Iy & Lx & Ly & Px & Py).
    unfold axes_iter_split_at, il_split_at. cbn [ai_iter ai_inner il_order il_iter]. rewrite E. cbn [bind fst snd].
    rewrite IHa; cbn [ai_iter ai_inner il_order il_iter]; [|auto|left; now rewrite Lx|now rewrite Px]. cbn [bind].
    rewrite IHb; cbn [ai_iter ai_inner il_order il_iter]; [|auto|left; now rewrite Ly|now rewrite Py]. cbn [bind]. rewrite Px, Py. now rewrite firstn_map, skipn_map. Qed.
Lemma indexed_axes_collect_ok it ps : collect_indexed (ai_iter it) = Ok ps -> indexed_axes_collect it = Ok (map (fun p => (fst p, with_offset (ai_inner it) (snd p))) ps).
Proof. destruct it as [it inn]. unfold collect_indexed, indexed_axes_collect. cbn [ai_iter ai_inner]. destruct (il_len it) as [n| |]; cbn [bind]; try discriminate. generalize (S n). intro fuel. clear n. revert it ps. induction fuel as [|fuel IH]; intros it ps E; cbn [collect_indexed_loop indexed_axes_loop] in *; [discriminate|].
  unfold indexed_next in E. unfold indexed_axes_next, axes_iter_next. cbn [ai_iter ai_inner]. destruct (il_next it) as [([p|], it1)| |] eqn:E1; cbn [bind fst snd option_map] in *; try discriminate.
  - destruct (collect_indexed_loop fuel it1) as [r| |] eqn:E2; cbn [bind] in E; try discriminate. injection E as <-. rewrite (IH it1 r E2). reflexivity.
  - now injection E as <-. Qed.
Lemma par_indexed_axes_ok t : forall it parts, par_places Dyn t (ai_iter it) = Ok parts -> par_indexed_axes t it = Ok (map (map (fun p => (fst p, with_offset (ai_inner it) (snd p)))) parts).
Proof. induction t as [|n a IHa b IHb]; intros it parts E; cbn [par_places par_indexed_axes] in *.
  - destruct (collect_indexed (ai_iter it)) as [ps| |] eqn:E1; cbn [bind] in E; try discriminate. injection E as <-. now rewrite (indexed_axes_collect_ok it ps E1).
  - unfold axes_iter_split_at. destruct (il_split_at Dyn (ai_iter it) n) as [(x, y)| |]; cbn [bind fst snd] in *; try discriminate.
    destruct (par_places Dyn a x) as [pa| |] eqn:Ea; cbn [bind] in E; try discriminate. destruct (par_places Dyn b y) as [pb| |] eqn:Eb; cbn [bind] in E; try discriminate. injection E as <-.
    rewrite (IHa (mkAxesIter x (ai_inner it)) pa Ea). cbn [bind]. rewrite (IHb (mkAxesIter y (ai_inner it)) pb Eb). cbn [bind ai_inner]. now rewrite map_app. Qed.
Lemma leaf_or {t : split_tree} : (exists n a b, t = Node n a b) \/ t = Leaf.
Proof. destruct t; eauto. Qed.
Lemma l_par_axes : forall dflt l axes v ax o tree, accepted l -> lists_axes axes v -> v <> [] -> Forall2 (axis_denotes (ndim l)) v ax -> NoDup ax ->
  size (l_shape l) <> 0%nat -> o <> OB -> tree_within tree (row_major (pick ax 0%nat (l_shape l))) ->
  exists it parts sxs, axes_iter_new dflt l axes o = Ok it /\ par_axes tree it = Ok parts /\
    Permutation sxs (row_major (pick ax 0%nat (l_shape l))) /\
    (o = OC -> sxs = row_major (pick ax 0%nat (l_shape l))) /\ (o = OF -> sxs = col_major (pick ax 0%nat (l_shape l))) /\
    Forall2 (Forall2 (shows_subarray l ax)) (leaves tree sxs) parts /\
    Permutation (flat_map (addrs RowMajor) (concat parts)) (addrs RowMajor l).
Proof. intros dflt l axes v ax o tree A L Nv D ND Sz HB TW. apply good_accepted in A. assert (S : safe l) by (split; apply A). pose proof (denotes_lt _ _ _ D) as B.
  pose proof (except_perm (ndim l) ax ND B) as P.
  assert (Sq : size (l_shape l) = (size (pick ax 0%nat (l_shape l)) * size (pick (axes_except (ndim l) ax) 0%nat (l_shape l)))%nat).
  { rewrite <- size_app, <- pick_app. symmetry. apply size_perm. now apply pick_perm. }
  assert (Sr : size (pick (axes_except (ndim l) ax) 0%nat (l_shape l)) <> 0%nat) by nia.
  assert (HG : o = OK \/ o = OG -> good (sub ax l)) by (intros _; eapply sub_good; eauto).
  destruct (axes_iter_collect dflt l axes v ax o S L Nv D ND Sr HB HG) as (it & sxs & ps & E & (O1 & O2 & O3 & O4) & Ei & I & Pp & Sl & Ep & F & C).
  assert (Tl : forall {X Y} (t : split_tree) (xs : list X) (ys : list Y), length xs = length ys -> tree_within t xs -> tree_within t ys).
  { intros X Y t. induction t as [|n a IHa b IHb]; intros xs ys H; cbn [tree_within]; auto. intros (H1 & H2 & H3). split; [lia|]. split; [apply (IHa (firstn n xs)); auto; rewrite !firstn_length; lia|apply (IHb (skipn n xs)); auto; rewrite !skipn_length; lia]. }
  assert (Lp : length ps = length sxs) by (rewrite Ep; apply map_length).
  assert (R : par_axes tree it = Ok (leaves tree (map (with_offset (inner l ax)) ps))).
  { rewrite par_axes_ok; auto; [now rewrite Ei, Pp|left; rewrite Sl; nia|]. rewrite Pp. eapply Tl; [|exact TW]. rewrite Lp. symmetry. now apply Permutation_length. }
  exists it, (leaves tree (map (with_offset (inner l ax)) ps)), sxs. split; auto. split; auto. split; auto. split; auto. split; auto. split; [|rewrite concat_leaves; exact C].
  assert (Fl : forall {X Y} (Q : X -> Y -> Prop) t xs ys, Forall2 Q xs ys -> Forall2 (Forall2 Q) (leaves t xs) (leaves t ys)).
  { intros X Y Q t. induction t as [|n a IHa b IHb]; intros xs ys H; cbn [leaves]; [constructor; auto|]. apply Forall2_app; [apply IHa|apply IHb]; revert n ys H; clear; induction xs as [|x xs IH]; intros [|n] ys H; inversion H; subst; cbn; auto. }
  apply Fl. exact F. Qed.
Lemma l_par_axes_mut : forall (T : Type) dflt (t : tensor T) f axes v ax o tree r, tensor_ok t -> injective (t_layout t) -> lists_axes axes v -> v <> [] -> Forall2 (axis_denotes (ndim (t_layout t))) v ax -> NoDup ax ->
  size (t_shape t) <> 0%nat -> o <> OB -> tree_within tree (row_major (pick ax 0%nat (t_shape t))) ->
  exists it, axes_iter_new dflt (t_layout t) axes o = Ok it /\ (par_axes_updates f tree it (t_data t) r ->
    exists d, r = Ok d /\ length d = length (t_data t) /\ (forall ix, valid (t_shape t) ix -> elem d (t_layout t) ix = option_map f (at_ t ix)) /\ (forall p, ~ In p (addrs RowMajor (t_layout t)) -> peek d p = peek (t_data t) p)).
Proof. intros T dflt t f axes v ax o tree r Ht Inj L Nv D ND Sz HB TW. destruct (l_par_axes dflt (t_layout t) axes v ax o tree (proj1 Ht) L Nv D ND Sz HB TW) as (it & parts & sxs & E & R & _ & _ & _ & _ & C).
  exists it. split; auto. unfold par_axes_updates. rewrite R. intros (ps & P & ->). rewrite C in P. assert (NDp : NoDup ps) by (eapply Permutation_NoDup; [symmetry; exact P|now apply addrs_nodup]).
  destruct (update_cells f ps (t_data t) NDp) as (d & Ed & Ld & A & B). { intros p Hp. apply (element_there t RowMajor); auto. eapply Permutation_in; eauto. }
  exists d. split; auto. split; auto. split.
  - intros ix V. unfold elem. rewrite A; auto. eapply Permutation_in; [symmetry; exact P|]. apply (in_map (addr (t_layout t))), in_enum, V.
  - intros p Hp. apply B. intro X. apply Hp. eapply Permutation_in; eauto. Qed.
Lemma l_par_indexed_axes : forall dflt l axes v ax o tree, accepted l -> lists_axes axes v -> v <> [] -> Forall2 (axis_denotes (ndim l)) v ax -> NoDup ax ->
  size (l_shape l) <> 0%nat -> tree_within tree (enum o (pick ax 0%nat (l_shape l))) ->
  exists it parts, indexed_axes_new dflt l axes (match o with RowMajor => OC | ColMajor => OF end) = Ok it /\ par_indexed_axes tree it = Ok parts /\
    map (map fst) parts = leaves tree (enum o (pick ax 0%nat (l_shape l))) /\
    Forall (Forall (fun p => shows_subarray l ax (fst p) (snd p))) parts.
Proof. intros dflt l axes v ax o tree A L Nv D ND Sz TW. apply good_accepted in A. assert (S : safe l) by (split; apply A). pose proof (denotes_lt _ _ _ D) as B.
  pose proof (except_perm (ndim l) ax ND B) as P.
  assert (Sq : size (l_shape l) = (size (pick ax 0%nat (l_shape l)) * size (pick (axes_except (ndim l) ax) 0%nat (l_shape l)))%nat).
  { rewrite <- size_app, <- pick_app. symmetry. apply size_perm. now apply pick_perm. }
  assert (Sr : size (pick (axes_except (ndim l) ax) 0%nat (l_shape l)) <> 0%nat) by nia.
  destruct (sub_safe l ax S ND B Sr) as [W N]. destruct (new_indexed dflt Dyn (sub ax l) o W N) as (it & E & O & I & Li & Q). subst o.
  pose proof (par_places_ok Dyn tree it I) as R. rewrite Li, Q in R. cbn [sub l_shape] in R. fold (sub ax l) in R. assert (Sx : size (pick ax 0%nat (l_shape l)) <> 0%nat) by nia. specialize (R (or_introl Sx) TW).
  exists (mkAxesIter it (inner l ax)), (map (map (fun p => (fst p, with_offset (inner l ax) (snd p)))) (leaves tree (items (sub ax l) (enum (il_order it) (pick ax 0%nat (l_shape l)))))).
  split; [|split; [|split]].
  - unfold indexed_axes_new. destruct (il_order it); rewrite (axes_iter_new_ok dflt l axes v ax _ S L Nv D ND), E; reflexivity.
  - now apply par_indexed_axes_ok.
  - rewrite map_map. erewrite map_ext; [|intro a; rewrite map_map; reflexivity]. rewrite <- leaves_map. f_equal. unfold items. rewrite map_map. apply map_id.
  - apply Forall_forall. intros part Hp. apply in_map_iff in Hp as (part' & <- & Hp). apply Forall_forall. intros p Hq. apply in_map_iff in Hq as (p' & <- & Hq). pose proof (leaves_in _ _ _ _ Hp Hq) as H. apply in_map_iff in H as (sx & <- & H). cbn [fst snd]. apply in_enum in H.
    now apply (view_at_ok l v ax). Qed.
