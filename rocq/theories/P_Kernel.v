(** Proofs about the elementwise kernels. *)
From Verif Require Import Base Spec P_Index P_List M_Layout P_Layout P_Bounds P_Contig P_Strides Q_Layout M_Indexer P_Indexer M_Broadcast M_Rearr M_Iter P_Iter P_Rearr P_BinOp Q_Rearr M_Kernel.
Local Open Scope Z_scope.

(** ** fold_res *)
Lemma fold_res_app {A S} (f : S -> A -> res S) l1 l2 : forall s, fold_res f (l1 ++ l2) s = let* s' := fold_res f l1 s in fold_res f l2 s'.
Proof. induction l1 as [|x l1 IH]; intro s; cbn [app fold_res bind]; auto. destruct (f s x); cbn [bind]; auto. Qed.
Lemma fold_res_ext {A S} (f g : S -> A -> res S) l : (forall x s, In x l -> f s x = g s x) -> forall s, fold_res f l s = fold_res g l s.
Proof. induction l as [|x l IH]; intros H s; cbn [fold_res]; auto. rewrite H by now left. destruct (g s x); cbn [bind]; auto. apply IH. intros; apply H; now right. Qed.
Lemma fold_res_map {A B S} (f : S -> B -> res S) (g : A -> B) l : forall s, fold_res f (map g l) s = fold_res (fun s x => f s (g x)) l s.
Proof. induction l as [|x l IH]; intro s; cbn [fold_res map]; auto. destruct (f s (g x)); cbn [bind]; auto. Qed.
Lemma fold_res_flat_map {A B S} (f : S -> B -> res S) (g : A -> list B) l : forall s, fold_res f (flat_map g l) s = fold_res (fun s x => fold_res f (g x) s) l s.
Proof. induction l as [|x l IH]; intro s; cbn [fold_res flat_map]; auto. rewrite fold_res_app. destruct (fold_res f (g x) s); cbn [bind]; auto. Qed.

(** ** lock step *)
Lemma zip_all_cons p q r : zip_all (p :: q :: r) = map (fun x => fst x :: snd x) (combine p (zip_all (q :: r))).
Proof. reflexivity. Qed.
Lemma combine_map {A B C} (f : A -> B) (g : A -> C) l : combine (map f l) (map g l) = map (fun x => (f x, g x)) l.
Proof. induction l; cbn; congruence. Qed.
Lemma zip_all_map {I L} (g : L -> I -> Z) ixs ls : ls <> [] -> zip_all (map (fun l => map (g l) ixs) ls) = map (fun ix => map (fun l => g l ix) ls) ixs.
Proof. induction ls as [|l ls IH]; intro H; [congruence|]. destruct ls as [|l' ls].
  - cbn. now rewrite map_map.
  - cbn [map] in *. rewrite zip_all_cons, IH by discriminate. rewrite combine_map, map_map. reflexivity. Qed.
Definition blow (n : nat) (p : Z) : list Z := consecutive p n.
Definition blow_t (n : nat) (p : list Z) : list (list Z) := map (fun i => map (fun x => x + Z.of_nat i) p) (seq 0 n).
Lemma combine_blow n p q : length p = length q -> combine (flat_map (blow n) p) (flat_map (blow_t n) q) =
  flat_map (fun x => map (fun i => (fst x + Z.of_nat i, map (fun z => z + Z.of_nat i) (snd x))) (seq 0 n)) (combine p q).
Proof. revert q; induction p as [|a p IH]; intros [|b q] L; try discriminate L; auto. cbn [flat_map combine].
  rewrite combine_app. 2:{ unfold blow, blow_t, consecutive. now rewrite !map_length. } rewrite IH by (cbn in L; lia). f_equal. unfold blow, blow_t, consecutive. now rewrite combine_map. Qed.
Lemma zip_all_length n pss : pss <> [] -> Forall (fun p => length p = n) pss -> length (zip_all pss) = n.
Proof. induction pss as [|p pss IH]; intros H F; [congruence|]. inversion F; subst. destruct pss as [|q pss]; [cbn; now rewrite map_length|].
  rewrite zip_all_cons, map_length, combine_length, IH by (auto; discriminate). lia. Qed.
Lemma zip_all_blow n m pss : pss <> [] -> Forall (fun p => length p = m) pss -> zip_all (map (flat_map (blow n)) pss) = flat_map (blow_t n) (zip_all pss).
Proof. induction pss as [|p pss IH]; intros H F; [congruence|]. inversion F; subst. destruct pss as [|q pss].
  - cbn [map zip_all]. rewrite flat_map_map, map_flat_map. apply flat_map_ext_in. intros x _. unfold blow, blow_t, consecutive. rewrite map_map. reflexivity.
  - cbn [map] in *. rewrite !zip_all_cons, IH by (auto; discriminate). rewrite combine_blow by (symmetry; apply zip_all_length; [discriminate|auto]).
    rewrite map_flat_map, flat_map_map. apply flat_map_ext_in. intros x _. unfold blow_t. rewrite map_map. reflexivity. Qed.

(** ** the layouts of one joint translation have one shape *)
Lemma translate_k_shapes ls ls' sh : Forall (fun l => l_shape l = sh) ls -> translate_to_col_major RowMajor ls OK = Ok ls' -> exists sh', Forall (fun l => l_shape l = sh') ls'.
Proof. intros F E. destruct ls as [|l0 r]; [cbn in E; injection E as <-; exists []; constructor|]. unfold translate_to_col_major in E.
  apply bind_ok in E as (u & _ & E). cbv zeta in E. apply bind_ok in E as ([g ax] & _ & E). cbn [snd] in E. apply map_res_ok in E.
  set (v := map Z.of_nat ax) in E. exists (map (fun a => nth a sh 0%nat) (match normalize_axes_index (AxVec v) (length sh) false false with Ok ax => ax | _ => [] end)).
  revert F E. generalize (l0 :: r). clear. intros ls F E. revert F. induction E as [|l l' ls ls' H E IH]; intro F; constructor.
  - inversion F as [|? ? E1 F']; subst. unfold transpose in H. destruct (negb _); [discriminate|]. apply bind_ok in H as (ax' & H & H'). injection H' as <-. cbn [l_shape]. unfold ndim in H. now rewrite H.
  - inversion F; subst. now apply IH. Qed.

(** ** the kernels visit every index once, all operands in step *)
Definition tuple (ls : list layout) (ix : list nat) : list Z := map (fun l => addr l ix) ls.
Lemma jointly_dispatch k ixs ls ls' : Forall2 (jointly ixs) ls ls' -> map_res (dispatch_positions k) ls' = Ok (map (fun l => map (addr l) ixs) ls).
Proof. intro F. apply map_res_ok. induction F as [|l l' ls ls' (W & N & _ & A) F IH]; cbn [map]; constructor; auto. rewrite <- A. now apply dispatch_ok. Qed.
Lemma forall2_exists {A B C} (P : A -> C -> Prop) (Q : A -> B -> C -> Prop) la lb : Forall2 (fun a b => exists c, P a c /\ Q a b c) la lb ->
  exists lc, Forall2 P la lc /\ Forall2 (fun x c => Q (fst x) (snd x) c) (combine la lb) lc.
Proof. induction 1 as [|a b la lb (c & H1 & H2) F (lc & I1 & I2)]; [exists []; split; constructor|]. exists (c :: lc). cbn. split; constructor; auto. Qed.

Lemma chunk_steps k full contig n sh' : full <> [] -> Forall (fun l => wf l /\ nonneg l) full -> Forall (fun l => l_shape l = sh') full -> with_contig full = (contig, n) -> n <> 0%nat ->
  exists pss pss', map_res (dispatch_positions k) full = Ok pss /\ map_res (dispatch_positions k) contig = Ok pss' /\ zip_all pss = flat_map (blow_t n) (zip_all pss').
Proof. intros NE G Sh E Hn. pose proof (l_contig k full contig n sh' G Sh E Hn) as F.
  assert (exists pss', map_res (dispatch_positions k) contig = Ok pss' /\ map_res (dispatch_positions k) full = Ok (map (flat_map (blow n)) pss') /\ (contig <> [])) as (pss' & E1 & E2 & NE').
  { clear - F NE. destruct F as [|l l' full contig H0 F]; [congruence|]. assert (X : forall full contig, Forall2 (fun l l' => exists ps, dispatch_positions k l' = Ok ps /\ dispatch_positions k l = Ok (flat_map (fun p => consecutive p n) ps)) full contig ->
      exists pss', map_res (dispatch_positions k) contig = Ok pss' /\ map_res (dispatch_positions k) full = Ok (map (flat_map (blow n)) pss')).
    { clear. induction 1 as [|l l' full contig (ps & H1 & H2) F (pss & I1 & I2)]; [exists []; auto|]. exists (ps :: pss). cbn [map_res]. rewrite H1, I1, H2, I2. auto. }
    destruct (X (l :: full) (l' :: contig)) as (pss' & X1 & X2); [constructor; auto|]. exists pss'. split; auto. split; auto. discriminate. }
  exists (map (flat_map (blow n)) pss'), pss'. split; auto. split; auto.
  assert (N' : pss' <> []). { intros ->. destruct contig; [congruence|]. cbn in E1. apply bind_ok in E1 as (? & _ & E1). apply bind_ok in E1 as (? & _ & E1). discriminate. }
  apply (zip_all_blow n (size sh' / n) pss' N').
  apply map_res_ok in E2. rewrite Forall_forall in G, Sh. clear - E2 G Sh Hn. remember (map (flat_map (blow n)) pss') as q eqn:Eq. revert pss' Eq. induction E2 as [|l p full q H F IH]; intros pss' Eq; destruct pss' as [|p' pss']; try discriminate Eq; constructor.
  - cbn [map] in Eq. injection Eq as -> Eq. destruct (G l) as [W N]; [now left|]. rewrite dispatch_ok in H by auto. injection H as H. apply (f_equal (@length Z)) in H. rewrite addrs_length, (Sh l) in H by now left.
    rewrite (flat_map_length_const _ _ n) in H by (intros; unfold blow, consecutive; now rewrite map_length, seq_length). rewrite H. now rewrite Nat.div_mul.
  - cbn [map] in Eq. injection Eq as _ Eq. apply IH; auto; intros; [apply G|apply Sh]; now right. Qed.

Lemma jointly_wf ixs ls ls' : Forall2 (jointly ixs) ls ls' -> Forall (fun l => wf l /\ nonneg l) ls'.
Proof. induction 1 as [|l l' ls ls' (W & N & _) F IH]; constructor; auto. Qed.
Lemma joint_steps k ls sh : ls <> [] -> Forall good ls -> Forall (fun l => l_shape l = sh) ls ->
  exists full ixs pss, translate_to_col_major RowMajor ls OK = Ok full /\ Permutation ixs (row_major sh) /\ map_res (dispatch_positions k) full = Ok pss /\ zip_all pss = map (tuple ls) ixs /\
    forall contig n, with_contig full = (contig, n) -> n <> 0%nat -> exists pss', map_res (dispatch_positions k) contig = Ok pss' /\ map (tuple ls) ixs = flat_map (blow_t n) (zip_all pss').
Proof. intros NE G Sh. destruct (joint_ok RowMajor ls OK sh NE G Sh) as (full & ixs & E & P & F & _); [auto|].
  destruct (translate_k_shapes ls full sh Sh E) as (sh' & Sh').
  exists full, ixs, (map (fun l => map (addr l) ixs) ls). split; auto. split; auto. split; [now apply jointly_dispatch|]. split; [now apply zip_all_map|].
  intros contig n Ec Hn. assert (NF : full <> []). { destruct F; [congruence|discriminate]. }
  destruct (chunk_steps k full contig n sh' NF (jointly_wf _ _ _ F) Sh' Ec Hn) as (pss & pss' & E1 & E2 & E3). exists pss'. split; auto. rewrite <- E3.
  rewrite (jointly_dispatch k _ _ _ F) in E1. injection E1 as <-. symmetry. now apply zip_all_map. Qed.
Lemma inner_blow {S} n (body : S -> list Z -> res S) l s : fold_res (inner n body) l s = fold_res body (flat_map (blow_t n) l) s.
Proof. rewrite fold_res_flat_map. apply fold_res_ext. intros x s' _. unfold inner, blow_t. now rewrite fold_res_map. Qed.
Lemma joint_kernel_ok {S} k ls sh (body : S -> list Z -> res S) s : ls <> [] -> Forall good ls -> Forall (fun l => l_shape l = sh) ls ->
  exists ixs, Permutation ixs (row_major sh) /\ joint_kernel k ls body s = fold_res (fun s ix => body s (tuple ls ix)) ixs s.
Proof. intros NE G Sh. destruct (joint_steps k ls sh NE G Sh) as (full & ixs & pss & E & P & E1 & E2 & C). exists ixs. split; auto. unfold joint_kernel. rewrite E. cbn [bind].
  destruct (with_contig full) as [contig n]. rewrite <- (fold_res_map body (tuple ls)). destruct (contig_switch <=? n)%nat eqn:Sw.
  - destruct (C contig n eq_refl) as (pss' & E3 & E4). { apply Nat.leb_le in Sw. unfold contig_switch in Sw. lia. } unfold dispatch. rewrite E3. cbn [bind]. rewrite inner_blow. now rewrite <- E4.
  - unfold dispatch. rewrite E1. cbn [bind]. now rewrite E2. Qed.
Lemma blow_t_1 l : flat_map (blow_t 1) l = l.
Proof. induction l as [|p l IH]; cbn [flat_map]; auto. rewrite IH. unfold blow_t. cbn. f_equal. rewrite <- (map_id p) at 2. apply map_ext. intro; lia. Qed.
Lemma joint_par_ok {S} k ls sh (body : S -> list Z -> res S) s r : ls <> [] -> Forall good ls -> Forall (fun l => l_shape l = sh) ls -> joint_par k ls body s r ->
  exists ixs, Permutation ixs (row_major sh) /\ r = fold_res (fun s ix => body s (tuple ls ix)) ixs s.
Proof. intros NE G Sh. destruct (joint_steps k ls sh NE G Sh) as (full & ixs & pss & E & P & E1 & E2 & C). unfold joint_par. rewrite E. cbn [bind].
  destruct (with_contig full) as [contig n].
  assert (X : (if (contig_switch <=? n)%nat then par_steps k contig n else par_steps k full 1) = Ok (map (tuple ls) ixs)).
  { destruct (contig_switch <=? n)%nat eqn:Sw; unfold par_steps.
    - destruct (C contig n eq_refl) as (pss' & E3 & E4). { apply Nat.leb_le in Sw. unfold contig_switch in Sw. lia. } rewrite E3. cbn [bind]. now rewrite E4.
    - rewrite E1. cbn [bind]. f_equal. change (flat_map (blow_t 1) (zip_all pss) = map (tuple ls) ixs). now rewrite blow_t_1. }
  rewrite X. intros (steps' & Ps & ->). apply Permutation_map_inv in Ps as (ixs' & -> & P'). exists ixs'. split; [now rewrite <- P', P|]. apply fold_res_map. Qed.

(** ** one operand *)
Lemma translate_g_gen l : wf l -> nonneg l -> distinct l -> size (l_shape l) <> 0%nat -> exists g, translate_unary RowMajor l OG = Ok g /\ wf g /\ nonneg g /\ injective g /\
  (forall z, (exists j, valid (l_shape g) j /\ addr g j = z) <-> exists i, valid (l_shape l) i /\ addr l i = z).
Proof. intros W N D S. unfold translate_unary, greedy_layout, l_size. replace (size (l_shape l) =? 0)%nat with false by (symmetry; now apply Nat.eqb_neq). cbn [bind].
  set (ax := sort_by _ _). assert (P : Permutation ax (seq 0 (ndim l))) by apply sort_seq_perm. rewrite transpose_nat by auto. cbn [unwrap bind fst].
  exists (collapse (permuted ax l)). split; auto. pose proof (permuted_renames ax l P W) as R. pose proof (permuted_wf ax l P W) as Wp.
  assert (Sp : size (l_shape (permuted ax l)) <> 0%nat). { cbn [permuted l_shape]. rewrite (size_perm _ _ (pick_perm ax 0%nat (l_shape l) P)). auto. }
  destruct (collapse_ok (permuted ax l) Wp (renames_nonneg _ _ _ R N) Sp) as (C1 & C2 & C3 & C4). split; auto. split; auto. split.
  - apply C4. apply permuted_distinct; auto.
  - intro z. rewrite C3. pose proof (renames_perm _ _ _ RowMajor RowMajor R) as Pm. split; intros (j & V & E).
    + assert (X : In z (addrs RowMajor (permuted ax l))). { unfold addrs. rewrite in_map_iff. exists j. split; auto. now apply in_enum. }
      eapply Permutation_in in X; [|exact Pm]. unfold addrs in X. apply in_map_iff in X as (i & E' & Hi). exists i. split; auto. now apply in_enum in Hi.
    + assert (X : In z (addrs RowMajor l)). { unfold addrs. rewrite in_map_iff. exists j. split; auto. now apply in_enum. }
      eapply Permutation_in in X; [|apply Permutation_sym, Pm]. unfold addrs in X. apply in_map_iff in X as (i & E' & Hi). exists i. split; auto. now apply in_enum in Hi. Qed.
Lemma enum_nil o sh : size sh = 0%nat -> enum o sh = [].
Proof. intro H. apply length_zero_iff_nil. destruct o; cbn; [rewrite length_row_major|rewrite length_col_major]; auto. Qed.
Lemma single_positions k l : wf l -> nonneg l -> distinct l ->
  exists g ps, translate_unary RowMajor l OG = Ok g /\ dispatch_positions k g = Ok ps /\ NoDup ps /\ (forall z, In z ps <-> exists ix, valid (l_shape l) ix /\ addr l ix = z) /\ wf g /\ nonneg g.
Proof. intros W N D. destruct (Nat.eq_dec (size (l_shape l)) 0) as [Z0|Z0].
  - exists l, []. split; [unfold translate_unary, greedy_layout, l_size; rewrite Z0; reflexivity|]. split. { rewrite dispatch_ok by auto. unfold addrs. now rewrite enum_nil. }
    split; [constructor|]. split; auto. intro z. split; [intros []|]. intros (ix & V & _). now apply valid_size_pos in V.
  - destruct (translate_g_gen l W N D Z0) as (g & E & Wg & Ng & I & Q). exists g, (addrs ColMajor g). split; auto. split; [now apply dispatch_ok|]. split; [|split; auto].
    + unfold addrs. apply NoDup_map_inj_in; [|apply enum_nodup]. intros x y Hx Hy. apply in_enum in Hx, Hy. now apply I.
    + intro z. rewrite <- Q. unfold addrs. rewrite in_map_iff. split; intros (x & A & B); exists x; [apply in_enum in B|split; [|apply in_enum]]; auto. Qed.
Lemma single_steps k l : wf l -> nonneg l -> distinct l ->
  exists g ps, translate_unary RowMajor l OG = Ok g /\ NoDup ps /\ (forall z, In z ps <-> exists ix, valid (l_shape l) ix /\ addr l ix = z) /\
    map_res (dispatch_positions k) [g] = Ok [ps] /\
    forall contig n, with_contig [g] = (contig, n) -> n <> 0%nat -> exists pss', map_res (dispatch_positions k) contig = Ok pss' /\ map (fun z => [z]) ps = flat_map (blow_t n) (zip_all pss').
Proof. intros W N D. destruct (single_positions k l W N D) as (g & ps & E & Ed & ND & Q & Wg & Ng). exists g, ps. split; auto. split; auto. split; auto.
  assert (M : map_res (dispatch_positions k) [g] = Ok [ps]) by (cbn; now rewrite Ed). split; auto.
  intros contig n Ec Hn. destruct (chunk_steps k [g] contig n (l_shape g)) as (pss & pss' & E1 & E2 & E3); auto; [discriminate|].
  exists pss'. split; auto. rewrite <- E3. rewrite M in E1. injection E1 as <-. reflexivity. Qed.
Lemma single_kernel_ok {S} k sw l (body : S -> list Z -> res S) s : (1 <= sw)%nat -> wf l -> nonneg l -> distinct l ->
  exists ps, NoDup ps /\ (forall z, In z ps <-> exists ix, valid (l_shape l) ix /\ addr l ix = z) /\ single_kernel k sw l body s = fold_res (fun s z => body s [z]) ps s.
Proof. intros Hsw W N D. destruct (single_steps k l W N D) as (g & ps & E & ND & Q & M & C). exists ps. split; auto. split; auto. unfold single_kernel. rewrite E. cbn [bind].
  destruct (with_contig [g]) as [contig n]. rewrite <- (fold_res_map body (fun z => [z])). destruct (sw <=? n)%nat eqn:Sw.
  - destruct (C contig n eq_refl) as (pss' & E3 & E4). { apply Nat.leb_le in Sw. lia. } unfold dispatch. rewrite E3. cbn [bind]. rewrite inner_blow. now rewrite <- E4.
  - unfold dispatch. rewrite M. reflexivity. Qed.
Lemma single_par_ok {S} k l (body : S -> list Z -> res S) s r : wf l -> nonneg l -> distinct l -> single_par k l body s r ->
  exists ps, NoDup ps /\ (forall z, In z ps <-> exists ix, valid (l_shape l) ix /\ addr l ix = z) /\ r = fold_res (fun s z => body s [z]) ps s.
Proof. intros W N D. destruct (single_steps k l W N D) as (g & ps & E & ND & Q & M & C). unfold single_par. rewrite E. cbn [bind].
  destruct (with_contig [g]) as [contig n].
  assert (X : (if (contig_switch <=? n)%nat then par_steps k contig n else par_steps k [g] 1) = Ok (map (fun z => [z]) ps)).
  { destruct (contig_switch <=? n)%nat eqn:Sw; unfold par_steps.
    - destruct (C contig n eq_refl) as (pss' & E3 & E4). { apply Nat.leb_le in Sw. unfold contig_switch in Sw. lia. } rewrite E3. cbn [bind]. now rewrite E4.
    - rewrite M. cbn [bind]. f_equal. change (flat_map (blow_t 1) (zip_all [ps]) = map (fun z => [z]) ps). now rewrite blow_t_1. }
  rewrite X. intros (steps' & Ps & ->). apply Permutation_map_inv in Ps as (ps' & -> & P'). exists ps'. split; [eapply Permutation_NoDup; eauto|]. split; [|apply fold_res_map].
  intro z. rewrite <- Q. split; apply Permutation_in; auto. now apply Permutation_sym. Qed.

(** ** storage *)
Lemma zget_peek {T} (c : list T) p v : zget c p = Ok v <-> peek c p = Some v.
Proof. unfold zget, peek, vget. destruct (p <? 0); [split; discriminate|]. destruct (nth_error _ _); split; congruence. Qed.
Lemma peek_inside {T} (c : list T) p : 0 <= p < Z.of_nat (length c) <-> exists v, peek c p = Some v.
Proof. unfold peek. destruct (Z.ltb_spec p 0); [split; [lia|intros (v & H0); discriminate]|]. destruct (nth_error c (Z.to_nat p)) eqn:E.
  - split; [eauto|]. intros _. assert (Z.to_nat p < length c)%nat by (apply nth_error_Some; congruence). lia.
  - split; [|intros (v & H0); discriminate]. apply nth_error_None in E. lia. Qed.
Lemma zset_ok {T} (c : list T) p v : 0 <= p < Z.of_nat (length c) -> exists c', zset c p v = Ok c' /\ length c' = length c /\ peek c' p = Some v /\ forall q, q <> p -> peek c' q = peek c q.
Proof. intro H. unfold zset, vset. replace (p <? 0) with false by lia. replace (Z.to_nat p <? length c)%nat with true by lia. eexists. split; [reflexivity|]. split; [apply upd_length|].
  unfold peek. replace (p <? 0) with false by lia. split; [apply nth_error_upd_eq; lia|]. intros q Hq. destruct (Z.ltb_spec q 0); auto. apply nth_error_upd_neq. lia. Qed.
Lemma peek_ext {T} (c c' : list T) : length c = length c' -> (forall p, peek c p = peek c' p) -> c = c'.
Proof. intros L H. apply nth_error_ext. intro k. specialize (H (Z.of_nat k)). unfold peek in H. replace (Z.of_nat k <? 0) with false in H by lia. now rewrite Nat2Z.id in H. Qed.

Definition modify {I C} (pos : I -> Z) (h : I -> C -> res C) (c : list C) (i : I) : res (list C) := let* x := zget c (pos i) in let* y := h i x in zset c (pos i) y.
Lemma modify_ok {I C} (pos : I -> Z) (h : I -> C -> res C) c i x y : peek c (pos i) = Some x -> h i x = Ok y ->
  exists c', modify pos h c i = Ok c' /\ length c' = length c /\ peek c' (pos i) = Some y /\ forall q, q <> pos i -> peek c' q = peek c q.
Proof. intros H Hy. unfold modify. pose proof H as H'. apply zget_peek in H'. rewrite H'. cbn [bind]. rewrite Hy. cbn [bind]. apply zset_ok. apply peek_inside. eauto. Qed.
Lemma modify_fold {I C} (pos : I -> Z) (h : I -> C -> res C) ixs : forall c, NoDup (map pos ixs) -> (forall i, In i ixs -> 0 <= pos i < Z.of_nat (length c)) ->
  (forall i x, In i ixs -> exists y, h i x = Ok y) ->
  exists c', fold_res (modify pos h) ixs c = Ok c' /\ length c' = length c /\ (forall i x, In i ixs -> peek c (pos i) = Some x -> exists y, h i x = Ok y /\ peek c' (pos i) = Some y) /\
    (forall p, ~ In p (map pos ixs) -> peek c' p = peek c p).
Proof. induction ixs as [|i ixs IH]; intros c ND R T; cbn [fold_res].
  - exists c. repeat split; auto. intros i x [].
  - inversion ND as [|? ? H1 H2]; subst. destruct (proj1 (peek_inside c (pos i)) (R i (or_introl eq_refl))) as (x & Hx). destruct (T i x) as (y & Hy); [now left|]. destruct (modify_ok pos h c i x y Hx Hy) as (c1 & E1 & L1 & P1 & Q1). rewrite E1. cbn [bind].
    destruct (IH c1) as (c' & E' & L' & A' & B'); auto. { intros j Hj. rewrite L1. apply R. now right. } { intros j z Hj. apply T. now right. }
    exists c'. split; auto. split; [congruence|]. split.
    + intros j z [->|Hj] Hz.
      * rewrite B' by auto. rewrite P1. exists y. split; auto. congruence.
      * apply A'; auto. rewrite Q1; auto. intro X. apply H1. rewrite <- X. now apply in_map.
    + intros p Hp. cbn [map In] in Hp. rewrite B' by tauto. apply Q1. intro X. apply Hp. now left. Qed.
Lemma write_fold {I C} (pos : I -> Z) (w : I -> res C) ixs : forall c, (forall i, In i ixs -> 0 <= pos i < Z.of_nat (length c)) -> (forall i, In i ixs -> exists y, w i = Ok y) ->
  (forall i j, In i ixs -> In j ixs -> pos i = pos j -> w i = w j) ->
  exists c', fold_res (modify pos (fun i _ => w i)) ixs c = Ok c' /\ length c' = length c /\ (forall i, In i ixs -> exists y, w i = Ok y /\ peek c' (pos i) = Some y) /\
    (forall p, ~ In p (map pos ixs) -> peek c' p = peek c p).
Proof. induction ixs as [|i ixs IH]; intros c R T K; cbn [fold_res].
  - exists c. repeat split; auto. intros i [].
  - destruct (proj1 (peek_inside c (pos i)) (R i (or_introl eq_refl))) as (x & Hx). destruct (T i) as (y & Hy); [now left|]. destruct (modify_ok pos (fun i _ => w i) c i x y Hx Hy) as (c1 & E1 & L1 & P1 & Q1). rewrite E1. cbn [bind].
    destruct (IH c1) as (c' & E' & L' & A' & B'). { intros j Hj. rewrite L1. apply R. now right. } { intros j Hj. apply T. now right. } { intros a b Ha Hb. apply K; now right. }
    exists c'. split; auto. split; [congruence|]. split.
    + intros j [->|Hj]; auto. destruct (in_dec Z.eq_dec (pos j) (map pos ixs)) as [I0|I0].
      * apply in_map_iff in I0 as (q & Eq & Hq). destruct (A' q Hq) as (z & Z1 & Z2). exists z. split; [|congruence]. rewrite <- Z1. apply K; [now left|now right|auto].
      * exists y. split; auto. now rewrite B'.
    + intros p Hp. cbn [map In] in Hp. rewrite B' by tauto. apply Q1. intro X. apply Hp. now left. Qed.

(** ** what the kernels do to the storage *)
Lemma bind_assoc {A B C} (r : res A) (f : A -> res B) (g : B -> res C) : bind (bind r f) g = bind r (fun x => bind (f x) g).
Proof. now destruct r. Qed.
Lemma bind_ext {A B} (r : res A) (f g : A -> res B) : (forall x, f x = g x) -> bind r f = bind r g.
Proof. intro H. destruct r; cbn; auto. Qed.
Lemma fold_res_ext' {A S} (f g : S -> A -> res S) l s : (forall s x, f s x = g s x) -> fold_res f l s = fold_res g l s.
Proof. intro H. revert s; induction l; intro s; cbn; auto. rewrite H. destruct (g s a); cbn; auto. Qed.
Definition writes3 {A B C} (a : list A) (la : layout) (b : list B) (lb : layout) (f : C -> A -> B -> C) (ix : list nat) (x : C) : res C :=
  let* y := zget a (addr la ix) in let* z := zget b (addr lb ix) in Ok (f x y z).
Definition writes2 {A C} (a : list A) (la : layout) (f : C -> A -> C) (ix : list nat) (x : C) : res C := let* y := zget a (addr la ix) in Ok (f x y).
Lemma cell3_modify {A B C} (a : list A) la (b : list B) lb (f : C -> A -> B -> C) c lc ix : cell3 a b f c (tuple [lc; la; lb] ix) = modify (addr lc) (writes3 a la b lb f) c ix.
Proof. unfold cell3, modify, writes3, tuple. cbn [map]. apply bind_ext. intro x. rewrite bind_assoc. apply bind_ext. intro y. rewrite bind_assoc. reflexivity. Qed.
Lemma cell2_modify {A C} (a : list A) la (f : C -> A -> C) c lc ix : cell2 a f c (tuple [lc; la] ix) = modify (addr lc) (writes2 a la f) c ix.
Proof. unfold cell2, modify, writes2, tuple. cbn [map]. apply bind_ext. intro x. rewrite bind_assoc. reflexivity. Qed.
Lemma cell1_modify {C} (f : C -> C) c p : cell1 f c [p] = modify (fun p => p) (fun _ x => Ok (f x)) c p.
Proof. reflexivity. Qed.
Lemma elem_inside {T} (a : list T) l ix : inside l (length a) -> valid (l_shape l) ix -> exists v, elem a l ix = Some v.
Proof. intros I V. unfold elem. apply peek_inside. now apply I. Qed.

(** every order of the element steps gives the storage in which each element was updated once *)
Lemma steps_modify {C} (c : list C) lc (h : list nat -> C -> res C) ixs : inside lc (length c) -> injective lc -> Permutation ixs (row_major (l_shape lc)) ->
  (forall ix x, valid (l_shape lc) ix -> exists y, h ix x = Ok y) ->
  exists c', fold_res (modify (addr lc) h) ixs c = Ok c' /\ untouched_outside lc c c' /\
    forall ix, valid (l_shape lc) ix -> exists x y, elem c lc ix = Some x /\ h ix x = Ok y /\ elem c' lc ix = Some y.
Proof. intros I J P T. assert (V : forall ix, In ix ixs <-> valid (l_shape lc) ix). { intro ix. rewrite <- (in_enum RowMajor (l_shape lc)). split; apply Permutation_in; auto. now apply Permutation_sym. }
  destruct (modify_fold (addr lc) h ixs c) as (c' & E & L & Q & U).
  - apply NoDup_map_inj_in; [|eapply Permutation_NoDup; [apply Permutation_sym, P|apply (enum_nodup RowMajor)]]. intros x y Hx Hy. apply V in Hx, Hy. now apply J.
  - intros i Hi. apply I. now apply V.
  - intros i x Hi. apply T. now apply V.
  - exists c'. split; auto. split.
    + split; auto. intros p Hp. apply U. rewrite in_map_iff. intros (ix & Ex & Hix). apply (Hp ix); auto. now apply V.
    + intros ix Hv. destruct (elem_inside c lc ix I Hv) as (x & Hx). destruct (Q ix x) as (y & Hy & Py); auto; [now apply V|]. eauto. Qed.
Lemma steps_write {C} (c : list C) lc (w : list nat -> res C) ixs : inside lc (length c) -> Permutation ixs (row_major (l_shape lc)) ->
  (forall ix, valid (l_shape lc) ix -> exists y, w ix = Ok y) -> (forall i j, valid (l_shape lc) i -> valid (l_shape lc) j -> addr lc i = addr lc j -> w i = w j) ->
  exists c', fold_res (modify (addr lc) (fun ix _ => w ix)) ixs c = Ok c' /\ untouched_outside lc c c' /\
    forall ix, valid (l_shape lc) ix -> exists y, w ix = Ok y /\ elem c' lc ix = Some y.
Proof. intros I P T K. assert (V : forall ix, In ix ixs <-> valid (l_shape lc) ix). { intro ix. rewrite <- (in_enum RowMajor (l_shape lc)). split; apply Permutation_in; auto. now apply Permutation_sym. }
  destruct (write_fold (addr lc) w ixs c) as (c' & E & L & Q & U).
  - intros i Hi. apply I. now apply V.
  - intros i Hi. apply T. now apply V.
  - intros i j Hi Hj. apply K; now apply V.
  - exists c'. split; auto. split.
    + split; auto. intros p Hp. apply U. rewrite in_map_iff. intros (ix & Ex & Hix). apply (Hp ix); auto. now apply V.
    + intros ix Hv. apply Q. now apply V. Qed.
(** two storages described the same way are equal *)
Lemma untouched_unique {C} (c c1 c2 : list C) lc : untouched_outside lc c c1 -> untouched_outside lc c c2 ->
  (forall ix, valid (l_shape lc) ix -> elem c1 lc ix = elem c2 lc ix) -> c1 = c2.
Proof. intros [L1 U1] [L2 U2] H. apply peek_ext; [congruence|]. intro p.
  destruct (in_dec Z.eq_dec p (addrs RowMajor lc)) as [I|I].
  - unfold addrs in I. apply in_map_iff in I as (ix & <- & Hi). apply H. now apply in_enum in Hi.
  - assert (N : forall ix, valid (l_shape lc) ix -> addr lc ix <> p). { intros ix V X. apply I. unfold addrs. apply in_map_iff. exists ix. split; auto. now apply in_enum. }
    now rewrite U1, U2. Qed.
