(** Axis reductions. *)
From Verif Require Import Base Spec P_Index P_List M_Layout P_Layout P_Bounds P_Contig P_Strides M_Indexer P_Indexer M_Broadcast M_Rearr M_Iter P_Iter P_Rearr P_BinOp Q_Rearr M_Kernel P_Kernel M_Tensor P_Tensor Q_Tensor Q_Copy M_Reduce P_Reduce P_Arg.
Local Open Scope Z_scope.

(** no axis of extent other than 1 has stride 0 *)

Lemma sub_layout_ok l ax rest : good l -> size (l_shape l) <> 0%nat -> Permutation (ax ++ rest) (seq 0 (ndim l)) -> sub_layout l ax = Ok (sub ax l).
Proof. intros G S P. pose proof (proj1 (perm_seq_iff _ _) P) as (ND & _ & B). assert (Ba : forall a, In a ax -> (a < ndim l)%nat) by (intros a Ha; apply B, in_or_app; now left).
  assert (NDa : NoDup ax) by (clear - ND; induction ax as [|x ax IH]; cbn in *; inversion ND; constructor; auto; intro; apply H1; apply in_or_app; now left). clear ND; rename NDa into ND. unfold sub_layout. destruct (split_axes_total l (map Z.of_nat ax) ax G S (denotes_nat _ _ Ba) ND) as (l1 & l2 & E & _). rewrite E. cbn [bind fst].
  destruct (split_axes_ok l _ l1 l2 (proj1 G) E) as (ax' & D & _ & -> & _). pose proof (denotes_unique _ _ _ _ (denotes_nat _ _ Ba) D) as ->. reflexivity. Qed.
Lemma sub_good l ax rest : good l -> size (l_shape l) <> 0%nat -> Permutation (ax ++ rest) (seq 0 (ndim l)) -> good (sub ax l).
Proof. intros. eapply sub_axes_good; eauto. Qed.
Lemma sub_size l ax rest : size (l_shape l) <> 0%nat -> Permutation (ax ++ rest) (seq 0 (ndim l)) -> size (l_shape (sub ax l)) <> 0%nat.
Proof. intros S P Z0. cbn [sub l_shape] in Z0. pose proof (size_perm _ _ (pick_perm (ax ++ rest) 0%nat (l_shape l) P)) as X. rewrite pick_app, size_app, Z0 in X. lia. Qed.
Lemma pick_ones u (s : list nat) : (forall k, In k u -> nth k s 0%nat = 1%nat) -> pick u 0%nat s = repeat 1%nat (length u).
Proof. induction u as [|k u IH]; intro H; [reflexivity|]. cbn. rewrite (H k) by now left. f_equal. apply IH. intros; apply H; now right. Qed.
Lemma size_ones n : size (repeat 1%nat n) = 1%nat.
Proof. induction n; [reflexivity|]. cbn [repeat]. rewrite size_cons. lia. Qed.
Lemma valid_ones n : valid (repeat 1%nat n) (repeat 0%nat n).
Proof. induction n; cbn; constructor; auto. Qed.
(** leaving out axes of extent 1 only renames the indices, in a way that depends on the axes alone *)
Definition unrenamed (acd u : list nat) (j : list nat) : list nat := pick (inv_perm (acd ++ u)) 0%nat (j ++ repeat 0%nat (length u)).
Lemma sub_units l acd u : wf l -> Permutation (acd ++ u) (seq 0 (ndim l)) -> (forall k, In k u -> nth k (l_shape l) 0%nat = 1%nat) -> renames (unrenamed acd u) l (sub acd l).
Proof. intros W P U. apply (renames_trans (pick (inv_perm (acd ++ u)) 0%nat) (fun j => j ++ repeat 0%nat (length u)) l (permuted (acd ++ u) l)); [now apply permuted_renames|].
  unfold permuted, sub. split; [|split]; cbn [l_shape l_stride l_offset].
  - rewrite pick_app, size_app, (pick_ones u) by auto. rewrite size_ones. lia.
  - intros j V. rewrite pick_app, (pick_ones u) by auto. split.
    + apply Forall2_app; [exact V|apply valid_ones].
    + unfold addr. cbn [l_offset l_stride]. rewrite pick_app, dot_app; [rewrite dot_zeros; lia|]. apply valid_length in V. rewrite V, !pick_length; auto.
  - intros j j' _ _ E. now apply app_inv_tail in E. Qed.
(** ** contiguous leading axes *)
Lemma chunk_sub l c d rest : good l -> size (l_shape l) <> 0%nat -> Permutation (c ++ d ++ rest) (seq 0 (ndim l)) ->
  pick c 0 (l_stride l) = cum_strides (fun n => n) (pick c 0%nat (l_shape l)) 1 ->
  addrs ColMajor (sub (c ++ d) l) = flat_map (fun p => consecutive p (size (pick c 0%nat (l_shape l)))) (addrs ColMajor (sub d l)).
Proof. intros G S P C. rewrite app_assoc in P. pose proof (sub_good _ _ _ G S P) as Gs. pose proof (sub_size _ _ _ S P) as Ss.
  assert (F1 : firstn (length c) (pick (c ++ d) 0%nat (l_shape l)) = pick c 0%nat (l_shape l)). { rewrite pick_app, <- (pick_length c 0%nat (l_shape l)). now rewrite firstn_app, firstn_all, Nat.sub_diag, firstn_O, app_nil_r. }
  assert (F2 : firstn (length c) (pick (c ++ d) 0 (l_stride l)) = pick c 0 (l_stride l)). { rewrite pick_app, <- (pick_length c 0 (l_stride l)). now rewrite firstn_app, firstn_all, Nat.sub_diag, firstn_O, app_nil_r. }
  assert (K1 : skipn (length c) (pick (c ++ d) 0%nat (l_shape l)) = pick d 0%nat (l_shape l)). { rewrite pick_app, <- (pick_length c 0%nat (l_shape l)). now rewrite skipn_app, skipn_all, Nat.sub_diag, skipn_O. }
  assert (K2 : skipn (length c) (pick (c ++ d) 0 (l_stride l)) = pick d 0 (l_stride l)). { rewrite pick_app, <- (pick_length c 0 (l_stride l)). now rewrite skipn_app, skipn_all, Nat.sub_diag, skipn_O. }
  rewrite (chunk_addrs (sub (c ++ d) l) (length c)); auto.
  - cbn [sub l_shape l_stride l_offset]. now rewrite F1, K1, K2.
  - apply Gs.
  - apply ndim_of_f_contig_prefix; auto; [apply Gs|unfold ndim; cbn [sub l_shape]; rewrite pick_length, app_length; lia|]. cbn [sub l_shape l_stride l_offset]. rewrite F1, F2, C.
    apply (new_f_contig_f Dyn). apply G. auto.
  - unfold ndim; cbn [sub l_shape]; rewrite pick_length, app_length; lia. Qed.

(** ** the composition of a layout without broadcast axes *)
Lemma pass_none sh st r c c' : 0 <= c <= c' -> (forall k, In k r -> (2 <= nth k sh 0)%nat) -> pass (map (fun k => (nth k sh 0%nat, Z.abs (nth k st 0))) r) c' -> comp_c_loop sh st r c = [].
Proof. revert c'. induction r as [|i r IH]; intros c' Hc H P; [reflexivity|]. cbn [comp_c_loop map pass] in *. destruct P as [P1 P2]. destruct (Z.eqb_spec (nth i st 0) c) as [E|E]; [lia|].
  eapply IH; [|intros; apply H; now right|exact P2]. specialize (H i (or_introl eq_refl)). nia. Qed.
Lemma comp_c_prefix sh st r : forall c, 1 <= c -> (forall k, In k r -> (2 <= nth k sh 0)%nat) -> pass (map (fun k => (nth k sh 0%nat, Z.abs (nth k st 0))) r) (c - 1) ->
  exists d, r = comp_c_loop sh st r c ++ d /\ pick (comp_c_loop sh st r c) 0 st = cum_strides (fun n => n) (pick (comp_c_loop sh st r c) 0%nat sh) c.
Proof. induction r as [|i r IH]; intros c Hc H P; [exists []; auto|]. cbn [comp_c_loop]. cbn [map pass] in P. destruct P as [P1 P2]. pose proof (H i (or_introl eq_refl)) as Hi. destruct (Z.eqb_spec (nth i st 0) c) as [E|E].
  - destruct (IH (c * Z.of_nat (nth i sh 0%nat))) as (d & E1 & E2); [nia|intros; apply H; now right| |].
    + replace (c * Z.of_nat (nth i sh 0%nat) - 1) with (c - 1 + (Z.of_nat (nth i sh 0%nat) - 1) * Z.abs (nth i st 0)) by (rewrite E; nia). exact P2.
    + exists d. split; [cbn; now f_equal|]. cbn [pick map cum_strides]. rewrite E. f_equal. exact E2.
  - rewrite (pass_none sh st r c (c - 1 + (Z.of_nat (nth i sh 0%nat) - 1) * Z.abs (nth i st 0))); [exists (i :: r); auto|nia|intros; apply H; now right|exact P2]. Qed.

Lemma filter_nil {A} (f : A -> bool) l : (forall x, In x l -> f x = false) -> filter f l = [].
Proof. induction l as [|x l IH]; intro H; [reflexivity|]. cbn. rewrite (H x) by now left. apply IH. intros; apply H; now right. Qed.
Lemma filter_true {A} (f : A -> bool) l : (forall x, In x l -> f x = true) -> filter f l = l.
Proof. induction l as [|x l IH]; intro H; [reflexivity|]. cbn. rewrite (H x) by now left. f_equal. apply IH. intros; apply H; now right. Qed.
Definition nonunit (l : layout) (k : nat) : bool := negb (nth k (l_shape l) 0 =? 1)%nat.
Definition by_stride (l : layout) : list nat := sort_by (fun i j => Z.abs (nth i (l_stride l) 0) <=? Z.abs (nth j (l_stride l) 0)) (filter (nonunit l) (seq 0 (ndim l))).
Lemma nth_size_nonzero s k : size s <> 0%nat -> (k < length s)%nat -> (1 <= nth k s 0)%nat.
Proof. revert k. induction s as [|d s IH]; intros k S H; cbn in H; [lia|]. rewrite size_cons in S. destruct k; cbn [nth]; [lia|]. apply IH; lia. Qed.
Lemma by_stride_in l k : In k (by_stride l) <-> (k < ndim l)%nat /\ nth k (l_shape l) 0%nat <> 1%nat.
Proof. unfold by_stride. rewrite <- sort_perm, filter_In, in_seq. unfold nonunit. split; [intros [H1 H2]; split; [lia|intro X; rewrite X in H2; discriminate]|intros [H1 H2]; split; [lia|]].
  destruct (Nat.eqb_spec (nth k (l_shape l) 0%nat) 1); [congruence|reflexivity]. Qed.
Lemma by_stride_nodup l : NoDup (by_stride l).
Proof. unfold by_stride. eapply Permutation_NoDup; [apply sort_perm|]. apply NoDup_filter, seq_NoDup. Qed.
Lemma combine_seq {A B} (s : list A) (t : list B) d e : length t = length s -> combine s t = map (fun k => (nth k s d, nth k t e)) (seq 0 (length s)).
Proof. revert t. induction s as [|x s IH]; intros [|y t] H; try discriminate; [reflexivity|]. cbn [combine length seq map nth]. f_equal. rewrite IH by (injection H as H; auto). rewrite <- seq_shift, map_map. reflexivity. Qed.
Lemma by_stride_pass l : good l -> size (l_shape l) <> 0%nat -> no_broadcast l -> pass (map (fun k => (nth k (l_shape l) 0%nat, Z.abs (nth k (l_stride l) 0))) (by_stride l)) 0.
Proof. intros G S NB. destruct (good_elim l G S) as (Hl & Ho & Hnn & (p & Pp & Hp)).
  assert (E : nz (combine (l_shape l) (l_stride l)) = map (fun k => (nth k (l_shape l) 0%nat, Z.abs (nth k (l_stride l) 0))) (filter (nonunit l) (seq 0 (ndim l)))).
  { unfold nz. rewrite (combine_seq _ _ 0%nat 0) by auto. rewrite filter_map_comm, map_map. cbn [fst snd]. unfold ndim. f_equal. apply filter_ext_in. intros k Hk. apply in_seq in Hk. unfold nzp, nonunit. cbn [fst snd].
    pose proof (nth_size_nonzero (l_shape l) k S ltac:(lia)) as H1. pose proof (NB k ltac:(unfold ndim; lia)) as H2. destruct (Nat.eqb_spec (nth k (l_shape l) 0%nat) 1) as [X|X]; [rewrite X; reflexivity|]. specialize (H2 X).
    replace (1 <? nth k (l_shape l) 0)%nat with true by lia. destruct (Z.eqb_spec (nth k (l_stride l) 0) 0); [congruence|reflexivity]. }
  rewrite E in Pp. replace (map _ (by_stride l)) with p; auto. apply sorted_unique.
  - eapply pass_sorted with (c := 0); eauto; [lia|]. apply Forall_forall. intros x Hx. apply (Permutation_in x Pp) in Hx. rewrite <- E in Hx. eapply nz_facts; eauto.
  - apply SS_map. pose proof (sort_sorted (fun i j : nat => Z.abs (nth i (l_stride l) 0) <=? Z.abs (nth j (l_stride l) 0)) ltac:(intros; lia) ltac:(intros; lia) (filter (nonunit l) (seq 0 (ndim l)))) as H. fold (by_stride l) in H.
    clear - H. induction H; constructor; auto. eapply Forall_impl; [|eauto]. unfold keyle; cbn. intros; lia.
  - rewrite Pp. apply Permutation_map. apply sort_perm. Qed.
Lemma composition_ok l : good l -> size (l_shape l) <> 0%nat -> no_broadcast l ->
  exists u c d, get_axes_composition l = (u, [], c, d) /\ c ++ d = by_stride l /\ Permutation ((c ++ d) ++ u) (seq 0 (ndim l)) /\ (forall k, In k u -> nth k (l_shape l) 0%nat = 1%nat) /\
    (forall k, In k (c ++ d) -> (2 <= nth k (l_shape l) 0)%nat) /\ pick c 0 (l_stride l) = cum_strides (fun n => n) (pick c 0%nat (l_shape l)) 1.
Proof. intros G S NB. unfold get_axes_composition. cbv zeta.
  assert (B0 : filter (fun i => negb (nth i (l_shape l) 0 =? 1)%nat && (nth i (l_stride l) 0 =? 0)) (seq 0 (ndim l)) = []).
  { apply filter_nil. intros k Hk. apply in_seq in Hk. pose proof (NB k ltac:(unfold ndim in *; lia)) as H2. destruct (Nat.eqb_spec (nth k (l_shape l) 0%nat) 1) as [X|X]; [reflexivity|]. specialize (H2 X). cbn [negb andb]. lia. }
  rewrite B0. set (u := filter (fun i => (nth i (l_shape l) 0 =? 1)%nat) (seq 0 (ndim l))).
  assert (R : filter (fun i => negb (mem i u) && negb (mem i [])) (seq 0 (ndim l)) = filter (nonunit l) (seq 0 (ndim l))).
  { apply filter_ext_in. intros k Hk. cbn [mem existsb negb]. rewrite andb_true_r. unfold nonunit. f_equal. destruct (nth k (l_shape l) 0 =? 1)%nat eqn:X; [apply mem_in|apply mem_notin]; unfold u; rewrite filter_In; [auto|]. intros [_ Y]. congruence. }
  rewrite R. fold (by_stride l). set (r := by_stride l) in *.
  assert (H2 : forall k, In k r -> (2 <= nth k (l_shape l) 0)%nat). { intros k Hk. apply by_stride_in in Hk as [H1 H2]. pose proof (nth_size_nonzero (l_shape l) k S H1). lia. }
  destruct (comp_c_prefix (l_shape l) (l_stride l) r 1) as (d & E1 & E2); auto; [lia|apply by_stride_pass; auto|]. set (c := comp_c_loop (l_shape l) (l_stride l) r 1) in *.
  assert (Ed : filter (fun i => negb (mem i c)) r = d).
  { pose proof (by_stride_nodup l) as ND. fold r in ND. rewrite E1 in ND |- *. rewrite filter_app. rewrite filter_nil; [cbn [app]|intros x Hx; now rewrite (proj2 (mem_in x c) Hx)].
    apply filter_true. intros x Hx. rewrite (proj2 (mem_notin x c)); auto. intro Hc. clear - ND Hx Hc. induction c as [|y c IH]; [easy|]. cbn in ND. inversion ND; subst. destruct Hc as [->|Hc]; [apply H1, in_or_app; now right|]. auto. }
  exists u, c, d. rewrite Ed. split; [reflexivity|]. split; [auto|]. rewrite <- E1. split; [|split; [|split; auto]].
  - apply NoDup_Permutation; [|apply seq_NoDup|].
    + apply nodup_app; [apply by_stride_nodup|apply NoDup_filter, seq_NoDup|]. intros x Hx Hu. apply by_stride_in in Hx as [_ Hx]. unfold u in Hu. apply filter_In in Hu as [_ Hu]. apply Nat.eqb_eq in Hu. congruence.
    + intro x. unfold r. rewrite in_app_iff, by_stride_in, in_seq. unfold u. rewrite filter_In, in_seq. rewrite Nat.eqb_eq. destruct (Nat.eq_dec (nth x (l_shape l) 0%nat) 1); intuition lia.
  - intros k Hk. unfold u in Hk. apply filter_In in Hk as [_ Hk]. now apply Nat.eqb_eq in Hk. Qed.

(** ** the result layout keeps the order of the strides *)
Lemma cum_strides_app g s t : forall c, cum_strides g (s ++ t) c = cum_strides g s c ++ cum_strides g t (c * Z.of_nat (size (map g s))).
Proof. induction s as [|d s IH]; intro c; cbn [app cum_strides map]; [rewrite Z.mul_1_r|]; auto. rewrite IH, size_cons. do 3 f_equal. lia. Qed.
Lemma cum_strides_ones n c : cum_strides (fun n => n) (repeat 1%nat n) c = repeat c n.
Proof. induction n; cbn; auto. f_equal. now rewrite Z.mul_1_r. Qed.
Lemma sorted_units_first l ax : StronglySorted (fun i j => greedy_le true (l_shape l) (l_stride l) i j = true) ax -> (forall k, In k ax -> (k < ndim l)%nat) -> no_broadcast l ->
  ax = filter (fun k => negb (nonunit l k)) ax ++ filter (nonunit l) ax /\ StronglySorted (fun i j => Z.abs (nth i (l_stride l) 0) <= Z.abs (nth j (l_stride l) 0)) (filter (nonunit l) ax).
Proof. intros SS B NB. induction SS as [|x ax SS IH F]; [split; [reflexivity|constructor]|]. destruct IH as [E SO]; [intros; apply B; now right|]. cbn [filter].
  assert (NU : forall k, (k < ndim l)%nat -> (nth k (l_shape l) 0 =? 1)%nat || (nth k (l_stride l) 0 =? 0) = negb (nonunit l k)).
  { intros k Hk. unfold nonunit. rewrite negb_involutive. specialize (NB k Hk). destruct (Nat.eqb_spec (nth k (l_shape l) 0%nat) 1); [reflexivity|]. specialize (NB n). cbn [orb]. lia. }
  rewrite Forall_forall in F. unfold greedy_le in F. rewrite (NU x) in F by (apply B; now left).
  assert (F' : forall y, In y ax -> match negb (nonunit l x), negb (nonunit l y) with true, true => (x <=? y)%nat | true, false => true | false, true => negb true | false, false => Z.abs (nth x (l_stride l) 0) <=? Z.abs (nth y (l_stride l) 0) end = true).
  { intros y Hy. rewrite <- (NU y) by (apply B; now right). now apply F. }
  clear F. destruct (nonunit l x) eqn:X; cbn [negb] in F' |- *.
  - assert (N : filter (fun k => negb (nonunit l k)) ax = []). { apply filter_nil. intros y Hy. specialize (F' y Hy). destruct (negb (nonunit l y)); auto. }
    rewrite N in *. cbn [app] in *. split; [now f_equal|]. constructor; auto. apply Forall_forall. intros y Hy. apply filter_In in Hy as [Hy Y]. specialize (F' y Hy). rewrite Y in F'. cbn [negb] in F'. lia.
  - split; auto. cbn [app]. now f_equal. Qed.
Lemma greedy_le_total keep sh st i j : greedy_le keep sh st i j = true \/ greedy_le keep sh st j i = true.
Proof. unfold greedy_le. destruct (_ || _), (_ || _), keep; cbn; auto; lia. Qed.
Lemma greedy_le_trans keep sh st i j k : greedy_le keep sh st i j = true -> greedy_le keep sh st j k = true -> greedy_le keep sh st i k = true.
Proof. unfold greedy_le. destruct ((nth i sh 0 =? 1)%nat || (nth i st 0 =? 0)), ((nth j sh 0 =? 1)%nat || (nth j st 0 =? 0)), ((nth k sh 0 =? 1)%nat || (nth k st 0 =? 0)), keep; cbn; try discriminate; auto; lia. Qed.
Lemma sort_by_ext {A} (f g : A -> A -> bool) l : (forall x y, f x y = g x y) -> sort_by f l = sort_by g l.
Proof. intro H. unfold sort_by. induction l as [|x l IH]; cbn; auto. rewrite IH. generalize (fold_right (insert_sorted g) [] l). induction l0 as [|y r IHr]; cbn; auto. rewrite H, IHr. reflexivity. Qed.
Lemma greedy_index l : good l -> size (l_shape l) <> 0%nat -> exists g, greedy_layout l true = Ok (g, sort_by (greedy_le true (l_shape l) (l_stride l)) (seq 0 (ndim l))).
Proof. intros G S. unfold greedy_layout, l_size. replace (size (l_shape l) =? 0)%nat with false by lia.
  unfold greedy_flip. destruct (flip_loop l (seq 0 (ndim l)) G S) as (l1 & f & E1 & G1 & S1 & R1 & K1). { intros a Ha. apply in_seq in Ha. lia. }
  rewrite E1. cbn [bind]. set (ax := sort_by _ _). assert (P : Permutation ax (seq 0 (ndim l1))) by apply sort_seq_perm.
  rewrite transpose_nat by auto. cbn [unwrap bind]. eexists. f_equal. f_equal. unfold ax, ndim. rewrite S1. apply sort_by_ext. intros x y. unfold greedy_le. rewrite !K1.
  assert (A : forall k, Z.abs (if mem k (seq 0 (ndim l)) then if nth k (l_stride l) 0 <? 0 then - nth k (l_stride l) 0 else nth k (l_stride l) 0 else nth k (l_stride l) 0) = Z.abs (nth k (l_stride l) 0)) by (intro k; destruct (mem _ _), (nth k (l_stride l) 0 <? 0) eqn:?; lia).
  assert (B : forall k, ((if mem k (seq 0 (ndim l)) then if nth k (l_stride l) 0 <? 0 then - nth k (l_stride l) 0 else nth k (l_stride l) 0 else nth k (l_stride l) 0) =? 0) = (nth k (l_stride l) 0 =? 0)) by (intro k; destruct (mem _ _), (nth k (l_stride l) 0 <? 0) eqn:?; lia).
  now rewrite !A, !B. Qed.
Lemma copy_strides dflt l lo : good l -> size (l_shape l) <> 0%nat -> no_broadcast l -> layout_for_array_copy Dyn dflt l OK = Ok lo ->
  pick (by_stride l) 0 (l_stride lo) = cum_strides (fun n => n) (pick (by_stride l) 0%nat (l_shape l)) 1.
Proof. intros G S NB E. unfold layout_for_array_copy in E. destruct (greedy_index l G S) as (g & Eg). set (ax := sort_by _ _) in Eg.
  destruct (greedy_keep_ok l G) as (g' & ax' & f & Eg' & P & _ & _ & _ & Sg). rewrite Eg in Eg'. injection Eg' as <- <-. rewrite Eg in E. cbn [bind fst snd] in E. rewrite (reversed_permute_ok ax (ndim l) P) in E.
  set (c := new_f_contig Dyn (l_shape g) 0) in *. assert (Nc : ndim c = ndim l). { unfold ndim, c. cbn [new_f_contig l_shape]. rewrite Sg, pick_length, (Permutation_length P), seq_length. reflexivity. }
  pose proof (inv_perm_perm ax (ndim l) P) as P2. rewrite transpose_nat in E by now rewrite Nc. injection E as <-.
  assert (X : pick ax 0 (l_stride (permuted (inv_perm ax) c)) = cum_strides (fun n => n) (pick ax 0%nat (l_shape l)) 1).
  { cbn [permuted l_stride]. rewrite (pick_inv_r ax (ndim l)); auto; [cbn [c new_f_contig l_stride stride_f_contig]; now rewrite Sg|]. cbn [c new_f_contig l_stride stride_f_contig]. unfold stride_f_dyn. rewrite cum_strides_length, Sg, pick_length, (Permutation_length P). now rewrite seq_length. }
  assert (SS : StronglySorted (fun i j => greedy_le true (l_shape l) (l_stride l) i j = true) ax) by (apply sort_sorted; [apply greedy_le_total|intros; eapply greedy_le_trans; eauto]).
  destruct (sorted_units_first l ax SS) as [E1 SO]; auto. { intros k Hk. apply (Permutation_in k P), in_seq in Hk. lia. }
  assert (R : filter (nonunit l) ax = by_stride l).
  { assert (Y : map (fun k => (k, Z.abs (nth k (l_stride l) 0))) (by_stride l) = map (fun k => (k, Z.abs (nth k (l_stride l) 0))) (filter (nonunit l) ax)).
    { apply sorted_unique.
      - pose proof (by_stride_pass l G S NB) as Hp. apply pass_sorted in Hp as [Hs _]; [|lia|].
        + clear - Hs. induction (by_stride l) as [|x r IH]; cbn [map] in *; [constructor|]. inversion Hs; subst. constructor; auto. apply Forall_map. apply (proj1 (Forall_map _ _ _)) in H2. eapply Forall_impl; [|exact H2]. cbn. unfold keylt. cbn. auto.
        + apply Forall_forall. intros x Hx. apply in_map_iff in Hx as (k & <- & Hk). apply by_stride_in in Hk as [H1 H2]. cbn [fst snd]. pose proof (nth_size_nonzero (l_shape l) k S H1). pose proof (NB k H1 H2). lia.
      - apply SS_map. clear - SO. induction SO; constructor; auto.
      - apply Permutation_map. unfold by_stride. rewrite <- sort_perm. symmetry. clear - P. induction P as [|x a b Pa IH|x y a|a b c0 Pa IHa Pb IHb]; cbn; auto; [destruct (nonunit l x); auto|destruct (nonunit l x), (nonunit l y); auto; constructor|etransitivity; eauto]. }
    apply (f_equal (map fst)) in Y. rewrite !map_map in Y. cbn [fst] in Y. now rewrite !map_id in Y. }
  rewrite R in E1. set (lst := l_stride (permuted _ _)) in *. clearbody lst. rewrite E1 in X. rewrite !pick_app, cum_strides_app in X. apply app_inj_1 in X as [_ X]; [|rewrite cum_strides_length, !pick_length; auto]. rewrite X. f_equal.
  rewrite (pick_ones (filter _ _)); [rewrite map_id, size_ones; reflexivity|]. intros k Hk. apply filter_In in Hk as [_ Hk]. unfold nonunit in Hk. rewrite negb_involutive in Hk. now apply Nat.eqb_eq in Hk. Qed.

Lemma map_res_all {A B} (F : A -> res B) (G : A -> B) l : (forall x, In x l -> F x = Ok (G x)) -> map_res F l = Ok (map G l).
Proof. intro H. apply map_res_ok. induction l as [|x l IH]; cbn; constructor; [apply H; now left|]. apply IH. intros; apply H; now right. Qed.
Lemma product_at_ok sh c : (forall k, In k c -> (k < length sh)%nat) -> product_at sh c = Ok (size (pick c 0%nat sh)).
Proof. intro H. unfold product_at. rewrite (map_res_all _ (fun k => nth k sh 0%nat)); [reflexivity|]. intros k Hk. unfold vget. now rewrite (nth_error_nth' sh 0%nat (H k Hk)). Qed.
Lemma size_big c sh : (forall k, In k c -> (2 <= nth k sh 0)%nat) -> (size (pick c 0%nat sh) <= 1)%nat -> c = [].
Proof. intros H S. destruct c as [|k c]; auto. exfalso. cbn [pick map] in S. rewrite size_cons in S. pose proof (H k (or_introl eq_refl)).
  assert (size (map (fun a => nth a sh 0%nat) c) <> 0%nat). { clear S. induction c as [|x c IH]; [discriminate|]. cbn [map]. rewrite size_cons. pose proof (H x (or_intror (or_introl eq_refl))). assert (size (map (fun a => nth a sh 0%nat) c) <> 0%nat) by (apply IH; intros y [<-|Hy]; apply H; [now left|right; now right]). nia. }
  nia. Qed.
Lemma size_pos c sh : (forall k, In k c -> (2 <= nth k sh 0)%nat) -> size (pick c 0%nat sh) <> 0%nat.
Proof. induction c as [|x c IH]; intro H; [discriminate|]. cbn [pick map]. rewrite size_cons. pose proof (H x (or_introl eq_refl)). assert (size (pick c 0%nat sh) <> 0%nat) by (apply IH; intros; apply H; now right). unfold pick in *. nia. Qed.

Section AxesP.
  Context {T S O : Type} (e : S) (op : S -> S -> S) (M : comm_monoid e op) (h : T -> S) (f : S -> T -> S) (F : forall s x, f s x = op s (h x)) (fout : S -> O).
  Notation total := (total e op). Notation sum_at := (sum_at e op h).
  Definition run_ok (run : runner) : Prop := forall i l (g : S -> Z -> res S) w, good l -> size (l_shape l) <> 0%nat -> adds op g w (addrs ColMajor l) -> run i l g = Ok (total (map w (addrs ColMajor l))).
  Lemma run_serial_ok k : run_ok (run_serial e k).
  Proof. intros i l g w G S0 A. unfold run_serial, positions_col. rewrite dispatch_ok by apply G. cbn [bind]. rewrite (adds_fold e op M g w) by auto. f_equal. apply M. Qed.
  Lemma run_rayon_ok k tr : run_ok (run_rayon e op k tr).
  Proof. intros i l g w G S0 A. unfold run_rayon. destruct (iter_new_inv ColMajor k l (proj1 G) (proj1 (proj2 G))) as (it & E & I & L & P). rewrite E. cbn [bind].
    rewrite (par_reduce_ok e op M h f F fout k g w); cbn [il_order il_iter]; auto; rewrite ?L, ?P; auto. Qed.

  Variables (a : list T) (la : layout) (ax : list nat).
  Hypotheses (G : good la) (I : inside la (length a)) (Sz : size (l_shape la) <> 0%nat) (B : forall x, In x ax -> (x < ndim la)%nat) (ND : NoDup ax) (NB : no_broadcast la).
  Let rest := axes_except (ndim la) ax.
  Let ls := sub ax la. Let lm := sub rest la.
  Let gp (p : Z) : list Z := map (fun i => p + i - l_offset la) (addrs RowMajor ls).
  Let P0 : Permutation (ax ++ rest) (seq 0 (ndim la)). Proof. now apply except_perm. Qed.
  Let P1 : Permutation (rest ++ ax) (seq 0 (ndim la)). Proof. rewrite Permutation_app_comm. apply P0. Qed.
  Lemma ax_ls_good : good ls /\ size (l_shape ls) <> 0%nat /\ good lm /\ size (l_shape lm) <> 0%nat.
  Proof. split; [eapply sub_good; eauto|]. split; [eapply sub_size; eauto|]. split; [eapply sub_good; eauto|eapply sub_size; eauto]. Qed.
  Lemma sub_no_broadcast bx : (forall x, In x bx -> (x < ndim la)%nat) -> no_broadcast (sub bx la).
  Proof. intros Hb k Hk. unfold ndim in Hk. cbn [sub l_shape l_stride] in *. unfold pick in *. rewrite map_length in Hk. rewrite !(nth_indep _ _ (nth (nth 0 bx 0%nat) (l_shape la) 0%nat)) by now rewrite map_length.
    assert (Ein : In (nth k bx 0%nat) bx) by now apply nth_In. specialize (NB _ (Hb _ Ein)). intros X Y. apply NB.
    - intro Z0. apply X. rewrite (nth_indep _ _ (nth 0%nat (l_shape la) 0%nat)) by now rewrite map_length. rewrite (map_nth (fun a => nth a (l_shape la) 0%nat)) with (d := 0%nat). exact Z0.
    - rewrite (nth_indep _ _ (nth 0%nat (l_stride la) 0)) in Y by now rewrite map_length. now rewrite (map_nth (fun a => nth a (l_stride la) 0)) with (d := 0%nat) in Y. Qed.
  Lemma gp_within mx : valid (l_shape lm) mx -> within a (gp (addr lm mx)).
  Proof. intro V. apply Forall_forall. intros q Hq. unfold gp in Hq. apply in_map_iff in Hq as (p & <- & Hp). apply in_map_iff in Hp as (sx & <- & Hs). apply (in_enum RowMajor) in Hs.
    cbn [ls lm sub l_shape] in *. assert (Ls : length sx = length ax) by (apply valid_length in Hs; now rewrite pick_length in Hs). assert (Lm : length mx = length rest) by (apply valid_length in V; now rewrite pick_length in V).
    pose proof (merge_addr la ax sx mx (proj1 G) ND B Ls Lm) as E. replace (addr lm mx + addr ls sx - l_offset la) with (addr la (merge (ndim la) ax sx mx)) by (rewrite E; unfold ls, lm, addr, sub; cbn [l_offset l_stride]; unfold rest; lia).
    apply I. apply merge_valid; auto. Qed.

  Definition branch_ws (lo : layout) (mxs : list (list nat)) : list (Z * O) := map (fun mx => (addr lo mx, fout (sum_at a (gp (addr lm mx))))) mxs.

  Lemma gp_shift p ps : Permutation ps (addrs RowMajor ls) -> Permutation (map (fun i => p + i - l_offset la) ps) (gp p).
  Proof. intro H. now apply Permutation_map. Qed.
  Lemma shift_consecutive p n ps : flat_map (fun i => consecutive (p + i - l_offset la) n) ps = map (fun i => p + i - l_offset la) (flat_map (fun i => consecutive i n) ps).
  Proof. rewrite map_flat_map. apply flat_map_ext. intro i. unfold consecutive. rewrite map_map. apply map_ext. intro. lia. Qed.
  Lemma positions_sub l bx cx : good l -> size (l_shape l) <> 0%nat -> Permutation (bx ++ cx) (seq 0 (ndim l)) -> positions_col Dyn (sub bx l) = Ok (addrs ColMajor (sub bx l)).
  Proof. intros Gl Sl P. pose proof (sub_good _ _ _ Gl Sl P) as Gs. unfold positions_col. apply dispatch_ok; apply Gs. Qed.
  Lemma repeat_one (s : S) : repeat_sum op s 1 = s. Proof. reflexivity. Qed.

  (** branch 1 *)
  Lemma branch1_ok run lo us cs ds um bm : run_ok run -> good lo -> l_shape lo = l_shape lm ->
    Permutation ((cs ++ ds) ++ us) (seq 0 (ndim ls)) -> (forall k, In k us -> nth k (l_shape ls) 0%nat = 1%nat) -> (forall k, In k (cs ++ ds) -> (2 <= nth k (l_shape ls) 0)%nat) ->
    pick cs 0 (l_stride ls) = cum_strides (fun n => n) (pick cs 0%nat (l_shape ls)) 1 ->
    Permutation (bm ++ um) (seq 0 (ndim lm)) -> (forall k, In k um -> nth k (l_shape lm) 0%nat = 1%nat) ->
    exists mxs, Permutation mxs (row_major (l_shape lm)) /\
      axes_branch1 e f op fout run Dyn a (l_offset la) (size (pick cs 0%nat (l_shape ls))) 1 (sub bm lm) (sub bm lo) (sub ds ls) = Ok (branch_ws lo mxs).
  Proof. intros R Go So Ps Us Bs Cs Pm Um. destruct ax_ls_good as (Gs & Ss & Gm & Sm).
    assert (Nlo : ndim lo = ndim lm) by (unfold ndim; now rewrite So).
    pose proof (sub_units lm bm um (proj1 Gm) Pm Um) as Rm.
    assert (Ro : renames (unrenamed bm um) lo (sub bm lo)) by (apply sub_units; [apply Go|now rewrite Nlo|now rewrite So]).
    exists (map (unrenamed bm um) (enum ColMajor (pick bm 0%nat (l_shape lm)))). split; [apply (renames_enum _ _ _ ColMajor RowMajor Rm)|].
    unfold axes_branch1. rewrite (positions_sub lm bm um) by auto. cbn [bind]. rewrite (positions_sub lo bm um); [|auto|now rewrite So|now rewrite Nlo]. cbn [bind].
    rewrite (renames_addrs _ _ _ _ Rm), (renames_addrs _ _ _ _ Ro). cbn [sub l_shape]. rewrite So. set (mxs := map _ (enum ColMajor _)).
    assert (Vm : forall mx, In mx mxs -> valid (l_shape lm) mx). { intros mx Hx. apply (in_enum RowMajor). eapply Permutation_in; [|exact Hx]. apply (renames_enum _ _ _ ColMajor RowMajor Rm). }
    rewrite combine_map. rewrite (map_res_all _ (fun p => (snd p, fout (sum_at a (gp (fst p)))))); [unfold branch_ws; rewrite map_map; reflexivity|].
    intros p Hp. apply in_map_iff in Hp as (mx & <- & Hx). cbn [fst snd]. specialize (Vm mx Hx). set (n := size (pick cs 0%nat (l_shape ls))).
    assert (Hn : n <> 0%nat) by (apply size_pos; intros k Hk; apply Bs, in_or_app; now left).
    assert (Pd : Permutation (ds ++ (cs ++ us)) (seq 0 (ndim ls))). { rewrite <- Ps. rewrite app_assoc. apply Permutation_app_tail. apply Permutation_app_comm. }
    assert (Ec : flat_map (fun i => consecutive (addr lm mx + i - l_offset la) n) (addrs ColMajor (sub ds ls)) = map (fun i => addr lm mx + i - l_offset la) (addrs ColMajor (sub (cs ++ ds) ls))).
    { rewrite shift_consecutive. f_equal. symmetry. apply (chunk_sub ls cs ds us); auto. now rewrite app_assoc. }
    assert (Pc : Permutation (map (fun i => addr lm mx + i - l_offset la) (addrs ColMajor (sub (cs ++ ds) ls))) (gp (addr lm mx))).
    { apply gp_shift. eapply renames_perm. apply sub_units; [apply Gs|exact Ps|exact Us]. }
    rewrite (R (addr lm mx) (sub ds ls) _ (fun i => sum_at a (consecutive (addr lm mx + i - l_offset la) n))).
    - cbn [bind]. rewrite repeat_one. rewrite <- (sum_at_flat e op M h a (fun i => consecutive (addr lm mx + i - l_offset la) n)). rewrite Ec. now rewrite (sum_at_perm e op M h a _ _ Pc).
    - eapply sub_good; eauto.
    - eapply sub_size; eauto.
    - intros i s Hi. apply (adds_add_slice e op M h f F fout a n [addr lm mx + i - l_offset la]); auto; [|now left]. cbn [flat_map]. rewrite app_nil_r.
      pose proof (within_perm a _ _ (Permutation_sym Pc) (gp_within mx Vm)) as Wi. rewrite <- Ec in Wi. unfold within in *. rewrite Forall_forall in *. intros q Hq. apply Wi. apply in_flat_map. eauto. Qed.
  (** branch 3 *)
  Lemma branch3_ok run lo us bs um bm : run_ok run -> good lo -> l_shape lo = l_shape lm ->
    Permutation (bs ++ us) (seq 0 (ndim ls)) -> (forall k, In k us -> nth k (l_shape ls) 0%nat = 1%nat) ->
    Permutation (bm ++ um) (seq 0 (ndim lm)) -> (forall k, In k um -> nth k (l_shape lm) 0%nat = 1%nat) ->
    exists mxs, Permutation mxs (row_major (l_shape lm)) /\
      axes_branch3 f op fout run Dyn a (l_offset la) 1 (sub bm lm) (sub bm lo) (sub bs ls) = Ok (branch_ws lo mxs).
  Proof. intros R Go So Ps Us Pm Um. destruct ax_ls_good as (Gs & Ss & Gm & Sm).
    assert (Nlo : ndim lo = ndim lm) by (unfold ndim; now rewrite So).
    pose proof (sub_units lm bm um (proj1 Gm) Pm Um) as Rm.
    assert (Ro : renames (unrenamed bm um) lo (sub bm lo)) by (apply sub_units; [apply Go|now rewrite Nlo|now rewrite So]).
    exists (map (unrenamed bm um) (enum ColMajor (pick bm 0%nat (l_shape lm)))). split; [apply (renames_enum _ _ _ ColMajor RowMajor Rm)|].
    unfold axes_branch3. rewrite (positions_sub lm bm um) by auto. cbn [bind]. rewrite (positions_sub lo bm um); [|auto|now rewrite So|now rewrite Nlo]. cbn [bind].
    rewrite (renames_addrs _ _ _ _ Rm), (renames_addrs _ _ _ _ Ro). cbn [sub l_shape]. rewrite So. set (mxs := map _ (enum ColMajor _)).
    assert (Vm : forall mx, In mx mxs -> valid (l_shape lm) mx). { intros mx Hx. apply (in_enum RowMajor). eapply Permutation_in; [|exact Hx]. apply (renames_enum _ _ _ ColMajor RowMajor Rm). }
    rewrite combine_map. rewrite (map_res_all _ (fun p => (snd p, fout (sum_at a (gp (fst p)))))); [unfold branch_ws; rewrite map_map; reflexivity|].
    intros p Hp. apply in_map_iff in Hp as (mx & <- & Hx). cbn [fst snd]. specialize (Vm mx Hx).
    assert (Pc : Permutation (map (fun i => addr lm mx + i - l_offset la) (addrs ColMajor (sub bs ls))) (gp (addr lm mx))).
    { apply gp_shift. eapply renames_perm. apply sub_units; [apply Gs|exact Ps|exact Us]. }
    rewrite (R (addr lm mx) (sub bs ls) _ (fun i => sum_at a [addr lm mx + i - l_offset la])).
    - cbn [bind]. rewrite repeat_one. rewrite <- (sum_at_flat e op M h a (fun i => [addr lm mx + i - l_offset la])). rewrite <- (sum_at_perm e op M h a _ _ Pc). reflexivity.
    - eapply sub_good; eauto.
    - eapply sub_size; eauto.
    - intros i s Hi. apply (adds_add_at e op M h f F a [addr lm mx + i - l_offset la]); auto; [|now left].
      pose proof (within_perm a _ _ (Permutation_sym Pc) (gp_within mx Vm)) as Wi. unfold within in *. rewrite Forall_forall in *. intros q [<-|[]]. apply Wi. apply in_map_iff. eauto. Qed.
  (** branch 2 *)
  Lemma chunk_acc_ok base scd off c : snd c <> 0%nat -> (forall i, In i scd -> within a (consecutive (base + i - off + Z.of_nat (fst c)) (snd c))) ->
    chunk_acc e f a base scd off c = Ok (map (fun q => sum_at a (map (fun i => q + i - off) scd)) (consecutive (base + Z.of_nat (fst c)) (snd c))).
  Proof. intros Hc W. unfold chunk_acc.
    assert (X : forall (v : Z -> S) scd, (forall i, In i scd -> within a (consecutive (base + i - off + Z.of_nat (fst c)) (snd c))) ->
      fold_res (fun vacc i => let* slc := slice_get a (base + i - off + Z.of_nat (fst c)) (snd c) in Ok (map (fun p => f (fst p) (snd p)) (combine vacc slc))) scd (map v (consecutive (base + Z.of_nat (fst c)) (snd c))) =
      Ok (map (fun q => op (v q) (sum_at a (map (fun i => q + i - off) scd))) (consecutive (base + Z.of_nat (fst c)) (snd c)))).
    { clear W scd. intros v scd. revert v. induction scd as [|i scd IH]; intros v W; cbn [fold_res].
      - f_equal. apply map_ext. intro q. unfold P_Reduce.sum_at. cbn. symmetry. now apply m_id_r.
      - pose proof (W i (or_introl eq_refl)) as Wi. destruct (within_consecutive a _ _ Hc Wi) as [B1 B2]. rewrite slice_get_ok by auto. cbn [bind].
        assert (Y : map (fun p => f (fst p) (snd p)) (combine (map v (consecutive (base + Z.of_nat (fst c)) (snd c))) (vals a (consecutive (base + i - off + Z.of_nat (fst c)) (snd c)))) = map (fun q => op (v q) (sum_at a [q + i - off])) (consecutive (base + Z.of_nat (fst c)) (snd c))).
        { clear - Wi F M. unfold consecutive in *. revert Wi. generalize (seq 0 (snd c)). induction l as [|j l IH]; [reflexivity|]. intro Wi. inversion Wi as [|? ? Hj Wl]; subst. cbn [map vals flat_map]. apply peek_inside in Hj as (x & Ex). rewrite Ex. cbn [app combine map fst snd].
          f_equal; [|now apply IH]. rewrite F. f_equal. unfold P_Reduce.sum_at. cbn [vals flat_map]. replace (base + Z.of_nat (fst c) + Z.of_nat j + i - off) with (base + i - off + Z.of_nat (fst c) + Z.of_nat j) by lia. rewrite Ex. cbn. symmetry. now apply m_id_r. }
        rewrite Y. rewrite (IH (fun q => op (v q) (sum_at a [q + i - off]))) by (intros; apply W; now right). f_equal. apply map_ext. intro q. cbn [map]. rewrite <- (m_assoc e op M). f_equal. symmetry. apply (sum_at_app e op M h a [q + i - off]). }
    replace (repeat e (snd c)) with (map (fun _ : Z => e) (consecutive (base + Z.of_nat (fst c)) (snd c))).
    - rewrite X by auto. f_equal. apply map_ext. intro q. now apply m_id.
    - clear. unfold consecutive. rewrite map_map. generalize 0%nat. induction (snd c) as [|n IH]; intro k; cbn; auto. now rewrite IH. Qed.
  Lemma concat_map_flat {X Y} (g : X -> list Y) l : concat (map g l) = flat_map g l.
  Proof. symmetry. apply flat_map_concat_map. Qed.
  Lemma combine_seq_consecutive (V : Z -> S) base n : combine (seq 0 n) (map V (consecutive base n)) = map (fun k => (k, V (base + Z.of_nat k))) (seq 0 n).
  Proof. unfold consecutive. rewrite map_map. generalize 0%nat. induction n as [|n IH]; intro k; cbn; auto. now rewrite IH. Qed.
  Lemma map_pair_consecutive {X} (g : Z -> Z -> X) ob mb n : map (fun k => g (ob + Z.of_nat k) (mb + Z.of_nat k)) (seq 0 n) = map (fun p => g (fst p) (snd p)) (combine (consecutive ob n) (consecutive mb n)).
  Proof. unfold consecutive. rewrite combine_map, map_map. reflexivity. Qed.
  Lemma combine_flat_map {X} (g g' : X -> list Z) l : (forall x, length (g x) = length (g' x)) -> combine (flat_map g l) (flat_map g' l) = flat_map (fun x => combine (g x) (g' x)) l.
  Proof. intro H. induction l as [|x l IH]; cbn; auto. rewrite <- IH. specialize (H x). revert H. generalize (g x), (g' x). induction l0 as [|y r IHr]; intros [|z r'] E; try discriminate; cbn; auto. f_equal. apply IHr. now injection E. Qed.
  Lemma flat_map_combine (g : Z -> list Z) xs ys : length xs = length ys -> (forall x, length (g x) = length (g 0)) -> flat_map (fun p => combine (g (fst p)) (g (snd p))) (combine xs ys) = combine (flat_map g xs) (flat_map g ys).
  Proof. intros L H. revert ys L. induction xs as [|x xs IH]; intros [|y ys] L; try discriminate; cbn [combine flat_map]; auto. injection L as L. rewrite IH by auto. cbn [fst snd].
    assert (E : length (g x) = length (g y)) by (rewrite (H x), (H y); auto). clear - E. revert E. generalize (g x), (g y). induction l as [|z r IHr]; intros [|w r'] E; try discriminate; cbn; auto. f_equal. apply IHr. now injection E. Qed.
  Lemma consecutive_length p n : length (consecutive p n) = n.
  Proof. unfold consecutive. now rewrite map_length, seq_length. Qed.
  Lemma branch2_ok chunk lo us bs um cm dm : chunk <> 0%nat -> good lo -> l_shape lo = l_shape lm ->
    Permutation (bs ++ us) (seq 0 (ndim ls)) -> (forall k, In k us -> nth k (l_shape ls) 0%nat = 1%nat) ->
    Permutation ((cm ++ dm) ++ um) (seq 0 (ndim lm)) -> (forall k, In k um -> nth k (l_shape lm) 0%nat = 1%nat) -> (forall k, In k (cm ++ dm) -> (2 <= nth k (l_shape lm) 0)%nat) ->
    pick cm 0 (l_stride lm) = cum_strides (fun n => n) (pick cm 0%nat (l_shape lm)) 1 -> pick cm 0 (l_stride lo) = cum_strides (fun n => n) (pick cm 0%nat (l_shape lm)) 1 ->
    exists mxs, Permutation mxs (row_major (l_shape lm)) /\
      axes_branch2 e f op fout Dyn chunk a (l_offset la) (size (pick cm 0%nat (l_shape lm))) 1 (sub bs ls) (sub dm lm) (sub dm lo) (sub cm lo) = Ok (branch_ws lo mxs).
  Proof. intros Hch Go So Ps Us Pm Um Bm Cm Co. destruct ax_ls_good as (Gs & Ss & Gm & Sm).
    assert (Nlo : ndim lo = ndim lm) by (unfold ndim; now rewrite So). assert (Slo : size (l_shape lo) <> 0%nat) by now rewrite So.
    pose proof (sub_units lm (cm ++ dm) um (proj1 Gm) Pm Um) as Rm.
    assert (Ro : renames (unrenamed (cm ++ dm) um) lo (sub (cm ++ dm) lo)) by (apply sub_units; [apply Go|now rewrite Nlo|now rewrite So]).
    assert (Pd : Permutation (dm ++ (cm ++ um)) (seq 0 (ndim lm))). { rewrite <- Pm. rewrite app_assoc. apply Permutation_app_tail. apply Permutation_app_comm. }
    assert (Pc : Permutation (cm ++ dm ++ um) (seq 0 (ndim lm))) by now rewrite app_assoc.
    exists (map (unrenamed (cm ++ dm) um) (enum ColMajor (pick (cm ++ dm) 0%nat (l_shape lm)))). split; [apply (renames_enum _ _ _ ColMajor RowMajor Rm)|].
    set (n := size (pick cm 0%nat (l_shape lm))). assert (Hn : n <> 0%nat) by (apply size_pos; intros k Hk; apply Bm, in_or_app; now left).
    pose proof (chunk_sub lm cm dm um Gm Sm Pc Cm) as Em. fold n in Em.
    pose proof (chunk_sub lo cm dm um Go Slo) as Eo. rewrite Nlo, So in Eo. specialize (Eo Pc Co). fold n in Eo.
    unfold axes_branch2. rewrite (positions_sub ls bs us) by auto. cbn [bind]. rewrite (positions_sub lm dm (cm ++ um)) by auto. cbn [bind]. rewrite (positions_sub lo dm (cm ++ um)); [|auto|auto|now rewrite Nlo]. cbn [bind].
    assert (Fc : f_contig (sub cm lo) = true). { replace (sub cm lo) with (new_f_contig Dyn (pick cm 0%nat (l_shape lm)) (l_offset lo)); [apply new_f_contig_f; now apply Go|]. unfold sub, new_f_contig, stride_f_contig, stride_f_dyn. now rewrite So, Co. }
    rewrite Fc. cbn [check bind].
    set (scd := addrs ColMajor (sub bs ls)). set (V := fun q => sum_at a (map (fun i => q + i - l_offset la) scd)).
    assert (VG : forall q, V q = sum_at a (gp q)). { intro q. unfold V. apply (sum_at_perm e op M h). apply gp_shift. eapply renames_perm. apply sub_units; [apply Gs|exact Ps|exact Us]. }
    assert (Len : length (addrs ColMajor (sub dm lm)) = length (addrs ColMajor (sub dm lo))). { unfold addrs. rewrite !map_length. cbn [sub l_shape]. now rewrite So. }
    assert (Wi : forall p, In p (addrs ColMajor (sub dm lm)) -> forall k, (k < n)%nat -> within a (gp (p + Z.of_nat k))).
    { intros p Hp k Hk. assert (X : In (p + Z.of_nat k) (addrs ColMajor (sub (cm ++ dm) lm))). { rewrite Em. apply in_flat_map. exists p. split; auto. apply in_consecutive. lia. }
      rewrite (renames_addrs _ _ _ _ Rm) in X. apply in_map_iff in X as (mx & <- & Hx). apply gp_within. apply (in_enum RowMajor). eapply Permutation_in; [|exact Hx]. apply (renames_enum _ _ _ ColMajor RowMajor Rm). }
    rewrite (map_res_all _ (fun p => map (fun q => (fst q, fout (V (snd q)))) (combine (consecutive (snd p) n) (consecutive (fst p) n)))).
    - cbn [bind]. f_equal. rewrite concat_map_flat.
      transitivity (map (fun q => (fst q, fout (V (snd q)))) (combine (addrs ColMajor (sub (cm ++ dm) lo)) (addrs ColMajor (sub (cm ++ dm) lm)))).
      + rewrite Em, Eo. rewrite <- flat_map_combine; [|auto|intro; now rewrite !consecutive_length]. rewrite map_flat_map. rewrite <- (map_id (addrs ColMajor (sub dm lm))) at 1. rewrite <- (map_id (addrs ColMajor (sub dm lo))) at 1.
        rewrite combine_map2. rewrite flat_map_map. cbn [fst snd]. clear - Len. revert Len. generalize (addrs ColMajor (sub dm lm)), (addrs ColMajor (sub dm lo)). induction l as [|x l IH]; intros [|y l'] L; try discriminate; cbn [combine flat_map fst snd]; auto. f_equal. apply IH. now injection L.
      + rewrite (renames_addrs _ _ _ _ Rm), (renames_addrs _ _ _ _ Ro). cbn [sub l_shape]. rewrite So. rewrite combine_map, map_map. unfold branch_ws. apply map_ext. intro mx. cbn [fst snd]. now rewrite VG.
    - intros p Hp. destruct p as [p o]. cbn [fst snd]. apply in_combine_l in Hp.
      rewrite (map_res_all _ (fun c => map V (consecutive (p + Z.of_nat (fst c)) (snd c)))).
      + cbn [bind]. f_equal. rewrite concat_map_flat. rewrite <- (map_flat_map V (fun c => consecutive (p + Z.of_nat (fst c)) (snd c))). rewrite chunks_cover by auto. rewrite combine_seq_consecutive, map_map. cbn [fst snd].
        rewrite <- (map_pair_consecutive (fun x y => (x, fout (V y)))). apply map_ext. intro k. reflexivity.
      + intros c Hcc. pose proof (chunks_pos chunk n c Hch Hcc) as Hs. apply chunk_acc_ok; auto. intros i Hi. apply Forall_forall. intros q Hq. apply in_consecutive in Hq.
        assert (Hk : exists k, (k < n)%nat /\ q = p + Z.of_nat k + i - l_offset la).
        { assert (Y : In (p + Z.of_nat (fst c) + (q - (p + i - l_offset la + Z.of_nat (fst c)))) (consecutive p n)). { rewrite <- (chunks_cover chunk n p Hch). apply in_flat_map. exists c. split; auto. apply in_consecutive. lia. }
          apply in_consecutive in Y. exists (Z.to_nat (q - (p + i - l_offset la))). lia. }
        destruct Hk as (k & Hk & ->). pose proof (Wi p Hp k Hk) as W. eapply within_perm in W; [|symmetry; apply (gp_shift (p + Z.of_nat k) scd); eapply renames_perm; apply sub_units; [apply Gs|exact Ps|exact Us]].
        unfold within in W. rewrite Forall_forall in W. apply W. apply in_map_iff. exists i. split; auto. Qed.

  Lemma no_broadcast_subs : no_broadcast ls /\ no_broadcast lm.
  Proof. split; apply sub_no_broadcast; auto. intros x Hx. pose proof (proj1 (perm_seq_iff _ _) P1) as (_ & _ & X). apply X, in_or_app. now left. Qed.
  (** all writes of reduce_axes *)
  Lemma axes_writes_ok run chunk dflt axes : run_ok run -> chunk <> 0%nat -> Forall2 (axis_denotes (ndim la)) axes ax ->
    exists lo mxs spread, axes_writes e f op fout run chunk dflt a la axes = Ok (lm, lo, branch_ws lo mxs, spread) /\
      layout_for_array_copy Dyn dflt lm OK = Ok lo /\ Permutation mxs (row_major (l_shape lm)) /\ forall out, spread out = Ok out.
  Proof. intros R Hch D. unfold axes_writes. destruct (split_axes_total la axes ax G Sz D ND) as (l1 & l2 & E & _ & _). rewrite E. cbn [bind].
    destruct (split_axes_ok la axes l1 l2 (proj1 G) E) as (ax' & D' & _ & -> & -> & _). pose proof (denotes_unique _ _ _ _ D D') as ->. fold (sub ax la). fold rest. fold (sub rest la). fold ls. fold lm.
    destruct ax_ls_good as (Gs & Ss & Gm & Sm). destruct no_broadcast_subs as [Ns Nm].
    destruct (copy_layout_good Dyn dflt lm OK Gm) as (lo & Eo & Go & Oo & So & Jo & Co); [tauto|]. rewrite Eo. cbn [bind].
    destruct (composition_ok ls Gs Ss Ns) as (us & cs & ds & Es & _ & Ps & Us & Bs & Cs). rewrite Es.
    destruct (composition_ok lm Gm Sm Nm) as (um & cm & dm & Em & Om & Pm & Um & Bm & Cm). rewrite Em.
    pose proof (copy_strides dflt lm lo Gm Sm Nm Eo) as Cy. rewrite <- Om in Cy.
    assert (Cy' : pick cm 0 (l_stride lo) = cum_strides (fun n => n) (pick cm 0%nat (l_shape lm)) 1).
    { rewrite !pick_app, cum_strides_app in Cy. apply app_inj_1 in Cy; [tauto|]. now rewrite cum_strides_length, !pick_length. }
    assert (Is : forall k, In k (cs ++ ds) -> (k < length (l_shape ls))%nat). { intros k Hk. pose proof (proj1 (perm_seq_iff _ _) Ps) as (_ & _ & X). apply X, in_or_app. now left. }
    assert (Im : forall k, In k (cm ++ dm) -> (k < length (l_shape lm))%nat). { intros k Hk. pose proof (proj1 (perm_seq_iff _ _) Pm) as (_ & _ & X). apply X, in_or_app. now left. }
    rewrite (product_at_ok (l_shape lm) []) by easy. cbn [bind]. rewrite (product_at_ok (l_shape ls) cs) by (intros; apply Is, in_or_app; now left). cbn [bind]. rewrite (product_at_ok (l_shape lm) cm) by (intros; apply Im, in_or_app; now left). cbn [bind].
    change (size (pick [] 0%nat (l_shape lm))) with 1%nat. change (1 <? 1)%nat with false. cbv iota.
    assert (Nlo : ndim lo = ndim lm) by (unfold ndim; now rewrite So). assert (Slo : size (l_shape lo) <> 0%nat) by now rewrite So.
    assert (Pds : Permutation (ds ++ (cs ++ us)) (seq 0 (ndim ls))). { rewrite <- Ps. rewrite app_assoc. apply Permutation_app_tail. apply Permutation_app_comm. }
    assert (Pdm : Permutation (dm ++ (cm ++ um)) (seq 0 (ndim lm))). { rewrite <- Pm. rewrite app_assoc. apply Permutation_app_tail. apply Permutation_app_comm. }
    assert (Pcm : Permutation (cm ++ dm ++ um) (seq 0 (ndim lm))) by now rewrite app_assoc.
    destruct (Nat.ltb_spec 1 (size (pick cs 0%nat (l_shape ls)))) as [Hs|Hs].
    - rewrite (sub_layout_ok lm _ um) by auto. cbn [bind]. rewrite (sub_layout_ok lo _ um); [|auto|auto|now rewrite Nlo]. cbn [bind]. rewrite (sub_layout_ok ls _ (cs ++ us)) by auto. cbn [bind].
      destruct (branch1_ok run lo us cs ds um (cm ++ dm)) as (mxs & Hp & Eb); auto. rewrite Eb. cbn [bind]. do 3 eexists. split; [reflexivity|]. auto.
    - assert (cs = []) as -> by (eapply size_big; [intros k Hk; apply Bs, in_or_app; left; exact Hk|exact Hs]). cbn [app] in *.
      destruct (Nat.ltb_spec 1 (size (pick cm 0%nat (l_shape lm)))) as [Hm|Hm].
      + rewrite (sub_layout_ok ls _ us) by auto. cbn [bind]. rewrite (sub_layout_ok lm _ (cm ++ um)) by auto. cbn [bind]. rewrite (sub_layout_ok lo dm (cm ++ um)); [|auto|auto|now rewrite Nlo]. cbn [bind]. rewrite (sub_layout_ok lo cm (dm ++ um)); [|auto|auto|now rewrite Nlo]. cbn [bind].
        destruct (branch2_ok chunk lo us ds um cm dm) as (mxs & Hp & Eb); auto. rewrite Eb. cbn [bind]. do 3 eexists. split; [reflexivity|]. auto.
      + assert (cm = []) as -> by (eapply size_big; [intros k Hk; apply Bm, in_or_app; left; exact Hk|exact Hm]). cbn [app] in *.
        rewrite (sub_layout_ok lm _ um) by auto. cbn [bind]. rewrite (sub_layout_ok lo dm um); [|auto|auto|now rewrite Nlo]. cbn [bind]. rewrite (sub_layout_ok ls _ us) by auto. cbn [bind].
        destruct (branch3_ok run lo us ds um dm) as (mxs & Hp & Eb); auto. rewrite Eb. cbn [bind]. do 3 eexists. split; [reflexivity|]. auto. Qed.
  (** the writes, in any order *)
  Lemma writes_done dflt lo mxs ws : layout_for_array_copy Dyn dflt lm OK = Ok lo -> Permutation mxs (row_major (l_shape lm)) -> Permutation ws (branch_ws lo mxs) ->
    exists out d, fold_res write_out ws (uninit O (Z.of_nat (l_size lo))) = Ok out /\ assume_init out = Ok d /\
      l_shape lo = l_shape lm /\ good lo /\ inside lo (length d) /\ length d = size (l_shape lo) /\
      forall mx, valid (l_shape lo) mx -> elem d lo mx = Some (fout (sum_at a (gp (addr lm mx)))).
  Proof. intros Eo Hp Hw. destruct ax_ls_good as (_ & _ & Gm & Sm). destruct (copy_layout_good Dyn dflt lm OK Gm) as (lo' & Eo' & Go & Oo & So & Jo & Co); [tauto|]. rewrite Eo in Eo'. injection Eo' as <-.
    unfold branch_ws in Hw. apply Permutation_map_inv in Hw as (mxs' & -> & Hp').
    set (w := fun mx => Ok (Some (fout (sum_at a (gp (addr lm mx)))))). set (n := l_size lo). assert (En : n = size (l_shape lm)) by (unfold n, l_size; now rewrite So).
    assert (Lu : length (uninit O (Z.of_nat n)) = n) by (rewrite uninit_length by lia; lia).
    assert (Iu : inside lo (length (uninit O (Z.of_nat n)))). { rewrite Lu, En. now apply covers_inside. }
    assert (Pm' : Permutation mxs' (row_major (l_shape lo))). { rewrite So. etransitivity; [symmetry; exact Hp'|exact Hp]. }
    destruct (steps_write (uninit O (Z.of_nat n)) lo w mxs' Iu Pm') as (out & E & [L U] & R).
    - intros; unfold w; eauto.
    - intros i j Vi Vj Ea. pose proof (Jo i j Vi Vj Ea) as ->. reflexivity.
    - rewrite fold_res_map. unfold write_out. cbn [fst snd].
      assert (E1 : fold_res (fun c i => let* y := w i in zset c (addr lo i) y) mxs' (uninit O (Z.of_nat n)) = Ok out).
      { rewrite put_fold; [exact E|]. intros i Hi. apply Iu. apply (in_enum RowMajor). eapply Permutation_in; [exact Pm'|exact Hi]. }
      destruct (fresh_result lo out (fun mx v => v = fout (sum_at a (gp (addr lm mx))))) as (d & Ed & _ & Ld & Id & Vd); auto.
      + rewrite L, Lu, En. exact Co.
      + intros ix V. destruct (R ix V) as (y & Ey & Hy). injection Ey as <-. eauto.
      + exists out, d. split; [exact E1|]. split; auto. split; auto. split; auto. split; auto. split; [rewrite Ld, L, Lu; reflexivity|]. intros mx V. destruct (Vd mx V) as (v & Hv & ->). exact Hv. Qed.

  (** the elements of a group *)
  Lemma nodup_map_in {X Y} (g : X -> Y) l : (forall x y, In x l -> In y l -> g x = g y -> x = y) -> NoDup l -> NoDup (map g l).
  Proof. intros J N. induction N as [|x l Hx N IH]; cbn [map]; constructor.
    - intro H. apply in_map_iff in H as (y & E & Hy). apply Hx. rewrite (J x y); auto; [now left|now right].
    - apply IH. intros; apply J; auto; now right. Qed.
  Lemma valid_pick_some bx s ix : (forall k, In k bx -> (k < length s)%nat) -> valid s ix -> valid (pick bx 0%nat s) (pick bx 0%nat ix).
  Proof. intros Hb V. induction bx as [|k bx IH]; [constructor|]. cbn [pick map]. constructor; [apply (proj1 (valid_nth s ix) V); apply Hb; now left|apply IH; intros; apply Hb; now right]. Qed.
  Lemma group_perm mx : valid (l_shape lm) mx -> Permutation (group (l_shape la) ax mx) (map (fun sx => merge (ndim la) ax sx mx) (row_major (l_shape ls))).
  Proof. intro V. assert (Lm : length mx = length rest). { apply valid_length in V. rewrite V. cbn [lm sub l_shape]. apply pick_length. }
    assert (Ls : forall sx, In sx (row_major (l_shape ls)) -> length sx = length ax). { intros sx Hs. apply (in_enum RowMajor) in Hs. apply valid_length in Hs. rewrite Hs. cbn [ls sub l_shape]. apply pick_length. }
    apply NoDup_Permutation.
    - apply NoDup_filter. apply (enum_nodup RowMajor).
    - apply nodup_map_in; [|apply (enum_nodup RowMajor)]. intros x y Hx Hy Exy. pose proof (merge_spec (ndim la) ax x mx ND B (Ls x Hx) Lm) as (_ & <- & _). pose proof (merge_spec (ndim la) ax y mx ND B (Ls y Hy) Lm) as (_ & <- & _). now rewrite Exy.
    - intro ix. unfold group. rewrite filter_In, in_map_iff. fold (ndim la). fold rest. split.
      + intros [Hi Hx]. destruct (list_eq_dec Nat.eq_dec (pick rest 0%nat ix) mx) as [<-|]; [|discriminate]. apply (in_enum RowMajor) in Hi. exists (pick ax 0%nat ix). split; [apply merge_split; auto; now apply valid_length in Hi|].
        apply (in_enum RowMajor). apply valid_pick_some; auto.
      + intros (sx & <- & Hs). pose proof (merge_spec (ndim la) ax sx mx ND B (Ls sx Hs) Lm) as (_ & _ & Er). split; [apply (in_enum RowMajor); apply merge_valid; auto; now apply (in_enum RowMajor) in Hs|].
        fold rest in Er. rewrite Er. destruct (list_eq_dec Nat.eq_dec mx mx); congruence. Qed.
  Lemma group_sum mx : valid (l_shape lm) mx -> sum_at a (gp (addr lm mx)) = sum_at a (map (addr la) (group (l_shape la) ax mx)).
  Proof. intro V. rewrite (sum_at_perm e op M h a _ _ (Permutation_map (addr la) (group_perm mx V))). f_equal. unfold gp, addrs. rewrite !map_map. apply map_ext_in. intros sx Hs. apply (in_enum RowMajor) in Hs.
    rewrite merge_addr; auto; [|apply G|apply valid_length in Hs; rewrite Hs; cbn [ls sub l_shape]; apply pick_length|apply valid_length in V; rewrite V; cbn [lm sub l_shape]; apply pick_length].
    fold rest. fold lm. unfold addr at 2. cbn [ls sub l_offset l_stride]. lia. Qed.
  Definition axes_result (lo : layout) (d : list O) : Prop := l_shape lo = l_shape lm /\ good lo /\ inside lo (length d) /\ length d = size (l_shape lo) /\
    forall mx, valid (l_shape lo) mx -> elem d lo mx = Some (fout (sum_at a (map (addr la) (group (l_shape la) ax mx)))).
  Lemma reduce_axes_ok dflt axes : Forall2 (axis_denotes (ndim la)) axes ax -> exists d lo, reduce_axes e f op fout dflt OK a la axes = Ok (d, lo) /\ axes_result lo d.
  Proof. intro D. unfold reduce_axes. destruct (axes_writes_ok (run_serial e Dyn) 48 dflt axes (run_serial_ok Dyn) ltac:(discriminate) D) as (lo & mxs & spread & E & Eo & Hp & Hs). rewrite E. cbn [bind].
    destruct (writes_done dflt lo mxs (branch_ws lo mxs) Eo Hp (Permutation_refl _)) as (out & d & Ew & Ed & So & Go & Id & Ld & Vd). rewrite Ew. cbn [bind]. rewrite Hs. cbn [bind]. unfold axes_finish. rewrite Ed. cbn [bind].
    exists d, lo. split; [reflexivity|]. repeat (split; [assumption|]). intros mx V. rewrite Vd by auto. do 2 f_equal. apply group_sum. now rewrite <- So. Qed.
  Lemma reduce_axes_rayon_ok switch tr dflt axes r : Forall2 (axis_denotes (ndim la)) axes ax -> reduce_axes_rayon e f op fout switch tr dflt OK a la axes r -> exists d lo, r = Ok (d, lo) /\ axes_result lo d.
  Proof. intros D H. unfold reduce_axes_rayon in H. destruct (l_size la <? switch)%nat; [subst r; now apply reduce_axes_ok|].
    destruct (axes_writes_ok (run_rayon e op Dyn tr) 64 dflt axes (run_rayon_ok Dyn tr) ltac:(discriminate) D) as (lo & mxs & spread & E & Eo & Hp & Hs). rewrite E in H. destruct H as (out & (ws & Hw & ->) & ->).
    destruct (writes_done dflt lo mxs ws Eo Hp Hw) as (out & d & Ew & Ed & So & Go & Id & Ld & Vd). rewrite Ew. cbn [bind]. rewrite Hs. cbn [bind]. unfold axes_finish. rewrite Ed. cbn [bind].
    exists d, lo. split; [reflexivity|]. repeat (split; [assumption|]). intros mx V. rewrite Vd by auto. do 2 f_equal. apply group_sum. now rewrite <- So. Qed.
End AxesP.
