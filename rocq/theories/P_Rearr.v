(** Proofs about M_Rearr. *)
From Verif Require Import Base Spec P_Index P_List M_Layout P_Layout P_Bounds P_Contig P_Strides M_Indexer P_Indexer M_Broadcast P_Broadcast M_Rearr M_Iter P_Iter.
Local Open Scope Z_scope.

(** ** layouts that show the same elements under renamed indices *)
Lemma enum_nodup o s : NoDup (enum o s).
Proof. destruct o; [apply NoDup_row_major|apply NoDup_col_major]. Qed.
Lemma enum_perm o o' s : Permutation (enum o s) (enum o' s).
Proof. apply NoDup_Permutation; try apply enum_nodup. intro x. now rewrite !in_enum. Qed.
Lemma addrs_perm_order o o' l : Permutation (addrs o l) (addrs o' l).
Proof. apply Permutation_map, enum_perm. Qed.
(** [f] renames the indices of [l'] to those of [l] *)
Definition renames (f : list nat -> list nat) (l l' : layout) : Prop :=
  size (l_shape l') = size (l_shape l) /\
  (forall j, valid (l_shape l') j -> valid (l_shape l) (f j) /\ addr l' j = addr l (f j)) /\
  (forall j j', valid (l_shape l') j -> valid (l_shape l') j' -> f j = f j' -> j = j').
Lemma renames_enum f l l' o o' : renames f l l' -> Permutation (map f (enum o (l_shape l'))) (enum o' (l_shape l)).
Proof. intros (S & V & I). apply NoDup_Permutation_bis.
  - apply NoDup_map_inj_in; [|apply enum_nodup]. intros x y Hx Hy. apply I; now apply (in_enum o).
  - rewrite map_length, !enum_length. lia.
  - intros x Hx. apply in_map_iff in Hx as (j & <- & Hj). apply in_enum. apply in_enum in Hj. now apply V. Qed.
Lemma renames_addrs f l l' o : renames f l l' -> addrs o l' = map (addr l) (map f (enum o (l_shape l'))).
Proof. intros (S & V & I). unfold addrs. rewrite map_map. apply map_ext_in. intros j Hj. apply in_enum in Hj. now apply V. Qed.
Lemma renames_perm f l l' o o' : renames f l l' -> Permutation (addrs o l') (addrs o' l).
Proof. intro R. rewrite (renames_addrs f l l' o R). apply Permutation_map, (renames_enum f l l' o o' R). Qed.
Lemma renames_refl l : renames (fun j => j) l l.
Proof. repeat split; auto. Qed.
Lemma renames_trans f g l l' l'' : renames f l l' -> renames g l' l'' -> renames (fun j => f (g j)) l l''.
Proof. intros (S1 & V1 & I1) (S2 & V2 & I2). split; [congruence|]. split.
  - intros j Hj. destruct (V2 j Hj) as [A B]. destruct (V1 _ A) as [C D]. split; auto. congruence.
  - intros j j' Hj Hj' E. apply I2; auto. apply I1; auto; now apply V2. Qed.
Lemma renames_nonneg f l l' : renames f l l' -> nonneg l -> nonneg l'.
Proof. intros (S & V & I) N j Hj. destruct (V j Hj) as [A ->]. now apply N. Qed.
Lemma renames_injective f l l' : renames f l l' -> injective l -> injective l'.
Proof. intros (S & V & I) J i j Hi Hj E. destruct (V i Hi) as [A1 A2], (V j Hj) as [B1 B2]. apply I; auto. apply J; auto. congruence. Qed.

(** ** transposing by a permutation given as natural numbers *)
Definition permuted (ax : list nat) (l : layout) : layout := mkLayout (pick ax 0%nat (l_shape l)) (pick ax 0 (l_stride l)) (l_offset l).
Lemma denotes_nat n ax : (forall a, In a ax -> (a < n)%nat) -> Forall2 (axis_denotes n) (map Z.of_nat ax) ax.
Proof. induction ax; intro H; constructor. - split; [apply H; now left|now left]. - apply IHax. intros; apply H; now right. Qed.
Lemma transpose_nat l ax : Permutation ax (seq 0 (ndim l)) -> transpose l (map Z.of_nat ax) = Ok (permuted ax l).
Proof. intro H. apply transpose_spec. exists ax. repeat split; auto. apply denotes_nat. now apply perm_seq_iff in H. Qed.
Lemma permuted_wf ax l : Permutation ax (seq 0 (ndim l)) -> wf l -> wf (permuted ax l).
Proof. intros P [H1 H2]. split; cbn [permuted l_shape l_stride l_offset]; [now rewrite !pick_length|]. now rewrite (size_perm _ _ (pick_perm ax 0%nat (l_shape l) P)). Qed.
Lemma permuted_renames ax l : Permutation ax (seq 0 (ndim l)) -> wf l -> renames (pick (inv_perm ax) 0%nat) l (permuted ax l).
Proof. intros P [H1 H2]. pose proof (Permutation_length P) as La. rewrite seq_length in La. split; [|split]; cbn [permuted l_shape l_stride l_offset].
  - now rewrite (size_perm _ _ (pick_perm ax 0%nat (l_shape l) P)).
  - intros j Hj. destruct (valid_pick_inv ax (l_shape l) j P Hj) as (ix & V & ->). pose proof (valid_length _ _ V) as Lv.
    rewrite (pick_inv ax (ndim l)) by (auto; unfold ndim; lia). split; auto. unfold addr; cbn [permuted l_shape l_stride l_offset]. f_equal. apply dot_pick; [lia|]. rewrite Lv. auto.
  - intros j j' Hj Hj' E. destruct (valid_pick_inv ax (l_shape l) j P Hj) as (ix & V & ->). destruct (valid_pick_inv ax (l_shape l) j' P Hj') as (ix' & V' & ->).
    pose proof (valid_length _ _ V) as Lv. pose proof (valid_length _ _ V') as Lv'. rewrite !(pick_inv ax (ndim l)) in E by (auto; unfold ndim; lia). now subst. Qed.

(** ** flipping *)
Definition flipped (l : layout) (a : nat) : layout := narrowed l a (nth a (l_shape l) 0%nat) (Z.of_nat (nth a (l_shape l) 0%nat) - 1) (-1).
Lemma flipped_shape l a : l_shape (flipped l a) = l_shape l.
Proof. cbn. apply upd_same. Qed.
Lemma flipped_renames l a : wf l -> (a < ndim l)%nat -> renames (fun j => upd j a (nth a (l_shape l) 0 - 1 - nth a j 0)%nat) l (flipped l a).
Proof. intros [H1 H2] Ha. assert (V : forall j, valid (l_shape (flipped l a)) j -> (nth a j 0 < nth a (l_shape l) 0)%nat /\ length j = ndim l).
  { intros j Hj. rewrite flipped_shape in Hj. apply valid_nth in Hj as [L Hj]. split; auto. }
  split; [now rewrite flipped_shape|]. split.
  - intros j Hj. destruct (V j Hj) as [Vj Lj]. split.
    + apply valid_upd with (d := nth a (l_shape l) 0%nat); auto. lia.
    + unfold flipped. rewrite narrowed_addr; auto; [|lia]. do 2 f_equal. lia.
  - intros j j' Hj Hj' E. destruct (V j Hj) as [Vj Lj], (V j' Hj') as [Vj' Lj']. apply nth_eq_ext with (d := 0%nat); [congruence|]. intros k Hk.
    assert (X : nth k (upd j a (nth a (l_shape l) 0 - 1 - nth a j 0)%nat) 0%nat = nth k (upd j' a (nth a (l_shape l) 0 - 1 - nth a j' 0)%nat) 0%nat) by now rewrite E.
    rewrite !nth_upd in X. replace (k <? length j)%nat with true in X by lia. replace (k <? length j')%nat with true in X by lia. rewrite !andb_true_r in X.
    destruct (Nat.eqb_spec a k) as [->|Hne]; auto. lia. Qed.
Lemma dim_narrow_flip l a : good l -> (a < ndim l)%nat -> size (l_shape l) <> 0%nat ->
  dim_narrow l (Z.of_nat a) (mkSlice None None (Some (-1))) = Ok (flipped l a).
Proof. intros G Ha S. unfold dim_narrow. assert (D : axis_denotes (ndim l) (Z.of_nat a) a) by (split; auto).
  apply check_axis_spec in D. rewrite D. cbn [bind slice_is_full sl_start sl_stop sl_step unwrap_or]. set (d := nth a (l_shape l) 0%nat).
  assert (Hd : (d <> 0)%nat). { apply size_pos_forall in S. rewrite Forall_forall in S. specialize (S d). assert (X : In d (l_shape l)) by (apply nth_In; auto). specialize (S X). lia. }
  change (-1 =? 0) with false. cbv iota. replace (Z.of_nat d =? 0) with false by lia. change (-1 >? 0) with false. cbv iota.
  assert (E : narrow_neg (Z.of_nat d) None None = (Z.of_nat d - 1, -1)).
  { unfold narrow_neg. cbn [unwrap_or]. cbv zeta. change (-1 <? -1) with false. cbv iota. replace (Z.of_nat d - 1 <? 0) with false by lia. cbv iota.
    repeat match goal with |- context [if ?c then _ else _] => destruct c eqn:? end; f_equal; lia. }
  rewrite E. replace (Z.to_nat (Z.max (Z.quot (-1 - (Z.of_nat d - 1) + -1 + 1) (-1)) 0)) with d.
  - apply (narrowed_good l a d (Z.of_nat d - 1) (-1) G Ha); [|lia]. intros k Hk. fold d. lia.
  - replace (-1 - (Z.of_nat d - 1) + -1 + 1) with (- Z.of_nat d) by lia. change (Z.quot (- Z.of_nat d) (-1)) with (Z.quot (- Z.of_nat d) (- (1))). rewrite (Z.quot_opp_opp (Z.of_nat d) 1) by lia. rewrite Z.quot_1_r. lia. Qed.
Lemma flipped_good l a : good l -> (a < ndim l)%nat -> good (flipped l a).
Proof. intros G Ha. apply (narrowed_good l a _ _ _ G Ha); [|lia]. intros k Hk. lia. Qed.
Lemma flip_loop l axs : good l -> size (l_shape l) <> 0%nat -> (forall a, In a axs -> (a < ndim l)%nat) ->
  exists l' f, fold_res (fun l n => if nth n (l_stride l) 0 <? 0 then unwrap (dim_narrow l (Z.of_nat n) (mkSlice None None (Some (-1)))) else Ok l) axs l = Ok l'
    /\ good l' /\ l_shape l' = l_shape l /\ renames f l l' /\ (forall k, nth k (l_stride l') 0 = if mem k axs then (if nth k (l_stride l) 0 <? 0 then - nth k (l_stride l) 0 else nth k (l_stride l) 0) else nth k (l_stride l) 0).
Proof. revert l; induction axs as [|a axs IH]; intros l G S H; cbn [fold_res].
  - exists l, (fun j => j). repeat split; auto; try apply G.
  - assert (Ha : (a < ndim l)%nat) by (apply H; now left).
    destruct (nth a (l_stride l) 0 <? 0) eqn:E.
    + rewrite dim_narrow_flip by auto. cbn [unwrap bind].
      destruct (IH (flipped l a)) as (l' & f & E1 & G1 & S1 & R1 & K1).
      * now apply flipped_good.
      * now rewrite flipped_shape.
      * intros b Hb. unfold ndim. rewrite flipped_shape. apply H. now right.
      * rewrite flipped_shape in S1. exists l'. eexists. split; [exact E1|]. split; auto. split; auto. split; [exact (renames_trans _ _ _ _ _ (flipped_renames l a (proj1 G) Ha) R1)|].
        intro k. rewrite K1. cbn [flipped narrowed l_stride mem existsb]. rewrite nth_upd. pose proof G as [[GL _] _]. unfold ndim in Ha.
        fold (mem k axs). destruct (Nat.eqb_spec a k) as [->|Ne].
        { rewrite Nat.eqb_refl. replace (k <? length (l_stride l))%nat with true by lia. cbn [andb orb]. rewrite E. replace (nth k (l_stride l) 0 * -1 <? 0) with false by lia. destruct (mem k axs); lia. }
        { replace (k =? a)%nat with false by lia. cbn [andb orb]. reflexivity. }
    + cbn [bind]. destruct (IH l G S) as (l' & f & E1 & G1 & S1 & R1 & K1). { intros; apply H; now right. }
      exists l', f. split; auto. split; auto. split; auto. split; auto. intro k. rewrite K1. cbn [mem existsb]. fold (mem k axs). destruct (Nat.eqb_spec k a) as [->|]; cbn [orb]; auto. rewrite E. now destruct (mem a axs). Qed.

Lemma sort_seq_perm le n : Permutation (sort_by le (seq 0 n)) (seq 0 n).
Proof. symmetry. apply sort_perm. Qed.
Lemma good_wf l : good l -> wf l. Proof. now intros [? _]. Qed.

(** ** greedy_layout with the shape kept (K order) *)
Lemma greedy_keep_ok l : good l -> exists l' ax f, greedy_layout l true = Ok (l', ax) /\ Permutation ax (seq 0 (ndim l)) /\ renames f l l' /\ wf l' /\ nonneg l'
   /\ l_shape l' = pick ax 0%nat (l_shape l).
Proof. intro G. unfold greedy_layout, l_size. destruct (Nat.eqb_spec (size (l_shape l)) 0) as [E|E].
  - exists l, (seq 0 (ndim l)), (fun j => j). repeat split; auto; try apply G. unfold pick, ndim. now rewrite map_nth_seq.
  - unfold greedy_flip. destruct (flip_loop l (seq 0 (ndim l)) G E) as (l1 & f & E1 & G1 & S1 & R1 & K1). { intros a Ha. apply in_seq in Ha. lia. }
    rewrite E1. cbn [bind]. set (ax := sort_by _ _). assert (P : Permutation ax (seq 0 (ndim l1))) by apply sort_seq_perm.
    rewrite transpose_nat by auto. cbn [unwrap bind]. do 3 eexists. split; [reflexivity|].
    assert (N1 : ndim l1 = ndim l) by (unfold ndim; now rewrite S1). rewrite N1 in P. split; auto. rewrite <- N1 in P.
    assert (R : renames (fun j => f (pick (inv_perm ax) 0%nat j)) l (permuted ax l1)) by (eapply renames_trans; [exact R1|apply permuted_renames; [auto|apply G1]]).
    split; [exact R|]. split; [apply permuted_wf; [auto|apply G1]|]. split; [eapply renames_nonneg; [exact R|apply G]|]. cbn. now rewrite S1. Qed.

(** ** collapsed (G order) *)
(** ** greedy_layout with broadcast axes collapsed (G order) *)
Definition distinct (l : layout) : Prop := forall i j, valid (l_shape l) i -> valid (l_shape l) j -> addr l i = addr l j ->
  forall k, (k < ndim l)%nat -> nth k (l_stride l) 0 <> 0 -> nth k i 0%nat = nth k j 0%nat.
Lemma permuted_distinct ax l : Permutation ax (seq 0 (ndim l)) -> wf l -> distinct l -> distinct (permuted ax l).
Proof. intros P W D i j Vi Vj E k Hk Hs. pose proof (Permutation_length P) as La. rewrite seq_length in La.
  destruct (valid_pick_inv ax (l_shape l) i P Vi) as (ix & V & ->). destruct (valid_pick_inv ax (l_shape l) j P Vj) as (jx & V' & ->).
  unfold ndim in Hk. cbn [permuted l_shape l_stride] in *. rewrite pick_length in Hk. rewrite !nth_pick in * by auto. apply D; auto.
  - unfold addr in *. cbn [permuted l_stride l_offset] in E. apply Z.add_cancel_l in E. rewrite !dot_pick in E; rewrite ?(valid_length _ _ V), ?(valid_length _ _ V'); auto; try apply W. now rewrite E.
  - apply perm_seq_iff in P. apply P, nth_In. auto. Qed.
Lemma collapse_nth l k : (k < ndim l)%nat -> wf l ->
  nth k (l_shape (collapse l)) 0%nat = (if (nth k (l_shape l) 0 =? 1)%nat || (nth k (l_stride l) 0 =? 0) then 1%nat else nth k (l_shape l) 0%nat) /\
  nth k (l_stride (collapse l)) 0 = (if (nth k (l_shape l) 0 =? 1)%nat || (nth k (l_stride l) 0 =? 0) then 0 else nth k (l_stride l) 0).
Proof. intros Hk [W _]. unfold collapse, ndim in *. cbn [l_shape l_stride]. rewrite !map_map.
  rewrite map_nth_in with (d := (0%nat, 0)) by (rewrite combine_length; lia). rewrite map_nth_in with (d := (0%nat, 0)) by (rewrite combine_length; lia).
  rewrite nth_combine by auto. cbn [fst snd]. destruct (_ || _); auto. Qed.
Lemma collapse_length l : wf l -> length (l_shape (collapse l)) = ndim l /\ length (l_stride (collapse l)) = ndim l.
Proof. intros [W _]. unfold collapse, ndim. cbn [l_shape l_stride]. rewrite !map_length, !combine_length. lia. Qed.
Lemma dot_ext st st' ix ix' : length st = length ix -> length st' = length ix' -> length st = length st' ->
  (forall k, (k < length st)%nat -> nth k st 0 * Z.of_nat (nth k ix 0%nat) = nth k st' 0 * Z.of_nat (nth k ix' 0%nat)) -> dot st ix = dot st' ix'.
Proof. intros H1 H2 H3 H. rewrite !dot_sum by auto. replace (length ix') with (length ix) by lia. f_equal. apply map_ext_in. intros k Hk. apply in_seq in Hk. apply H. lia. Qed.
Lemma collapse_ok l : wf l -> nonneg l -> size (l_shape l) <> 0%nat -> wf (collapse l) /\ nonneg (collapse l) /\
  (forall z, (exists j, valid (l_shape (collapse l)) j /\ addr (collapse l) j = z) <-> exists i, valid (l_shape l) i /\ addr l i = z) /\
  (distinct l -> injective (collapse l)).
Proof. intros W N S. pose proof W as [W1 W2]. destruct (collapse_length l W) as [L1 L2].
  assert (Pos : forall k, (k < ndim l)%nat -> (0 < nth k (l_shape l) 0)%nat).
  { intros k Hk. apply size_pos_forall in S. rewrite Forall_forall in S. assert (X := S _ (nth_In (l_shape l) 0%nat Hk)). lia. }
  assert (A : forall j, valid (l_shape (collapse l)) j -> valid (l_shape l) j /\ addr (collapse l) j = addr l j).
  { intros j V. apply valid_nth in V as [Lj Vj]. rewrite L1 in *. split.
    - apply valid_nth. split; auto. intros k Hk. specialize (Vj k Hk). destruct (collapse_nth l k Hk W) as [E1 E2]. rewrite E1 in Vj. specialize (Pos k Hk). destruct (_ || _); lia.
    - unfold addr. f_equal. apply dot_ext; try lia; unfold ndim in *; try lia. intros k Hk. rewrite L2 in Hk. destruct (collapse_nth l k Hk W) as [E1 E2]. specialize (Vj k Hk). rewrite E1 in Vj. rewrite E2.
      destruct (_ || _); auto. replace (nth k j 0%nat) with 0%nat by lia. lia. }
  assert (B : forall i, valid (l_shape l) i -> exists j, valid (l_shape (collapse l)) j /\ addr (collapse l) j = addr l i).
  { intros i V. exists (map (fun k => if (nth k (l_shape l) 0 =? 1)%nat || (nth k (l_stride l) 0 =? 0) then 0%nat else nth k i 0%nat) (seq 0 (ndim l))).
    apply valid_nth in V as [Li Vi]. split.
    - apply valid_nth. rewrite map_length, seq_length. split; auto. intros k Hk. rewrite L1 in Hk. rewrite map_nth_in with (d := 0%nat) by (rewrite seq_length; lia). rewrite seq_nth by auto. cbn [plus].
      destruct (collapse_nth l k Hk W) as [-> _]. destruct (_ || _); [lia|]. now apply Vi.
    - unfold addr. f_equal. apply dot_ext; rewrite ?map_length, ?seq_length; try lia; unfold ndim in *; try lia. intros k Hk. rewrite L2 in Hk.
      rewrite map_nth_in with (d := 0%nat) by (rewrite seq_length; lia). rewrite seq_nth by auto. cbn [plus].
      destruct (collapse_nth l k Hk W) as [_ ->]. destruct (Nat.eqb_spec (nth k (l_shape l) 0%nat) 1); destruct (Z.eqb_spec (nth k (l_stride l) 0) 0); cbn [orb]; auto.
      + rewrite e0. lia. + specialize (Vi k Hk). replace (nth k i 0%nat) with 0%nat by lia. lia. + rewrite e. lia. }
  split; [split; [congruence|intros _; now apply W2]|]. split; [intros j Vj; destruct (A j Vj) as [C ->]; now apply N|]. split.
  - intro z. split; [intros (j & Vj & <-); destruct (A j Vj); eauto|intros (i & Vi & <-); auto].
  - intros D j j' Vj Vj' E. destruct (A j Vj) as [C1 C2], (A j' Vj') as [D1 D2]. apply valid_nth in Vj as [Lj Vj], Vj' as [Lj' Vj']. apply nth_eq_ext with (d := 0%nat); [congruence|].
    intros k Hk. rewrite L1 in *. rewrite Lj in Hk. destruct (collapse_nth l k Hk W) as [E1 _]. specialize (Vj k Hk). specialize (Vj' k Hk). rewrite E1 in *.
    destruct (Z.eqb_spec (nth k (l_stride l) 0) 0) as [Z0|Z0]; [rewrite orb_true_r in *; lia|]. apply D; auto. congruence. Qed.

(** ** chunks *)
Lemma firstn_valid n s ix : valid s ix -> valid (firstn n s) (firstn n ix) /\ valid (skipn n s) (skipn n ix).
Proof. intro V. revert n. induction V; intros [|n]; cbn; repeat split; try constructor; auto; try apply IHV. Qed.
Lemma chunk_addrs l n : wf l -> size (l_shape l) <> 0%nat -> (n <= ndim_of_f_contig l)%nat -> (n <= ndim l)%nat ->
  addrs ColMajor l = flat_map (fun p => consecutive p (size (firstn n (l_shape l))))
     (addrs ColMajor (mkLayout (skipn n (l_shape l)) (skipn n (l_stride l)) (l_offset l))).
Proof. intros W S Hn Hm. pose proof W as [W1 W2]. unfold addrs, enum. cbn [l_shape].
  rewrite <- (firstn_skipn n (l_shape l)) at 1. rewrite col_major_app, map_flat_map, flat_map_map. apply flat_map_ext_in. intros b Hb. apply in_col_major in Hb.
  apply (ndim_of_f_contig_prefix l n W S Hm) in Hn.
  assert (Sp : size (firstn n (l_shape l)) <> 0%nat). { rewrite <- (firstn_skipn n (l_shape l)), size_app in S. intro X. rewrite X in S. lia. }
  apply f_contig_iff in Hn; [|split; cbn [l_shape l_stride l_offset]; [rewrite !firstn_length; lia|auto]|auto]. cbn [l_shape l_offset] in Hn.
  rewrite map_map. set (Q := mkLayout (skipn n (l_shape l)) (skipn n (l_stride l)) (l_offset l)).
  transitivity (map (fun x => addr Q b - l_offset l + addr (mkLayout (firstn n (l_shape l)) (firstn n (l_stride l)) (l_offset l)) x) (col_major (firstn n (l_shape l)))).
  - apply map_ext_in. intros a Ha. apply in_col_major in Ha. apply valid_length in Ha. unfold addr, Q. cbn [l_offset l_stride].
    rewrite <- (firstn_skipn n (l_stride l)) at 1. rewrite dot_app; [lia|]. rewrite Ha, !firstn_length. lia.
  - rewrite <- map_map with (f := addr (mkLayout (firstn n (l_shape l)) (firstn n (l_stride l)) (l_offset l))). rewrite Hn. unfold consecutive. rewrite map_map. apply map_ext. intro. lia. Qed.
Lemma min_fold ls : forall m, let n := fold_left (fun m l => Nat.min m (ndim_of_f_contig l)) ls m in (n <= m)%nat /\ forall l, In l ls -> (n <= ndim_of_f_contig l)%nat.
Proof. induction ls as [|l ls IH]; intro m; cbn [fold_left]; [split; [lia|intros ? []]|]. destruct (IH (Nat.min m (ndim_of_f_contig l))) as [H1 H2]. split; [lia|].
  intros x [->|Hx]; [lia|auto]. Qed.
Lemma ndim_of_f_contig_bound l : wf l -> (ndim_of_f_contig l <= ndim l)%nat.
Proof. intros [W _]. unfold ndim_of_f_contig, ndim. destruct (_ || _); [lia|].
  assert (G : forall p c n, (contig_loop p c n <= n + length p)%nat). { induction p as [|[t d] p IH]; intros c n; cbn; [lia|]. destruct (_ && _); [lia|]. specialize (IH (c * Z.of_nat d) (S n)). lia. }
  specialize (G (combine (l_stride l) (l_shape l)) 1 0%nat). rewrite combine_length in G. lia. Qed.

(** ** inverse permutation as the code builds it *)
Lemma fold_upd_notin ps : forall acc k, ~ In k (map snd ps) -> nth k (fold_left (fun acc p => upd acc (snd p) (fst p)) ps acc) 0%nat = nth k acc 0%nat.
Proof. induction ps as [|[i q] ps IH]; intros acc k H; cbn [fold_left]; auto. cbn in H. rewrite IH by tauto. cbn. rewrite nth_upd. replace (q =? k)%nat with false by (symmetry; apply Nat.eqb_neq; tauto). reflexivity. Qed.
Lemma fold_upd_in ps : forall acc i k, NoDup (map snd ps) -> In (i, k) ps -> (k < length acc)%nat -> nth k (fold_left (fun acc p => upd acc (snd p) (fst p)) ps acc) 0%nat = i.
Proof. induction ps as [|[i' q] ps IH]; intros acc i k N H L; [destruct H|]. cbn [fold_left fst snd]. cbn in N. inversion N; subst. destruct H as [E|H].
  - injection E as -> ->. rewrite fold_upd_notin by auto. now rewrite nth_upd_same.
  - apply IH; auto. now rewrite upd_length. Qed.
Lemma fold_upd_length {A} (ps : list (A * nat)) : forall acc, length (fold_left (fun acc p => upd acc (snd p) (fst p)) ps acc) = length acc.
Proof. induction ps; intro acc; cbn; auto. now rewrite IHps, upd_length. Qed.
Lemma reversed_permute_ok ax n : Permutation ax (seq 0 n) -> reversed_permute ax = inv_perm ax.
Proof. intro P. pose proof (Permutation_length P) as La. rewrite seq_length in La. apply perm_seq_iff in P as P'. destruct P' as (ND & _ & B).
  unfold reversed_permute. apply nth_eq_ext with (d := 0%nat).
  - rewrite fold_upd_length, repeat_length. unfold inv_perm. now rewrite map_length, seq_length.
  - intros k Hk. rewrite fold_upd_length, repeat_length in Hk. rewrite La in Hk. destruct (nth_inv_perm ax n k P Hk) as [H1 H2].
    apply fold_upd_in.
    + rewrite combine_snd by now rewrite seq_length. auto.
    + replace (nth k (inv_perm ax) 0%nat, k) with (nth (nth k (inv_perm ax) 0%nat) (combine (seq 0 (length ax)) ax) (0, 0)%nat).
      * apply nth_In. rewrite combine_length, seq_length. lia.
      * rewrite combine_nth by apply seq_length. rewrite seq_nth by lia. now rewrite H2.
    + rewrite repeat_length. lia. Qed.

(** ** layouts for copies *)
Lemma contig_perm k s o : Permutation (addrs RowMajor (new_contig k s 0 o)) (consecutive 0 (size s)).
Proof. destruct o.
  - change (addrs RowMajor (new_contig k s 0 RowMajor)) with (map (addr (new_c_contig k s 0)) (row_major s)). now rewrite new_c_contig_addrs.
  - rewrite (addrs_perm_order RowMajor ColMajor). change (addrs ColMajor (new_contig k s 0 ColMajor)) with (map (addr (new_f_contig k s 0)) (col_major s)). now rewrite new_f_contig_addrs. Qed.
Lemma copy_layout_ok k dflt l o : good l -> o = OC \/ o = OF \/ o = OA \/ o = OK ->
  exists l', layout_for_array_copy k dflt l o = Ok l' /\ wf l' /\ l_offset l' = 0 /\ l_shape l' = l_shape l /\ Permutation (addrs RowMajor l') (consecutive 0 (size (l_shape l))).
Proof. intros G Ho. assert (C : forall d, wf (new_contig k (l_shape l) 0 d) /\ l_offset (new_contig k (l_shape l) 0 d) = 0 /\ l_shape (new_contig k (l_shape l) 0 d) = l_shape l /\ Permutation (addrs RowMajor (new_contig k (l_shape l) 0 d)) (consecutive 0 (size (l_shape l)))).
  { intro d. split; [apply new_contig_wf; lia|]. split; [now destruct d|]. split; [now destruct d|apply contig_perm]. }
  unfold layout_for_array_copy. destruct Ho as [->|[->|[->| ->]]].
  - exists (new_contig k (l_shape l) 0 RowMajor). split; [reflexivity|apply C].
  - exists (new_contig k (l_shape l) 0 ColMajor). split; [reflexivity|apply C].
  - destruct (c_contig l); [exists (new_contig k (l_shape l) 0 RowMajor); split; [reflexivity|apply C]|].
    destruct (f_contig l); [exists (new_contig k (l_shape l) 0 ColMajor); split; [reflexivity|apply C]|].
    exists (new_contig k (l_shape l) 0 dflt). split; [now destruct dflt|apply C].
  - destruct (greedy_keep_ok l G) as (g & ax & f & E & P & _ & _ & _ & Sg). rewrite E. cbn [bind fst snd]. rewrite (reversed_permute_ok ax (ndim l) P).
    set (c := new_f_contig k (l_shape g) 0). assert (Nc : ndim c = ndim l). { unfold ndim, c. cbn [new_f_contig l_shape]. rewrite Sg, pick_length, (Permutation_length P), seq_length. reflexivity. }
    pose proof (inv_perm_perm ax (ndim l) P) as P2. rewrite transpose_nat by now rewrite Nc. eexists. split; [reflexivity|].
    assert (Wc : wf c) by (apply (new_contig_wf k (l_shape g) 0 ColMajor); lia).
    rewrite <- Nc in P2. split; [now apply permuted_wf|]. split; [reflexivity|]. split.
    + cbn [permuted l_shape c new_f_contig]. rewrite Sg. now rewrite (pick_inv ax (ndim l)).
    + rewrite (renames_perm _ _ _ RowMajor RowMajor (permuted_renames (inv_perm ax) c P2 Wc)). change (addrs RowMajor c) with (addrs RowMajor (new_contig k (l_shape g) 0 ColMajor)). rewrite (contig_perm k (l_shape g) ColMajor). rewrite Sg, (size_perm _ _ (pick_perm ax 0%nat (l_shape l) P)). reflexivity. Qed.

(** ** several layouts at once *)
Lemma same_shapes_cons a b ls : same_shapes (a :: b :: ls) = (if list_eq_dec Nat.eq_dec (l_shape a) (l_shape b) then true else false) && same_shapes (b :: ls).
Proof. reflexivity. Qed.
Lemma same_shapes_ok ls sh : Forall (fun l => l_shape l = sh) ls -> same_shapes ls = true.
Proof. induction ls as [|a ls IH]; intro F; auto. inversion F; subst. destruct ls as [|b ls]; auto. inversion H2; subst. rewrite same_shapes_cons, IH by auto.
  destruct (list_eq_dec Nat.eq_dec (l_shape a) (l_shape b)); [auto|congruence]. Qed.
Lemma same_shapes_inv l0 ls : same_shapes (l0 :: ls) = true -> Forall (fun l => l_shape l = l_shape l0) (l0 :: ls).
Proof. revert l0; induction ls as [|b ls IH]; intros a H; [now repeat constructor|]. rewrite same_shapes_cons in H. destruct (list_eq_dec Nat.eq_dec (l_shape a) (l_shape b)) as [E|]; [|discriminate]. cbn [andb] in H.
  specialize (IH b H). constructor; auto. rewrite E. auto. Qed.
Definition jointly (ixs : list (list nat)) (l l' : layout) : Prop := wf l' /\ nonneg l' /\ l_offset l' = l_offset l /\ addrs ColMajor l' = map (addr l) ixs.
Lemma addrs_reverse l : wf l -> addrs ColMajor (reverse_axes l) = addrs RowMajor l.
Proof. intros [W _]. unfold addrs, enum. cbn [reverse_axes l_shape]. rewrite row_major_rev, map_map. apply map_ext_in. intros ix H. apply in_col_major, valid_length in H. rewrite rev_length in H.
  rewrite <- (rev_involutive ix) at 1. apply reverse_addr. rewrite rev_length. lia. Qed.
Lemma addrs_nonneg o l : nonneg l <-> Forall (fun z => 0 <= z) (addrs o l).
Proof. unfold nonneg, addrs. rewrite Forall_map, Forall_forall. split; intros H ix; specialize (H ix). - intro X. apply H. now apply in_enum in X. - intro X. apply H. now apply in_enum. Qed.
Lemma jointly_intro l l' ixs : nonneg l -> Forall (valid (l_shape l)) ixs -> wf l' -> l_offset l' = l_offset l -> addrs ColMajor l' = map (addr l) ixs -> jointly ixs l l'.
Proof. intros N V W O E. split; auto. split; auto. apply (addrs_nonneg ColMajor). rewrite E. apply Forall_map. eapply Forall_impl; [|exact V]. auto. Qed.
Lemma in_consecutive z n x : In x (consecutive z n) <-> z <= x < z + Z.of_nat n.
Proof. unfold consecutive. rewrite in_map_iff. split. - intros (k & <- & H). apply in_seq in H. lia. - intro H. exists (Z.to_nat (x - z)). split; [lia|]. apply in_seq. lia. Qed.
Lemma col_major_ones m : col_major (repeat 1%nat m) = [repeat 0%nat m].
Proof. induction m; cbn [repeat col_major]; auto. rewrite IHm. reflexivity. Qed.
Lemma sequential_addrs l : wf l -> nonneg l -> ndim l <> 0%nat -> (exists o, addrs o l = consecutive (l_offset l) (size (l_shape l))) ->
  exists l', sequential l = Ok l' /\ wf l' /\ l_offset l' = l_offset l /\ addrs ColMajor l' = consecutive (l_offset l) (size (l_shape l)).
Proof. intros W N D (o & C). unfold sequential. destruct (proj2 (bounds_index_ok_iff l W) N) as [[lo hi] B]. rewrite B. cbn [bind fst snd].
  assert (X : hi - lo = Z.of_nat (size (l_shape l))).
  { destruct (bounds_index_sound l lo hi W B) as (B1 & B2 & B3 & B4). destruct (Nat.eq_dec (size (l_shape l)) 0) as [E|E]; [specialize (B3 E); lia|].
    destruct (B4 E) as [(i1 & V1 & A1) (i2 & V2 & A2)].
    assert (I : forall z, (exists ix, valid (l_shape l) ix /\ addr l ix = z) <-> l_offset l <= z < l_offset l + Z.of_nat (size (l_shape l))).
    { intro z. rewrite <- in_consecutive, <- C. unfold addrs. rewrite in_map_iff. split; intros (ix & H1 & H2); exists ix; split; auto; now apply (in_enum o). }
    destruct (proj2 (I (l_offset l))) as (j1 & U1 & F1); [lia|]. destruct (proj2 (I (l_offset l + Z.of_nat (size (l_shape l)) - 1))) as (j2 & U2 & F2); [lia|].
    assert (Y1 := proj1 (I _) (ex_intro _ i1 (conj V1 A1))). assert (Y2 := proj1 (I _) (ex_intro _ i2 (conj V2 A2))). specialize (B2 _ U1) as Y3. specialize (B2 _ U2) as Y4. lia. }
  unfold l_size. rewrite X, Z.eqb_refl. cbn [check bind]. destruct (ndim l) as [|m]; [congruence|]. eexists. split; [reflexivity|].
  split; [split; cbn [l_shape l_stride l_offset length]; [now rewrite !repeat_length|]|split; [reflexivity|]].
  - rewrite size_cons. intro H. apply W. lia.
  - unfold addrs, enum. cbn [l_shape l_stride l_offset col_major]. rewrite col_major_ones. cbn [flat_map]. rewrite app_nil_r, map_map. unfold consecutive. apply map_ext. intro k.
    unfold addr. cbn [l_offset l_stride dot]. rewrite dot_zeros. lia. Qed.
Lemma map_res_jointly f ls ixs : (forall l, In l ls -> exists l', f l = Ok l' /\ jointly ixs l l') -> exists ls', map_res f ls = Ok ls' /\ Forall2 (jointly ixs) ls ls'.
Proof. induction ls as [|l ls IH]; intro H; [exists []; cbn; auto|]. destruct (H l) as (l' & E & J); [now left|]. destruct IH as (ls' & E' & J'); [intros; apply H; now right|].
  exists (l' :: ls'). split; [|now constructor]. cbn [map_res]. now rewrite E, E'. Qed.
Lemma enum_forall_valid o s : Forall (valid s) (enum o s).
Proof. apply Forall_forall. intros x H. now apply in_enum in H. Qed.
Lemma last_max_bound r : forall i b v, (b < i)%nat -> (last_max r i b v < i + length r)%nat.
Proof. induction r as [|x r IH]; intros i b v H; cbn [last_max length]; [lia|]. destruct (v <=? x)%nat; [specialize (IH (S i) i x)|specialize (IH (S i) b v)]; lia. Qed.
Lemma pick_reference_bound xs : xs <> [] -> (pick_reference xs < length xs)%nat.
Proof. destruct xs as [|x r]; [congruence|]. intros _. cbn [pick_reference length]. destruct (forallb _ r); [lia|]. pose proof (last_max_bound r 1 0 x). lia. Qed.
Lemma translate_unfold dflt ls l0 r o : ls = l0 :: r -> same_shapes ls = true -> translate_to_col_major dflt ls o =
    let single o := map_res (fun l => translate_unary dflt l o) ls in
    match o with
    | OC | OF | OB => single o
    | OA => let c := forallb c_contig ls in let f := forallb f_contig ls in
            if c || f then single OB
            else match c, f with
              | true, false => single OC
              | false, true => single OF
              | _, _ => match dflt with RowMajor => single OC | ColMajor => single OF end
              end
    | OK => let k := pick_reference (map size_non_broadcast ls) in
            let* g := greedy_layout (nth k ls l0) true in
            map_res (fun l => transpose l (map Z.of_nat (snd g))) ls
    | OG => Err InvalidValue
    end.
Proof. intros -> H. unfold translate_to_col_major. rewrite H. reflexivity. Qed.
Lemma joint_ok dflt ls o sh : ls <> [] -> Forall good ls -> Forall (fun l => l_shape l = sh) ls -> o = OC \/ o = OF \/ o = OK \/ (o = OA /\ sh <> []) ->
  exists ls' ixs, translate_to_col_major dflt ls o = Ok ls' /\ Permutation ixs (row_major sh) /\ Forall2 (jointly ixs) ls ls' /\
    (o = OC -> ixs = row_major sh) /\ (o = OF -> ixs = col_major sh).
Proof. intros NE G Sh Ho. assert (X : exists l0 ls0, ls = l0 :: ls0) by (destruct ls; [congruence|eauto]). destruct X as (l0 & ls0 & El). rewrite (translate_unfold dflt ls l0 ls0 o El (same_shapes_ok ls sh Sh)). cbv zeta.
  rewrite Forall_forall in G, Sh.
  assert (CC : exists ls', map_res (fun l => translate_unary dflt l OC) ls = Ok ls' /\ Forall2 (jointly (row_major sh)) ls ls').
  { apply map_res_jointly. intros l Hl. eexists. split; [reflexivity|]. specialize (Sh l Hl). apply jointly_intro; [apply G; auto| |apply reverse_wf, G; auto|reflexivity|].
    - rewrite Sh. apply (enum_forall_valid RowMajor). - rewrite addrs_reverse by now apply G. unfold addrs. now rewrite Sh. }
  assert (FF : exists ls', map_res (fun l => translate_unary dflt l OF) ls = Ok ls' /\ Forall2 (jointly (col_major sh)) ls ls').
  { apply map_res_jointly. intros l Hl. eexists. split; [reflexivity|]. specialize (Sh l Hl). apply jointly_intro; [apply G; auto| |apply G; auto|reflexivity|].
    - rewrite Sh. apply (enum_forall_valid ColMajor). - unfold addrs. now rewrite Sh. }
  assert (PC : Permutation (col_major sh) (row_major sh)) by apply (enum_perm ColMajor RowMajor).
  destruct Ho as [->|[->|[->|[-> Hs]]]].
  - destruct CC as (ls' & E & J). exists ls', (row_major sh). repeat split; auto. discriminate.
  - destruct FF as (ls' & E & J). exists ls', (col_major sh). repeat split; auto. discriminate.
  - set (k := pick_reference (map size_non_broadcast ls)). assert (Hk : In (nth k ls l0) ls). { apply nth_In. rewrite <- (map_length size_non_broadcast). apply pick_reference_bound. intro X. apply map_eq_nil in X. congruence. }
    destruct (greedy_keep_ok _ (G _ Hk)) as (g & ax & f & E & P & _). rewrite E. cbn [bind snd].
    assert (Nk : ndim (nth k ls l0) = length sh) by (unfold ndim; now rewrite (Sh _ Hk)). rewrite Nk in P.
    assert (J : exists ls', map_res (fun l => transpose l (map Z.of_nat ax)) ls = Ok ls' /\ Forall2 (jointly (map (pick (inv_perm ax) 0%nat) (col_major (pick ax 0%nat sh)))) ls ls').
    { apply map_res_jointly. intros l Hl. specialize (Sh l Hl). assert (Pl : Permutation ax (seq 0 (ndim l))) by (unfold ndim; now rewrite Sh). pose proof (good_wf l (G l Hl)) as W. rewrite transpose_nat by auto. eexists. split; [reflexivity|].
      pose proof (permuted_renames ax l Pl W) as R. apply jointly_intro; [apply G; auto| |now apply permuted_wf|reflexivity|].
      - apply Forall_forall. intros x Hx. apply in_map_iff in Hx as (j & <- & Hj). apply R. cbn [permuted l_shape]. rewrite Sh. now apply in_col_major.
      - rewrite (renames_addrs _ _ _ ColMajor R). cbn [enum permuted l_shape]. now rewrite Sh. }
    destruct J as (ls' & E' & J). exists ls'. eexists. split; [exact E'|]. split; [|split; [exact J|split; discriminate]].
    pose proof (Sh _ Hk) as Sk. assert (Pk : Permutation ax (seq 0 (ndim (nth k ls l0)))) by now rewrite Nk.
    pose proof (renames_enum _ _ _ ColMajor RowMajor (permuted_renames ax (nth k ls l0) Pk (good_wf _ (G _ Hk)))) as Q. cbn [enum permuted l_shape] in Q. rewrite Sk in Q. exact Q.
  - assert (BB : forall ixs ord, ixs = enum ord sh -> (forall l, In l ls -> addrs ord l = consecutive (l_offset l) (size sh) \/ size sh = 0%nat) -> exists ls', map_res (fun l => translate_unary dflt l OB) ls = Ok ls' /\ Forall2 (jointly ixs) ls ls').
    { intros ixs ord -> H. apply map_res_jointly. intros l Hl. specialize (Sh l Hl). cbn [translate_unary].
      assert (AC : addrs ord l = consecutive (l_offset l) (size (l_shape l))).
      { rewrite Sh. destruct (H l Hl) as [X|X]; auto. rewrite X. cbn. apply length_zero_iff_nil. rewrite addrs_length, Sh. auto. }
      destruct (sequential_addrs l (good_wf _ (G l Hl))) as (l' & E & W' & O' & A'); [apply G; auto|unfold ndim; rewrite Sh; destruct sh; [congruence|discriminate]|exists ord; exact AC|].
      exists l'. split; auto. apply jointly_intro; auto; [apply G; auto|rewrite Sh; apply enum_forall_valid|]. rewrite A', <- AC. unfold addrs. now rewrite Sh. }
    assert (SQ : forall ord (b : layout -> bool), (forall l, In l ls -> size (l_shape l) <> 0%nat -> b l = true -> addrs ord l = consecutive (l_offset l) (size (l_shape l))) -> forallb b ls = true ->
       forall l, In l ls -> addrs ord l = consecutive (l_offset l) (size sh) \/ size sh = 0%nat).
    { intros ord b Hb Fb l Hl. destruct (Nat.eq_dec (size sh) 0) as [Z0|Z0]; [now right|left]. rewrite forallb_forall in Fb. rewrite <- (Sh l Hl). apply Hb; auto. now rewrite (Sh l Hl). }
    destruct (forallb c_contig ls) eqn:Fc; [|destruct (forallb f_contig ls) eqn:Ff]; cbn [orb].
    + destruct (BB (row_major sh) RowMajor eq_refl) as (ls' & E & J). { apply (SQ RowMajor c_contig); auto. intros l Hl S0 C. apply c_contig_iff; auto. now apply good_wf, G. }
      exists ls', (row_major sh). repeat split; auto; discriminate.
    + destruct (BB (col_major sh) ColMajor eq_refl) as (ls' & E & J). { apply (SQ ColMajor f_contig); auto. intros l Hl S0 C. apply f_contig_iff; auto. now apply good_wf, G. }
      exists ls', (col_major sh). repeat split; auto; discriminate.
    + destruct dflt; [destruct CC as (ls' & E & J); exists ls', (row_major sh)|destruct FF as (ls' & E & J); exists ls', (col_major sh)]; repeat split; auto; discriminate. Qed.
