(** K order follows the memory: layouts sorted by greedy_layout are walked in ascending order. *)
From Verif Require Import Base Spec P_Index P_List M_Layout P_Layout P_Bounds P_Contig P_Strides Q_Layout M_Indexer P_Indexer M_Broadcast M_Rearr M_Iter P_Iter P_Rearr P_BinOp M_Kernel Q_Rearr P_Kernel.
Local Open Scope Z_scope.

(** every axis steps over all that the axes before it reach *)
Fixpoint steady (sh : list nat) (st : list Z) (c : Z) : Prop :=
  match sh, st with
  | d :: sh, t :: st => ((d <= 1)%nat \/ c <= t) /\ steady sh st (c + (Z.of_nat d - 1) * t)
  | _, _ => True
  end.
Lemma SS_app {A} (R : A -> A -> Prop) l1 l2 : StronglySorted R l1 -> StronglySorted R l2 -> (forall x y, In x l1 -> In y l2 -> R x y) -> StronglySorted R (l1 ++ l2).
Proof. intros H1 H2 H. induction H1 as [|x l1 S1 IH F]; cbn [app]; auto. constructor.
  - apply IH. intros; apply H; auto. now right.
  - apply Forall_app. split; auto. apply Forall_forall. intros y Hy. apply H; auto. now left. Qed.
Lemma SS_flat {A B} (Q : A -> A -> Prop) (R : B -> B -> Prop) (f : A -> list B) l : StronglySorted Q l -> (forall x, In x l -> StronglySorted R (f x)) ->
  (forall x y u v, In x l -> In y l -> Q x y -> In u (f x) -> In v (f y) -> R u v) -> StronglySorted R (flat_map f l).
Proof. induction 1 as [|x l S IH F]; intros H1 H2; cbn [flat_map]; [constructor|]. apply SS_app.
  - apply H1. now left.
  - apply IH; intros; [apply H1; now right|]. eapply H2; eauto; now right.
  - intros u v Hu Hv. apply in_flat_map in Hv as (y & Hy & Hv). rewrite Forall_forall in F. eapply H2; eauto; [now left|now right]. Qed.
Lemma SS_seq s n : StronglySorted lt (seq s n).
Proof. revert s. induction n as [|n IH]; intro s; cbn [seq]; constructor; auto. apply Forall_forall. intros x Hx. apply in_seq in Hx. lia. Qed.
Lemma SS_impl {A} (R R' : A -> A -> Prop) l : (forall x y, In x l -> In y l -> R x y -> R' x y) -> StronglySorted R l -> StronglySorted R' l.
Proof. intros H S. induction S as [|x l S IH F]; constructor. - apply IH. intros; apply H; auto; now right. - rewrite Forall_forall in *. intros y Hy. apply H; auto; [now left|now right]. Qed.
Lemma SS_map_inv {A B} (f : A -> B) (R : B -> B -> Prop) l : StronglySorted R (map f l) -> StronglySorted (fun a b => R (f a) (f b)) l.
Proof. induction l as [|x l IH]; cbn [map]; intro S; inversion S; subst; constructor; auto. now apply Forall_map. Qed.
Lemma steady_walk sh : forall st c, Forall (fun t => 0 <= t) st -> 0 <= c -> steady sh st c -> length st = length sh -> StronglySorted (fun i j => dot st i + c <= dot st j) (col_major sh).
Proof. induction sh as [|d sh IH]; intros st c N C H L; [repeat constructor|]. destruct st as [|t st]; [discriminate L|]. inversion N as [|? ? Nt N']; subst. cbn [steady] in H. destruct H as [Hd Hr]. cbn [col_major]. injection L as L.
  destruct d as [|d]; [cbn; rewrite flat_map_concat_map; cbn; clear; induction (col_major sh); cbn; [constructor|auto]|].
  apply (SS_flat (fun i j => dot st i + (c + (Z.of_nat (S d) - 1) * t) <= dot st j)).
  - apply IH; auto. nia.
  - intros r _. apply SS_map. eapply SS_impl; [|apply SS_seq]. cbn beta. intros x y Hx Hy Lt. apply in_seq in Hx, Hy. cbn [dot]. destruct Hd as [Hd|Hd]; [lia|]. nia.
  - intros x y u v Hx Hy Q Hu Hv. apply in_map_iff in Hu as (i & <- & Hi), Hv as (j & <- & Hj). apply in_seq in Hi, Hj. cbn [dot]. nia. Qed.

(** ** greedy_layout sorts so *)
Definition idle (p : nat * Z) : bool := (fst p =? 1)%nat || (snd p =? 0).
Lemma greedy_total keep sh st i j : greedy_le keep sh st i j = true \/ greedy_le keep sh st j i = true.
Proof. unfold greedy_le. destruct ((nth i sh 0%nat =? 1)%nat || (nth i st 0 =? 0)), ((nth j sh 0%nat =? 1)%nat || (nth j st 0 =? 0)), keep; cbn; lia. Qed.
Lemma greedy_trans keep sh st i j k : greedy_le keep sh st i j = true -> greedy_le keep sh st j k = true -> greedy_le keep sh st i k = true.
Proof. unfold greedy_le. destruct ((nth i sh 0%nat =? 1)%nat || (nth i st 0 =? 0)), ((nth j sh 0%nat =? 1)%nat || (nth j st 0 =? 0)), ((nth k sh 0%nat =? 1)%nat || (nth k st 0 =? 0)), keep; cbn; lia. Qed.
Lemma nz_idle p q : (1 <= fst p)%nat -> nz (p :: q) = if idle p then nz q else (fst p, Z.abs (snd p)) :: nz q.
Proof. intro H. unfold nz. cbn [filter]. unfold nzp, idle. destruct p as [d t]. cbn [fst snd] in *. destruct (Nat.eqb_spec d 1); [subst; reflexivity|]. replace (1 <? d)%nat with true by lia. destruct (t =? 0); reflexivity. Qed.
Lemma steady_of q : forall c, Forall (fun p => (1 <= fst p)%nat /\ 0 <= snd p) q -> StronglySorted (fun x y => idle x = false -> idle y = false) q -> c = 0 \/ Forall (fun x => idle x = false) q -> pass (nz q) c -> steady (map fst q) (map snd q) c.
Proof. induction q as [|[d t] q IH]; intros c F S H P; cbn [map steady]; auto. inversion F as [|? ? [F1 F2] F']; subst. inversion S as [|? ? S' Sx]; subst. cbn [fst snd] in *. rewrite nz_idle in P by auto. cbn [fst snd] in P. destruct (idle (d, t)) eqn:Ei.
  - destruct H as [->|H]; [|inversion H; congruence]. unfold idle in Ei. cbn [fst snd] in Ei. apply orb_true_iff in Ei as [Ei|Ei].
    + apply Nat.eqb_eq in Ei. subst d. split; [left; lia|]. replace (0 + (Z.of_nat 1 - 1) * t) with 0 by lia. apply IH; auto.
    + apply Z.eqb_eq in Ei. subst t. split; [right; lia|]. replace (0 + (Z.of_nat d - 1) * 0) with 0 by lia. apply IH; auto.
  - cbn [pass] in P. destruct P as [P1 P2]. rewrite Z.abs_eq in * by auto. split; [right; lia|]. apply IH; auto. right. eapply Forall_impl; [|exact Sx]. cbn beta. auto. Qed.
Lemma combine_pick {A B} (ax : list nat) (da : A) (db : B) la lb : combine (pick ax da la) (pick ax db lb) = map (fun a => (nth a la da, nth a lb db)) ax.
Proof. unfold pick. induction ax; cbn; congruence. Qed.
Lemma combine_seq {A B} (da : A) (db : B) la : forall lb, length lb = length la -> combine la lb = map (fun a => (nth a la da, nth a lb db)) (seq 0 (length la)).
Proof. induction la as [|x la IH]; intros [|y lb] L; try discriminate L; [reflexivity|]. injection L as L. cbn [combine length]. rewrite (IH lb L). rewrite <- cons_seq, <- seq_shift. rewrite map_cons, map_map. reflexivity. Qed.
Lemma greedy_steady l : good l -> size (l_shape l) <> 0%nat -> (forall k, 0 <= nth k (l_stride l) 0) -> let ax := sort_by (greedy_le true (l_shape l) (l_stride l)) (seq 0 (ndim l)) in
  steady (l_shape (permuted ax l)) (l_stride (permuted ax l)) 0.
Proof. intros (W & N & C) Sz Nn ax. assert (P : Permutation ax (seq 0 (ndim l))) by apply sort_seq_perm. destruct W as [W1 W2].
  assert (In_ : forall a, In a ax -> (a < ndim l)%nat). { intros a Ha. eapply Permutation_in in Ha; [|exact P]. apply in_seq in Ha. lia. }
  set (q := combine (l_shape (permuted ax l)) (l_stride (permuted ax l))).
  assert (Eq : q = map (fun a => (nth a (l_shape l) 0%nat, nth a (l_stride l) 0)) ax) by (unfold q; cbn [permuted l_shape l_stride]; apply combine_pick).
  assert (E1 : l_shape (permuted ax l) = map fst q) by (rewrite Eq, map_map; reflexivity). assert (E2 : l_stride (permuted ax l) = map snd q) by (rewrite Eq, map_map; reflexivity). rewrite E1, E2. clear E1 E2.
  assert (Pos : forall a, (a < ndim l)%nat -> (1 <= nth a (l_shape l) 0)%nat).
  { intros a Ha. apply size_pos_forall in Sz. rewrite Forall_forall in Sz. apply Sz, nth_In. exact Ha. }
  assert (So : StronglySorted (fun i j => greedy_le true (l_shape l) (l_stride l) i j = true) ax) by (apply sort_sorted; intros; [apply greedy_total|eapply greedy_trans; eauto]).
  assert (Fq : Forall (fun p => (1 <= fst p)%nat /\ 0 <= snd p) q). { rewrite Eq. apply Forall_map, Forall_forall. intros a Ha. cbn. split; auto. }
  apply steady_of; auto.
  - rewrite Eq. apply SS_map. eapply SS_impl; [|exact So]. cbn beta. intros i j _ _ H. unfold greedy_le, idle in *. cbn [fst snd]. intro E. rewrite E in H. destruct ((nth j (l_shape l) 0 =? 1)%nat || (nth j (l_stride l) 0 =? 0)); auto.
  - apply check_strides_chk in C; auto. assert (Ck : chk q).
    { apply (chk_perm (combine (l_shape l) (l_stride l))); auto. rewrite Eq. rewrite <- (Permutation_map _ (Permutation_sym P)). unfold ndim. now rewrite (combine_seq 0%nat 0) by auto. }
    destruct Ck as (p & Pp & Hp). replace (nz q) with p; auto. apply sorted_unique; auto.
    + eapply pass_sorted with (c := 0); eauto; [lia|]. apply Forall_forall. intros x Hx. apply (Permutation_in x Pp) in Hx. eapply nz_facts; eauto.
    + unfold nz. apply SS_map. clear Pp Hp p. rewrite Eq. apply (SS_impl (fun x y => idle x = false -> idle y = false -> Z.abs (snd x) <= Z.abs (snd y))).
      * intros x y Hx Hy H. unfold keyle. cbn [snd]. apply filter_In in Hx as [Hx Nx], Hy as [Hy Ny]. unfold nzp, idle in *. destruct x as [d t], y as [d' t']. cbn [fst snd] in *. apply H; lia.
      * apply SS_filter, SS_map. eapply SS_impl; [|exact So]. cbn beta. intros i j _ _ H. unfold greedy_le, idle in *. cbn [fst snd]. intros E E'. rewrite E, E' in H. lia. Qed.
Lemma SS_addrs l : wf l -> Forall (fun t => 0 <= t) (l_stride l) -> steady (l_shape l) (l_stride l) 0 -> StronglySorted Z.le (addrs ColMajor l).
Proof. intros [W _] N H. unfold addrs. apply SS_map. eapply SS_impl; [|apply (steady_walk (l_shape l) (l_stride l) 0); auto; lia]. cbn beta. intros. unfold addr. lia. Qed.
Lemma pick_nonneg ax st : (forall k, 0 <= nth k st 0) -> Forall (fun t => 0 <= t) (pick ax 0 st).
Proof. intro H. unfold pick. apply Forall_map, Forall_forall. intros; apply H. Qed.
Lemma greedy_ascending l l' ax : good l -> greedy_layout l true = Ok (l', ax) -> StronglySorted Z.le (addrs ColMajor l').
Proof. intros G E. unfold greedy_layout, l_size in E. destruct (Nat.eqb_spec (size (l_shape l)) 0) as [Z0|Z0].
  - injection E as <- <-. unfold addrs. rewrite enum_nil by auto. constructor.
  - unfold greedy_flip in E. destruct (flip_loop l (seq 0 (ndim l)) G Z0) as (l1 & f & E1 & G1 & S1 & R1 & K1). { intros a Ha. apply in_seq in Ha. lia. }
    rewrite E1 in E. cbn [bind] in E. set (ax' := sort_by _ _) in E. assert (P : Permutation ax' (seq 0 (ndim l1))) by apply sort_seq_perm. rewrite transpose_nat in E by auto. cbn [unwrap bind] in E. injection E as <- <-.
    assert (Nn : forall k, 0 <= nth k (l_stride l1) 0).
    { intro k. rewrite K1. destruct (mem k (seq 0 (ndim l))) eqn:M; [destruct (nth k (l_stride l) 0 <? 0) eqn:S; lia|]. rewrite nth_overflow; [lia|]. destruct G as [[W _] _]. rewrite W. unfold mem in M. destruct (le_lt_dec (length (l_shape l)) k) as [X|X]; auto. exfalso. assert (T : existsb (Nat.eqb k) (seq 0 (ndim l)) = true) by (apply existsb_exists; exists k; split; [apply in_seq; unfold ndim; lia|apply Nat.eqb_refl]). congruence. }
    apply SS_addrs; [apply permuted_wf; [auto|apply G1]|now apply pick_nonneg|]. apply greedy_steady; auto. now rewrite S1. Qed.
Lemma l_k_ascending : forall dflt k l o, accepted l -> o = OK \/ o = OG ->
  exists it ps, iter_layout_new dflt k l o = Ok it /\ collect it = Ok ps /\ Permutation ps (addrs RowMajor l) /\ StronglySorted Z.le ps.
Proof. intros dflt k l o G Ho. apply good_accepted in G. destruct (greedy_keep_ok l G) as (l' & ax & f & E & P & R & W & N & S).
  destruct (iter_new_inv ColMajor k l' W N) as (it & E1 & I & L & Pn). exists (mkIterLayout ColMajor it), (addrs ColMajor l').
  assert (X : iter_layout_new dflt k l OK = Ok (mkIterLayout ColMajor it)). { unfold iter_layout_new, translate_unary. rewrite E. cbn [bind fst]. now rewrite E1. }
  split; [destruct Ho as [->| ->]; exact X|]. split; [rewrite collect_ok by auto; cbn; now rewrite Pn|]. split; [eapply renames_perm; eauto|]. eapply greedy_ascending; eauto. Qed.
Lemma l_k_strictly : forall dflt k l o, accepted l -> injective l -> o = OK \/ o = OG ->
  exists it ps, iter_layout_new dflt k l o = Ok it /\ collect it = Ok ps /\ Permutation ps (addrs RowMajor l) /\ StronglySorted Z.lt ps.
Proof. intros dflt k l o G J Ho. destruct (l_k_ascending dflt k l o G Ho) as (it & ps & E1 & E2 & P & S). exists it, ps. split; auto. split; auto. split; auto.
  assert (ND : NoDup ps). { eapply Permutation_NoDup; [symmetry; exact P|]. unfold addrs. apply NoDup_map_inj_in; [|apply enum_nodup]. intros x y Hx Hy. apply in_enum in Hx, Hy. now apply J. }
  clear - S ND. induction S as [|x l S IH F]; constructor; inversion ND; subst; auto. rewrite Forall_forall in *. intros y Hy. specialize (F y Hy). assert (x <> y) by (intros ->; auto). lia. Qed.

(** ** joint iteration led by the first operand *)
Lemma greedy_noflip l : (forall k, 0 <= nth k (l_stride l) 0) -> greedy_flip l = Ok l.
Proof. intro H. unfold greedy_flip. induction (seq 0 (ndim l)) as [|a s IH]; cbn [fold_res]; auto. replace (nth a (l_stride l) 0 <? 0) with false by (specialize (H a); lia). exact IH. Qed.
Lemma joint_leading ls l0 r sh : ls = l0 :: r -> Forall good ls -> Forall (fun l => l_shape l = sh) ls -> (forall k, 0 <= nth k (l_stride l0) 0) -> pick_reference (map size_non_broadcast ls) = 0%nat ->
  exists ls' ixs, translate_to_col_major RowMajor ls OK = Ok ls' /\ Permutation ixs (row_major sh) /\ Forall2 (jointly ixs) ls ls' /\ StronglySorted Z.le (map (addr l0) ixs).
Proof. intros El G Sh Nn Pr. rewrite (translate_unfold RowMajor ls l0 r OK El (same_shapes_ok ls sh Sh)). cbv zeta. rewrite Pr. replace (nth 0 ls l0) with l0 by (now rewrite El).
  rewrite Forall_forall in G, Sh. assert (H0 : In l0 ls) by (rewrite El; now left).
  destruct (greedy_keep_ok _ (G _ H0)) as (g & ax & f & E & P & _). rewrite E. cbn [bind snd].
  assert (N0 : ndim l0 = length sh) by (unfold ndim; now rewrite (Sh _ H0)). rewrite N0 in P.
  assert (J : exists ls', map_res (fun l => transpose l (map Z.of_nat ax)) ls = Ok ls' /\ Forall2 (jointly (map (pick (inv_perm ax) 0%nat) (col_major (pick ax 0%nat sh)))) ls ls').
  { apply map_res_jointly. intros l Hl. specialize (Sh l Hl). assert (Pl : Permutation ax (seq 0 (ndim l))) by (unfold ndim; now rewrite Sh). pose proof (good_wf l (G l Hl)) as W. rewrite transpose_nat by auto. eexists. split; [reflexivity|].
    pose proof (permuted_renames ax l Pl W) as R. apply jointly_intro; [apply G; auto| |now apply permuted_wf|reflexivity|].
    - apply Forall_forall. intros x Hx. apply in_map_iff in Hx as (j & <- & Hj). apply R. cbn [permuted l_shape]. rewrite Sh. now apply in_col_major.
    - rewrite (renames_addrs _ _ _ ColMajor R). cbn [enum permuted l_shape]. now rewrite Sh. }
  destruct J as (ls' & E' & J). exists ls'. eexists. split; [exact E'|]. pose proof (Sh _ H0) as S0. assert (P0 : Permutation ax (seq 0 (ndim l0))) by now rewrite N0.
  pose proof (renames_enum _ _ _ ColMajor RowMajor (permuted_renames ax l0 P0 (good_wf _ (G _ H0)))) as Q. cbn [enum permuted l_shape] in Q. rewrite S0 in Q. split; [exact Q|]. split; [exact J|].
  assert (Eg : addrs ColMajor (permuted ax l0) = map (addr l0) (map (pick (inv_perm ax) 0%nat) (col_major (pick ax 0%nat sh)))). { rewrite (renames_addrs _ _ _ ColMajor (permuted_renames ax l0 P0 (good_wf _ (G _ H0)))). cbn [enum permuted l_shape]. now rewrite S0. }
  rewrite <- Eg. unfold greedy_layout, l_size in E. destruct (Nat.eqb_spec (size (l_shape l0)) 0) as [Z0|Z0].
  - unfold addrs. rewrite enum_nil; [constructor|]. cbn [permuted l_shape]. now rewrite (size_perm _ _ (pick_perm ax 0%nat (l_shape l0) P0)).
  - rewrite greedy_noflip in E by auto. cbn [bind] in E. set (ax' := sort_by _ _) in E. assert (P' : Permutation ax' (seq 0 (ndim l0))) by apply sort_seq_perm. rewrite transpose_nat in E by auto. cbn [unwrap bind] in E. injection E as _ E. subst ax.
    apply SS_addrs; [apply permuted_wf; [auto|apply good_wf; auto]|now apply pick_nonneg|]. apply greedy_steady; auto. Qed.
Lemma kernel_leading {S} k ls l0 r sh (body : S -> list Z -> res S) s : ls = l0 :: r -> Forall good ls -> Forall (fun l => l_shape l = sh) ls -> (forall k, 0 <= nth k (l_stride l0) 0) -> pick_reference (map size_non_broadcast ls) = 0%nat ->
  exists ixs, Permutation ixs (row_major sh) /\ StronglySorted Z.le (map (addr l0) ixs) /\ joint_kernel k ls body s = fold_res (fun s ix => body s (tuple ls ix)) ixs s.
Proof. intros El G Sh Nn Pr. destruct (joint_leading ls l0 r sh El G Sh Nn Pr) as (full & ixs & E & P & F & St). assert (NE : ls <> []) by (rewrite El; discriminate). destruct (translate_k_shapes ls full sh Sh E) as (sh' & Sh').
  exists ixs. split; auto. split; auto. unfold joint_kernel. rewrite E. cbn [bind]. destruct (with_contig full) as [contig n] eqn:Ec. rewrite <- (fold_res_map body (tuple ls)). destruct (contig_switch <=? n)%nat eqn:Sw.
  - assert (NF : full <> []). { destruct F; [congruence|discriminate]. } destruct (chunk_steps k full contig n sh' NF (jointly_wf _ _ _ F) Sh' Ec) as (pss & pss' & E1 & E2 & E3). { apply Nat.leb_le in Sw. unfold contig_switch in Sw. lia. }
    unfold dispatch. rewrite E2. cbn [bind]. rewrite inner_blow, <- E3. rewrite (jointly_dispatch k _ _ _ F) in E1. injection E1 as <-. now rewrite zip_all_map.
  - unfold dispatch. rewrite (jointly_dispatch k _ _ _ F). cbn [bind]. now rewrite zip_all_map. Qed.
