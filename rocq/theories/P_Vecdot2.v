(** Proofs about vecdot: the branches of the kernel do the same writes. *)
From Verif Require Import Base Spec P_Index P_List M_Layout P_Layout P_Bounds P_Contig P_Strides Q_Layout M_Indexer P_Indexer M_Broadcast P_Broadcast Q_Broadcast M_Rearr M_Iter P_Iter P_Rearr P_BinOp Q_Rearr M_Kernel P_Kernel Q_Kernel M_Tensor P_Tensor Q_Tensor
  M_Reduce P_Reduce P_Arg P_Axes Q_Reduce Q_Iter Spec_Views Spec_Tensordot Spec_Vecdot M_Vecdot P_Vecdot.
Local Open Scope Z_scope.

Lemma fold_res_ext_inv {X S} (P : S -> Prop) (f g : S -> X -> res S) l : (forall x s, In x l -> P s -> f s x = g s x) -> (forall x s s', In x l -> P s -> g s x = Ok s' -> P s') ->
  forall s, P s -> fold_res f l s = fold_res g l s.
Proof. induction l as [|x l IH]; intros H K s Hs; cbn [fold_res]; auto. rewrite H by (auto; now left). destruct (g s x) as [s'| |] eqn:E; cbn [bind]; auto. apply IH; auto.
  - intros; apply H; auto; now right.
  - intros y u u' Hy; apply K; now right.
  - apply (K x s s'); auto. now left. Qed.
Lemma fold_res_inv {X S} (P : S -> Prop) (g : S -> X -> res S) l : (forall x s s', In x l -> P s -> g s x = Ok s' -> P s') -> forall s s', P s -> fold_res g l s = Ok s' -> P s'.
Proof. induction l as [|x l IH]; intros K s s' Hs; cbn [fold_res]; [congruence|]. destruct (g s x) as [u| |] eqn:E; cbn [bind]; try discriminate. apply IH; [intros y v v' Hy; apply K; now right|]. apply (K x s u); auto. now left. Qed.
Lemma seq_from s n : seq s n = map (fun k => (s + k)%nat) (seq 0 n).
Proof. revert s; induction n as [|n IH]; intro s; auto. cbn [seq map]. f_equal; [lia|]. rewrite (IH (S s)), (IH 1%nat), map_map. apply map_ext. intro k. lia. Qed.
Lemma chunks_seq c n : c <> 0%nat -> flat_map (fun q => seq (fst q) (snd q)) (chunks c n) = seq 0 n.
Proof. intro H. pose proof (chunks_cover c n 0 H) as X. apply (f_equal (map Z.to_nat)) in X. rewrite map_flat_map in X. unfold consecutive in X. rewrite map_map in X.
  transitivity (map (fun i => Z.to_nat (0 + Z.of_nat i)) (seq 0 n)).
  - rewrite <- X. apply flat_map_ext. intros [s m]. cbn [fst snd]. rewrite map_map, seq_from. apply map_ext. intro k. lia.
  - transitivity (map (fun i : nat => i) (seq 0 n)); [|apply map_id]. apply map_ext. intro k. lia. Qed.
Lemma zset_length {T} (c : list T) p x c' : zset c p x = Ok c' -> length c' = length c.
Proof. unfold zset, vset. destruct (p <? 0); [discriminate|]. destruct (Z.to_nat p <? length c)%nat eqn:Q; [|discriminate]. intro E. injection E as <-. apply upd_length. Qed.
Lemma NoDup_app_sep {T} (l1 l2 : list T) x : NoDup (l1 ++ l2) -> In x l1 -> In x l2 -> False.
Proof. induction l1 as [|y l1 IH]; cbn [app]; intros ND [] H2; inversion ND as [|? ? N1 N2]; subst; [apply N1, in_or_app; now right|auto]. Qed.

Section Writes.
  Context {A B C : Type} (zero : C) (add : C -> C -> C) (M : comm_monoid zero add) (cmul : A -> B -> C) (a : list A) (b : list B).
  Context (ssh : list nat) (ta tb : list Z) (offa offb : Z).
  Let las := mkLayout ssh ta offa.
  Let lbs := mkLayout ssh tb offb.
  Let V := dot_value zero add cmul a b ssh ta tb.
  (** the write that belongs to one element of the result *)
  Definition put (c : list (option C)) (t : list Z) : res (list (option C)) := match t with [ic; ia; ib] => zset c ic (Some (V ia ib)) | _ => Panic end.
  Lemma put_length c t c' : put c t = Ok c' -> length c' = length c.
  Proof. destruct t as [|ic [|ia [|ib [|? ?]]]]; cbn [put]; try discriminate. apply zset_length. Qed.
  Lemma puts_length ts c c' : fold_res put ts c = Ok c' -> length c' = length c.
  Proof. apply (fold_res_inv (fun d => length d = length c)); [|reflexivity]. intros x s s' _ Hs E. apply put_length in E. congruence. Qed.
  Lemma puts_shown (c : list (option C)) ic ia ib s n : (forall k, (k < n)%nat -> 0 <= ic + Z.of_nat (s + k) < Z.of_nat (length c)) ->
    exists c', fold_res put (map (fun k => map (fun x => x + Z.of_nat k) [ic; ia; ib]) (seq s n)) c = Ok c' /\ showing c c' (ic + Z.of_nat s) n (fun k => V (ia + Z.of_nat s + Z.of_nat k) (ib + Z.of_nat s + Z.of_nat k)).
  Proof. intro R. destruct (showing_put c (ic + Z.of_nat s) n (fun k => V (ia + Z.of_nat s + Z.of_nat k) (ib + Z.of_nat s + Z.of_nat k))) as (c' & E & Sh). { intros k Hk. specialize (R k Hk). lia. }
    exists c'. split; auto. rewrite <- E, seq_from, map_map, fold_res_map. apply fold_res_ext. intros k d _. cbn [map put]. f_equal; [lia|]. do 2 f_equal; lia. Qed.
  Lemma add_chunk_value ixs n ic ia ib c : Permutation ixs (row_major ssh) -> n <> 0%nat -> (forall k, (k < n)%nat -> reach ssh a ta (ia + Z.of_nat k)) -> (forall k, (k < n)%nat -> reach ssh b tb (ib + Z.of_nat k)) ->
    (forall k, (k < n)%nat -> peek c (ic + Z.of_nat k) = Some (Some zero)) ->
    exists c', add_chunk add cmul a b offa offb (map (tuple [las; lbs]) ixs) n c ic ia ib = Ok c' /\ showing c c' ic n (fun k => V (ia + Z.of_nat k) (ib + Z.of_nat k)).
  Proof. intros P Hn Ra Rb Z0. destruct (add_chunk_ok zero add M cmul a b ssh ta tb offa offb n ic ia ib ixs Hn Ra Rb) with (c := c) (v := fun _ : nat => zero) as (c' & E & Sh); auto.
    { intros sx H. eapply Permutation_in in H; [|exact P]. now apply (in_enum RowMajor) in H. }
    exists c'. split; auto. eapply showing_ext; [|exact Sh]. intros k Hk. cbv beta. rewrite (m_id zero add M). unfold V, dot_value. apply (total_perm zero add M). now apply Permutation_map. Qed.
  Lemma chunk_put ixs s n ic ia ib c : Permutation ixs (row_major ssh) -> n <> 0%nat -> (forall k, (k < n)%nat -> reach ssh a ta (ia + Z.of_nat (s + k))) -> (forall k, (k < n)%nat -> reach ssh b tb (ib + Z.of_nat (s + k))) ->
    (forall k, (k < n)%nat -> 0 <= ic + Z.of_nat (s + k) < Z.of_nat (length c)) ->
    add_slice_chunk zero add cmul a b offa offb (map (tuple [las; lbs]) ixs) c ([ic; ia; ib], (s, n)) = fold_res put (map (fun k => map (fun x => x + Z.of_nat k) [ic; ia; ib]) (seq s n)) c.
  Proof. intros P Hn Ra Rb R. destruct (puts_shown c ic ia ib s n R) as (c' & E & Sh). rewrite E. unfold add_slice_chunk. cbn [fst snd].
    destruct (zero_slice_ok zero c (ic + Z.of_nat s) n Hn) as (c1 & E1 & S1). { intros k Hk. specialize (R k Hk). lia. } rewrite E1. cbn [bind].
    destruct (add_chunk_value ixs n (ic + Z.of_nat s) (ia + Z.of_nat s) (ib + Z.of_nat s) c1 P Hn) as (c2 & E2 & S2).
    - intros k Hk. replace (ia + Z.of_nat s + Z.of_nat k) with (ia + Z.of_nat (s + k)) by lia. auto.
    - intros k Hk. replace (ib + Z.of_nat s + Z.of_nat k) with (ib + Z.of_nat (s + k)) by lia. auto.
    - apply S1.
    - rewrite E2. f_equal. eapply showing_unique; [|exact Sh]. destruct S1 as (L1 & I1 & O1), S2 as (L2 & I2 & O2). split; [congruence|]. split; auto. intros p Hp. rewrite O2, O1; auto. Qed.
  Lemma chunk_loop ixs ic ia ib qs : Permutation ixs (row_major ssh) -> (forall q, In q qs -> snd q <> 0%nat) -> NoDup (flat_map (fun q => seq (fst q) (snd q)) qs) ->
    let ks := flat_map (fun q => seq (fst q) (snd q)) qs in
    (forall k, In k ks -> reach ssh a ta (ia + Z.of_nat k) /\ reach ssh b tb (ib + Z.of_nat k)) -> forall c, (forall k, In k ks -> peek c (ic + Z.of_nat k) = Some (Some zero)) ->
    exists c', fold_res (fun c q => add_chunk add cmul a b offa offb (map (tuple [las; lbs]) ixs) (snd q) c (ic + Z.of_nat (fst q)) (ia + Z.of_nat (fst q)) (ib + Z.of_nat (fst q))) qs c = Ok c' /\ length c' = length c /\
      (forall k, In k ks -> peek c' (ic + Z.of_nat k) = Some (Some (V (ia + Z.of_nat k) (ib + Z.of_nat k)))) /\ (forall p, (forall k, In k ks -> p <> ic + Z.of_nat k) -> peek c' p = peek c p).
  Proof. intro P. induction qs as [|[s n] qs IH]; intros Hn ND ks R c Z0.
    - exists c. split; auto. split; auto. split; [intros k []|auto].
    - cbn [flat_map fst snd] in *. assert (In1 : forall k, (k < n)%nat -> In (s + k)%nat ks) by (intros k Hk; apply in_or_app; left; apply in_seq; lia).
      assert (In2 : forall k, In k (flat_map (fun q => seq (fst q) (snd q)) qs) -> In k ks) by (intros k Hk; apply in_or_app; now right).
      assert (Dj : forall k j, (k < n)%nat -> In j (flat_map (fun q => seq (fst q) (snd q)) qs) -> j <> (s + k)%nat). { intros k j Hk Hj ->. eapply NoDup_app_sep; [exact ND| |exact Hj]. apply in_seq. lia. }
      destruct (add_chunk_value ixs n (ic + Z.of_nat s) (ia + Z.of_nat s) (ib + Z.of_nat s) c P (Hn _ (or_introl eq_refl))) as (c1 & E1 & L1 & I1 & O1).
      + intros k Hk. replace (ia + Z.of_nat s + Z.of_nat k) with (ia + Z.of_nat (s + k)) by lia. apply R; auto.
      + intros k Hk. replace (ib + Z.of_nat s + Z.of_nat k) with (ib + Z.of_nat (s + k)) by lia. apply R; auto.
      + intros k Hk. replace (ic + Z.of_nat s + Z.of_nat k) with (ic + Z.of_nat (s + k)) by lia. apply Z0; auto.
      + cbn [fold_res fst snd]. rewrite E1. cbn [bind]. destruct (IH) with (c := c1) as (c2 & E2 & L2 & I2 & O2).
        * intros q Hq. apply Hn. now right.
        * clear - ND. induction (seq s n) as [|y l1 IH]; auto. apply IH. now inversion ND.
        * intros k Hk. apply R; auto.
        * intros k Hk. rewrite O1; [apply Z0; auto|]. intros j Hj X. apply (Dj j k Hj Hk). lia.
        * exists c2. split; auto. split; [congruence|]. split.
          -- intros k Hk. apply in_app_or in Hk as [Hk|Hk]; [|now apply I2]. apply in_seq in Hk. rewrite O2.
             ++ specialize (I1 (k - s)%nat ltac:(lia)). replace (ic + Z.of_nat s + Z.of_nat (k - s)) with (ic + Z.of_nat k) in I1 by lia. rewrite I1. do 3 f_equal; lia.
             ++ intros j Hj X. apply (Dj (k - s)%nat j); auto; lia.
          -- intros p Hp. rewrite O2 by auto. apply O1. intros k Hk X. apply (Hp (s + k)%nat); auto. lia. Qed.
  Lemma slices_put ixs chunk n ic ia ib c : Permutation ixs (row_major ssh) -> chunk <> 0%nat -> n <> 0%nat -> (forall k, (k < n)%nat -> reach ssh a ta (ia + Z.of_nat k)) -> (forall k, (k < n)%nat -> reach ssh b tb (ib + Z.of_nat k)) ->
    (forall k, (k < n)%nat -> 0 <= ic + Z.of_nat k < Z.of_nat (length c)) ->
    add_slices zero add cmul a b offa offb (map (tuple [las; lbs]) ixs) chunk n c [ic; ia; ib] = fold_res put (blow_t n [ic; ia; ib]) c.
  Proof. intros P Hc Hn Ra Rb R. destruct (puts_shown c ic ia ib 0 n) as (c' & E & Sh). { intros k Hk. cbn [Nat.add]. auto. } unfold blow_t. rewrite E. unfold add_slices.
    destruct (zero_slice_ok zero c ic n Hn R) as (c1 & E1 & L1 & I1 & O1). rewrite E1. cbn [bind].
    destruct (chunk_loop ixs ic ia ib (chunks chunk n) P) with (c := c1) as (c2 & E2 & L2 & I2 & O2); try (rewrite chunks_seq by auto).
    - intros q Hq. now apply (chunks_pos chunk n).
    - apply seq_NoDup.
    - intros k Hk. apply in_seq in Hk. split; [apply Ra|apply Rb]; lia.
    - intros k Hk. apply in_seq in Hk. apply I1. lia.
    - rewrite chunks_seq in I2, O2 by auto. rewrite E2. f_equal. eapply showing_unique; [|exact Sh]. split; [congruence|]. split.
      + intros k Hk. replace (ic + Z.of_nat 0 + Z.of_nat k) with (ic + Z.of_nat k) by lia. rewrite I2 by (apply in_seq; lia). do 3 f_equal; lia.
      + intros p Hp. rewrite O2, O1; auto.
        * intros k Hk X. apply (Hp k Hk). lia.
        * intros k Hk X. apply in_seq in Hk. apply (Hp k); lia. Qed.
End Writes.

Lemma permuted_steps {T X} (f : X -> T) (l : list T) xs : Permutation l (map f xs) -> exists ys, l = map f ys /\ Permutation ys xs.
Proof. intro P. apply Permutation_map_inv in P as (ys & E & P). exists ys. split; auto. now apply Permutation_sym. Qed.
Lemma common_contig2 l1 l2 : contig_axes l1 (common_prefix (comp_c l1) (comp_c l2)) /\ contig_axes l2 (common_prefix (comp_c l1) (comp_c l2)).
Proof. destruct (common_prefix_firstn (comp_c l1) (comp_c l2)) as (m & E1 & E2). split; [rewrite E1|rewrite E2]; apply contig_firstn, comp_c_contig. Qed.
Lemma common_contig3 l1 l2 l3 : let ax := common_prefix3 (comp_c l1) (comp_c l2) (comp_c l3) in contig_axes l1 ax /\ contig_axes l2 ax /\ contig_axes l3 ax.
Proof. intro ax. destruct (common_prefix3_firstn (comp_c l1) (comp_c l2) (comp_c l3)) as (m & E1 & E2 & E3). fold ax in E1, E2, E3. split; [rewrite E1|split; [rewrite E2|rewrite E3]]; apply contig_firstn, comp_c_contig. Qed.

Lemma size_pick_pos c sh : size sh <> 0%nat -> (forall k, In k c -> (k < length sh)%nat) -> size (pick c 0%nat sh) <> 0%nat.
Proof. intros H R. apply size_pos_forall in H. rewrite Forall_forall in H. apply size_pos_forall. apply Forall_forall. intros d Hd. unfold pick in Hd. apply in_map_iff in Hd as (k & <- & Hk). apply H, nth_In. auto. Qed.

Lemma strided_or_cells {R} (P : res R -> Prop) (f : nat -> Z -> Z -> res R) (g : res R) (ssh : list nat) (ta tb : list Z) : length ta = length ssh -> length tb = length ssh -> (forall n t1 t2, ssh = [n] -> ta = [t1] -> tb = [t2] -> P (f n t1 t2)) -> P g ->
  P match ssh, ta, tb with [n], [t1], [t2] => f n t1 t2 | [n], _, _ => Panic | _, _, _ => g end.
Proof. intros L1 L2 H1 H2. destruct ssh as [|n [|? ?]]; auto. destruct ta as [|t1 [|? ?]]; try discriminate L1. destruct tb as [|t2 [|? ?]]; try discriminate L2. now apply H1. Qed.

Section Plan.
  Context {A B C : Type} (zero : C) (add : C -> C -> C) (M : comm_monoid zero add) (cmul : A -> B -> C) (a : list A) (b : list B).
  Context (ssh s : list nat) (ta tb : list Z) (offa offb : Z) (lc lam lbm : layout).
  Let las := mkLayout ssh ta offa.
  Let lbs := mkLayout ssh tb offb.
  Context (Gc : good lc) (Gam : good lam) (Gbm : good lbm) (Gas : good las) (Gbs : good lbs) (Sc : l_shape lc = s) (Sam : l_shape lam = s) (Sbm : l_shape lbm = s).
  Context (S0 : size s <> 0%nat) (Ss0 : size ssh <> 0%nat).
  Context (Ra : forall mx, valid s mx -> reach ssh a ta (addr lam mx)) (Rb : forall mx, valid s mx -> reach ssh b tb (addr lbm mx)).
  Let wr := put zero add cmul a b ssh ta tb.
  Let tup := tuple [lc; lam; lbm].
  Lemma value_steps sum ixs c : Permutation ixs (row_major s) -> (forall ma mb, reach ssh a ta ma -> reach ssh b tb mb -> sum ma mb = Ok (dot_value zero add cmul a b ssh ta tb ma mb)) ->
    fold_res (put_sum sum) (map tup ixs) c = fold_res wr (map tup ixs) c.
  Proof. intros P H. apply fold_res_ext. intros t d Ht. apply in_map_iff in Ht as (mx & <- & Hm). eapply Permutation_in in Hm; [|exact P]. apply (in_enum RowMajor) in Hm. unfold tup, tuple. cbn [map put_sum wr put]. rewrite H by auto. reflexivity. Qed.
  Definition run_plan (p : plan) (c : list (option C)) : res (list (option C)) :=
    match p with Values tasks sum => fold_res (put_sum sum) tasks c | Slices tasks sp n => fold_res (add_slices zero add cmul a b offa offb sp 64 n) tasks c end.
  Definition par_plan (p : plan) (c : list (option C)) (r : res (list (option C))) : Prop :=
    match p with Values tasks sum => in_some_order (put_sum sum) tasks c r
    | Slices tasks sp n => in_some_order (add_slice_chunk zero add cmul a b offa offb sp) (flat_map (fun p => map (pair p) (chunks 64 n)) tasks) c r end.
  Definition does_writes (p : plan) : Prop := forall c, inside lc (length c) ->
    (exists ixs, Permutation ixs (row_major s) /\ run_plan p c = fold_res wr (map tup ixs) c) /\
    (forall r, par_plan p c r -> exists ixs, Permutation ixs (row_major s) /\ r = fold_res wr (map tup ixs) c).
  Lemma values_do sum ixs : Permutation ixs (row_major s) -> (forall ma mb, reach ssh a ta ma -> reach ssh b tb mb -> sum ma mb = Ok (dot_value zero add cmul a b ssh ta tb ma mb)) -> does_writes (Values (map tup ixs) sum).
  Proof. intros P H c _. split.
    - exists ixs. split; auto. now apply value_steps.
    - intros r (steps & Ps & ->). destruct (permuted_steps _ _ _ Ps) as (ys & -> & Py). assert (P' : Permutation ys (row_major s)) by (now transitivity ixs). exists ys. split; auto. now apply value_steps. Qed.
  Lemma slices_do tasks n ixs sxs : n <> 0%nat -> Permutation ixs (row_major s) -> flat_map (blow_t n) tasks = map tup ixs -> Permutation sxs (row_major ssh) -> does_writes (Slices tasks (map (tuple [las; lbs]) sxs) n).
  Proof. intros Hn P E Ps c Ic. assert (H64 : 64%nat <> 0%nat) by discriminate. set (N := length c) in *. remember 64%nat as ch eqn:Ech.
    assert (Tk : forall t, In t tasks -> exists ic ia ib, t = [ic; ia; ib] /\ forall k, (k < n)%nat -> 0 <= ic + Z.of_nat k < Z.of_nat N /\ reach ssh a ta (ia + Z.of_nat k) /\ reach ssh b tb (ib + Z.of_nat k)).
    { intros t Ht. assert (X : forall k, (k < n)%nat -> exists mx, valid s mx /\ map (fun x => x + Z.of_nat k) t = tup mx).
      { intros k Hk. assert (X : In (map (fun x => x + Z.of_nat k) t) (flat_map (blow_t n) tasks)). { apply in_flat_map. exists t. split; auto. unfold blow_t. apply in_map_iff. exists k. split; auto. apply in_seq. lia. }
        rewrite E in X. apply in_map_iff in X as (mx & Em & Hm). exists mx. split; [|congruence]. eapply Permutation_in in Hm; [|exact P]. now apply (in_enum RowMajor) in Hm. }
      destruct (X 0%nat ltac:(lia)) as (m0 & _ & E0). destruct t as [|ic [|ia [|ib [|? ?]]]]; try discriminate E0. exists ic, ia, ib. split; auto. intros k Hk. destruct (X k Hk) as (mx & Vm & Em). unfold tup, tuple in Em. cbn [map] in Em. injection Em as E1 E2 E3. rewrite E1, E2, E3. split; [apply Ic; now rewrite Sc|]. split; [now apply Ra|now apply Rb]. }
    split.
    - exists ixs. split; auto. rewrite <- E, fold_res_flat_map. unfold run_plan. rewrite <- Ech. apply (fold_res_ext_inv (fun d => length d = N)); auto.
      + intros t d Ht Hd. destruct (Tk t Ht) as (ic & ia & ib & -> & R). unfold wr. apply (slices_put zero add M cmul a b ssh ta tb offa offb); auto.
        * intros k Hk. now apply R.
        * intros k Hk. now apply R.
        * intros k Hk. rewrite Hd. now apply R.
      + intros t d d' Ht Hd Ed. apply puts_length in Ed. congruence.
    - intros r (steps & Pst & ->). rewrite <- Ech in Pst. pose (blow := fun q : list Z * (nat * nat) => map (fun k => map (fun x => x + Z.of_nat k) (fst q)) (seq (fst (snd q)) (snd (snd q)))).
      assert (Pf : Permutation (flat_map blow steps) (map tup ixs)).
      { eapply Permutation_trans; [apply Permutation_flat_map; exact Pst|]. rewrite <- E, flat_map_flat_map. replace (flat_map (fun x => flat_map blow (map (pair x) (chunks ch n))) tasks) with (flat_map (blow_t n) tasks); [apply Permutation_refl|].
        apply flat_map_ext. intro t. rewrite flat_map_map. unfold blow. cbn [fst snd]. unfold blow_t. rewrite <- (chunks_seq ch n H64), map_flat_map. reflexivity. }
      destruct (permuted_steps _ _ _ Pf) as (ys & Ey & Py). exists ys. split; [now transitivity ixs|]. rewrite <- Ey, fold_res_flat_map. apply (fold_res_ext_inv (fun d => length d = N)); auto.
      + intros [t [q m]] d Hq Hd. eapply Permutation_in in Hq; [|exact Pst]. apply in_flat_map in Hq as (t' & Ht & Hq). apply in_map_iff in Hq as (q' & Eq & Hq). injection Eq as -> ->. destruct (Tk t Ht) as (ic & ia & ib & -> & R).
        assert (Hm : m <> 0%nat) by (now apply (chunks_pos ch n (q, m))). assert (In1 : forall k, (k < m)%nat -> (q + k < n)%nat).
        { intros k Hk. assert (X : In (q + k)%nat (flat_map (fun q => seq (fst q) (snd q)) (chunks ch n))) by (apply in_flat_map; exists (q, m); split; auto; cbn [fst snd]; apply in_seq; lia). rewrite chunks_seq in X by auto. apply in_seq in X. lia. }
        unfold wr, blow. cbn [fst snd]. apply (chunk_put zero add M cmul a b ssh ta tb offa offb); auto.
        * intros k Hk. apply R. auto.
        * intros k Hk. apply R. auto.
        * intros k Hk. rewrite Hd. apply R. auto.
      + intros t d d' Ht Hd Ed. apply puts_length in Ed. congruence. Qed.
  Lemma plan_ok : exists p, vecdot_plan zero add cmul a b offa offb lc las lbs lam lbm = Ok p /\ does_writes p.
  Proof. unfold vecdot_plan. pose proof (common_contig2 las lbs) as C2. pose proof (common_contig3 lam lbm lc) as C3. unfold comp_c in C2, C3.
    destruct (get_axes_composition las) as [[[? ?] ca] ?]. destruct (get_axes_composition lbs) as [[[? ?] cb] ?]. destruct (get_axes_composition lam) as [[[? ?] ma] ?]. destruct (get_axes_composition lbm) as [[[? ?] mb] ?]. destruct (get_axes_composition lc) as [[[? ?] mc] ?]. cbn [fst snd] in C2, C3. cbv zeta in C3.
    set (asc := common_prefix ca cb) in *. set (amc := common_prefix3 ma mb mc) in *. clearbody asc amc.
    assert (F3 : Forall good [lc; lam; lbm]) by (apply Forall_cons; auto). assert (S3 : Forall (fun l => l_shape l = s) [lc; lam; lbm]) by (apply Forall_cons; auto).
    assert (F2 : Forall good [las; lbs]) by (apply Forall_cons; auto). assert (S2 : Forall (fun l => l_shape l = ssh) [las; lbs]) by (apply Forall_cons; auto).
    destruct asc as [|x asc'] eqn:Easc; [destruct amc as [|y amc'] eqn:Eamc|].
    - rewrite (visited_plain [lc; lam; lbm] s) by (auto; discriminate). cbn [bind]. assert (Pc : Permutation (col_major s) (row_major s)) by (apply Permutation_sym, row_col_perm).
      assert (X : exists p, (let* sp := visited [las; lbs] in Ok (Values (map tup (col_major s)) (sum_cells zero add cmul a b offa offb sp))) = Ok p /\ does_writes p).
      { rewrite (visited_plain [las; lbs] ssh) by (auto; discriminate). cbn [bind]. eexists. split; [reflexivity|]. apply values_do; auto. intros. apply (sum_cells_ok zero add M cmul a b ssh ta tb offa offb); auto. apply Permutation_sym, row_col_perm. }
      cbn [l_shape l_stride las lbs]. pose proof (good_wf _ Gas) as [La _]. pose proof (good_wf _ Gbs) as [Lb _]. cbn [l_shape l_stride las lbs] in La, Lb.
      apply (strided_or_cells (fun r => exists p, r = Ok p /\ does_writes p) (fun n t1 t2 => Ok (Values (map tup (col_major s)) (sum_strided zero add cmul a b n t1 t2)))); auto.
      intros n t1 t2 E1 E2 E3. eexists. split; [reflexivity|]. apply values_do; auto. intros. apply (sum_strided_ok zero add M cmul a b); auto.
    - destruct C3 as (C3a & C3b & C3c). destruct (C3c) as (NDax & Ltx & _). unfold ndim in Ltx. rewrite Sc in Ltx. rewrite <- Eamc in *.
      destruct (block_steps [lc; lam; lbm] s amc) as (full & tasks & ixs & E1 & E2 & P & E3); auto; try discriminate.
      destruct (visited_joint [las; lbs] ssh) as (fs & sxs & T1 & T2 & Ps); auto; try discriminate.
      rewrite Sam, product_at_ok by auto. cbn [bind]. rewrite T1. cbn [bind].
      destruct (rest_layout_ok lam amc) as [-> _]; auto; [now rewrite Sam|unfold ndim; now rewrite Sam|]. cbn [bind]. destruct (rest_layout_ok lbm amc) as [-> _]; auto; [now rewrite Sbm|unfold ndim; now rewrite Sbm|]. cbn [bind]. destruct (rest_layout_ok lc amc) as [-> _]; auto; [now rewrite Sc|unfold ndim; now rewrite Sc|]. cbn [bind].
      unfold ndim. rewrite Sam, Sbm, Sc. cbn [map] in E1. rewrite E1. cbn [bind]. rewrite T2. cbn [bind]. rewrite E2. cbn [bind]. eexists. split; [reflexivity|]. apply (slices_do tasks _ ixs); auto. apply size_pick_pos; auto.
    - rewrite <- Easc in *. destruct C2 as (C2a & C2b). destruct (C2a) as (NDax & Ltx & _). unfold ndim in Ltx. cbn [l_shape las] in Ltx.
      destruct (block_steps [las; lbs] ssh asc) as (full & tasks & ixs & E1 & E2 & P & E3); auto; try discriminate.
      destruct (visited_joint [lc; lam; lbm] s) as (fs & sxs & T1 & T2 & Ps); auto; try discriminate.
      change (l_shape las) with ssh. rewrite product_at_ok by auto. cbn [bind].
      destruct (rest_layout_ok las asc) as [-> _]; auto. cbn [bind]. destruct (rest_layout_ok lbs asc) as [-> _]; auto. cbn [bind]. unfold ndim. change (l_shape las) with ssh. change (l_shape lbs) with ssh. cbn [map] in E1. rewrite E1. cbn [bind]. rewrite T1. cbn [bind]. rewrite E2. cbn [bind]. rewrite T2. cbn [bind].
      eexists. split; [reflexivity|]. apply values_do; auto. intros. apply (sum_slices_ok zero add M cmul a b ssh ta tb offa offb _ _ ixs); auto. apply size_pick_pos; auto. Qed.
End Plan.
