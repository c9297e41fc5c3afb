(** Calls of closures with a state, one after another. *)
From Verif Require Import Base Spec P_Index P_List M_Layout P_Layout P_Bounds P_Contig P_Strides M_Indexer P_Indexer M_Broadcast P_Broadcast Q_Broadcast M_Rearr M_Iter P_Iter P_Rearr P_BinOp Q_Rearr M_Kernel P_Kernel Q_Kernel M_Tensor P_Tensor Q_Tensor P_Vecdot3 P_KOrder M_MapMut Spec_MapMut.
Local Open Scope Z_scope.

Definition step {St I C X Y} (pos : I -> Z) (rd : I -> C -> res X) (w : Y -> C) (g : St -> X -> St * Y) (s : St * list C) (i : I) : res (St * list C) :=
  let* v := zget (snd s) (pos i) in let* x := rd i v in let '(st, y) := g (fst s) x in let* c := zset (snd s) (pos i) (w y) in Ok (st, c).
Lemma fold_res_ext {A S} (f f' : S -> A -> res S) l : (forall s x, f s x = f' s x) -> forall s, fold_res f l s = fold_res f' l s.
Proof. intro H. induction l as [|x l IH]; intro s; cbn [fold_res]; auto. rewrite H. destruct (f' s x); cbn [bind]; auto. Qed.
Lemma step_fold {St I C X Y} (pos : I -> Z) (rd : I -> C -> res X) (w : Y -> C) (g : St -> X -> St * Y) ixs xs : Forall2 (fun _ _ => True) ixs xs -> forall st c, NoDup (map pos ixs) ->
  Forall2 (fun i x => exists v, peek c (pos i) = Some v /\ rd i v = Ok x) ixs xs ->
  exists st' c' ys, fold_res (step pos rd w g) ixs (st, c) = Ok (st', c') /\ called g st xs st' ys /\ length c' = length c /\ Forall2 (fun i y => peek c' (pos i) = Some (w y)) ixs ys /\ (forall p, ~ In p (map pos ixs) -> peek c' p = peek c p).
Proof. induction 1 as [|i x ixs xs _ FT IH]; intros st c ND F.
  - exists st, c, []. repeat split; auto. constructor.
  - inversion F as [|? ? ? ? (v & Hv & Hr) F']; subst. inversion ND as [|? ? N1 N2]; subst. destruct (g st x) as [st1 y] eqn:Eg.
    destruct (zset_ok c (pos i) (w y)) as (c1 & E1 & L1 & P1 & Q1). { apply peek_inside. eauto. }
    destruct (IH st1 c1 N2) as (st' & c' & ys & E & Cl & L & Fy & U).
    { clear - F' Q1 N1. induction F' as [|j z ixs xs (u & Hu & Hz) F' IH']; constructor.
      - exists u. split; auto. rewrite Q1; auto. intro X0. apply N1. rewrite <- X0. now left.
      - apply IH'. intro X0. apply N1. now right. }
    exists st', c', (y :: ys). split.
    { cbn [fold_res]. unfold step at 1. cbn [fst snd]. pose proof Hv as Hv'. apply zget_peek in Hv'. rewrite Hv'. cbn [bind]. rewrite Hr. cbn [bind]. rewrite Eg, E1. cbn [bind]. exact E. }
    split; [econstructor; eauto|]. split; [congruence|]. split.
    + constructor; auto. now rewrite U.
    + intros p Hp. cbn [map In] in Hp. rewrite U by tauto. apply Q1. intro X0. apply Hp. now left. Qed.
Lemma step_total {St I C X Y} (pos : I -> Z) (rd : I -> C -> res X) (w : Y -> C) (g : St -> X -> St * Y) ixs (val : I -> C -> X -> Prop) st c : NoDup (map pos ixs) ->
  (forall i, In i ixs -> exists v x, peek c (pos i) = Some v /\ rd i v = Ok x /\ val i v x) ->
  exists st' c' xs ys, fold_res (step pos rd w g) ixs (st, c) = Ok (st', c') /\ called g st xs st' ys /\ length c' = length c /\ Forall2 (fun i x => exists v, peek c (pos i) = Some v /\ val i v x) ixs xs /\
    Forall2 (fun i y => peek c' (pos i) = Some (w y)) ixs ys /\ (forall p, ~ In p (map pos ixs) -> peek c' p = peek c p).
Proof. intros ND H. assert (Hx : exists xs, Forall2 (fun i x => exists v, peek c (pos i) = Some v /\ rd i v = Ok x /\ val i v x) ixs xs).
  { clear ND. induction ixs as [|i ixs IH]; [exists []; constructor|]. destruct IH as (xs & F); [intros; apply H; now right|]. destruct (H i (or_introl eq_refl)) as (v & x & H1 & H2 & H3). exists (x :: xs). constructor; eauto. }
  destruct Hx as (xs & F). destruct (step_fold pos rd w g ixs xs) with (st := st) (c := c) as (st' & c' & ys & E & Cl & L & Fy & U); auto.
  - clear - F. induction F; constructor; auto.
  - clear - F. induction F as [|i x ? ? (v & ? & ? & ?)]; constructor; eauto.
  - exists st', c', xs, ys. repeat split; auto. clear - F. induction F as [|i x ? ? (v & ? & ? & ?)]; constructor; eauto. Qed.

(** ** the layout of a copy leads the iteration *)
Lemma cum_nonneg g s : forall c, 0 <= c -> Forall (fun t => 0 <= t) (cum_strides g s c).
Proof. induction s as [|d s IH]; intros c H; cbn [cum_strides]; constructor; auto. apply IH. nia. Qed.
Lemma nth_nonneg st k : Forall (fun t => 0 <= t) st -> 0 <= nth k st 0.
Proof. intro F. destruct (Nat.lt_ge_cases k (length st)); [|rewrite nth_overflow by auto; lia]. rewrite Forall_forall in F. apply F, nth_In. auto. Qed.
Lemma copy_nonneg k dflt l lc : good l -> layout_for_array_copy k dflt l OK = Ok lc -> forall j, 0 <= nth j (l_stride lc) 0.
Proof. intros G E j. unfold layout_for_array_copy in E. destruct (greedy_keep_ok l G) as (g & ax & f & Eg & Pa & _ & _ & _ & Sg). rewrite Eg in E. cbn [bind fst snd] in E. rewrite (reversed_permute_ok ax (ndim l) Pa) in E.
  set (c := new_f_contig k (l_shape g) 0) in *. assert (Nc : ndim c = ndim l). { unfold ndim, c. cbn [new_f_contig l_shape]. rewrite Sg, pick_length, (Permutation_length Pa), seq_length. reflexivity. }
  pose proof (inv_perm_perm ax (ndim l) Pa) as P2. rewrite <- Nc in P2. rewrite transpose_nat in E by auto. injection E as <-. cbn [permuted l_stride]. apply nth_nonneg. apply pick_nonneg. intro i. apply nth_nonneg. unfold c, new_f_contig. cbn [l_stride]. destruct k; apply cum_nonneg; lia. Qed.
Lemma fold_own L : forall acc, (forall p, In p L -> snd p = 0 -> fst p = 1%nat) -> fold_left (fun acc (p : nat * Z) => if snd p =? 0 then acc else (acc * fst p)%nat) L acc = (acc * size (map fst L))%nat.
Proof. induction L as [|[d t] L IH]; intros acc H; cbn [fold_left map fst snd]; [change (size []) with 1%nat; lia|change (size (d :: map fst L)) with (d * size (map fst L))%nat]. rewrite IH by (intros; apply H; auto; now right). destruct (Z.eqb_spec t 0) as [E|E]; [|lia]. pose proof (H (d, t) (or_introl eq_refl) E) as X. cbn in X. subst d. lia. Qed.
Lemma fold_own_le L : forall acc, (forall p, In p L -> (1 <= fst p)%nat) -> (fold_left (fun acc (p : nat * Z) => if (snd p =? 0)%Z then acc else (acc * fst p)%nat) L acc <= acc * size (map fst L))%nat.
Proof. induction L as [|[d t] L IH]; intros acc H; cbn [fold_left map fst snd]; [change (size []) with 1%nat; lia|change (size (d :: map fst L)) with (d * size (map fst L))%nat]. assert (X : forall a, (fold_left (fun acc (p : nat * Z) => if (snd p =? 0)%Z then acc else (acc * fst p)%nat) L a <= a * size (map fst L))%nat) by (intro a; apply IH; intros; apply H; now right). pose proof (H (d, t) (or_introl eq_refl)) as Hd. cbn in Hd. clear H IH. set (n := size (map fst L)) in *. clearbody n. destruct (t =? 0); eapply Nat.le_trans; try apply X; clear X.
  - apply Nat.mul_le_mono_l. nia.
  - rewrite Nat.mul_assoc. apply Nat.le_refl. Qed.
Lemma map_fst_combine {A B} (a : list A) : forall (b : list B), length b = length a -> map fst (combine a b) = a.
Proof. induction a as [|x a IH]; intros [|y b] H; try discriminate H; auto. cbn. f_equal. apply IH. cbn in H. lia. Qed.
Lemma non_broadcast_le l : wf l -> (size_non_broadcast l <= size (l_shape l))%nat.
Proof. intros [W _]. unfold size_non_broadcast, l_size. destruct (Nat.eqb_spec (size (l_shape l)) 0) as [E|E]; [lia|].
  replace (size (l_shape l)) with (1 * size (map fst (combine (l_shape l) (l_stride l))))%nat by (rewrite (map_fst_combine _ _ W); lia). apply fold_own_le. intros [d t] Hp. apply in_combine_l in Hp. apply size_pos_forall in E. rewrite Forall_forall in E. apply E in Hp. cbn. lia. Qed.
Lemma non_broadcast_eq l : wf l -> injective l -> size_non_broadcast l = size (l_shape l).
Proof. intros [W W2] J. unfold size_non_broadcast, l_size. destruct (Nat.eqb_spec (size (l_shape l)) 0) as [E|E]; [lia|]. rewrite fold_own; [rewrite (map_fst_combine (l_shape l) (l_stride l) W); lia|].
  intros [d t] Hp Ht. cbn in *. subst t. apply In_nth with (d := (0%nat, 0)) in Hp as (k & Hk & Ek). rewrite combine_length, W, Nat.min_id in Hk. rewrite combine_nth in Ek by auto. injection Ek as Ed Et.
  destruct (Nat.eq_dec d 1) as [|N]; auto. exfalso. assert (Hd : (2 <= d)%nat). { apply size_pos_forall in E. rewrite Forall_forall in E. specialize (E (nth k (l_shape l) 0%nat) (nth_In _ _ Hk)). lia. }
  pose proof (valid_zeros _ E) as V0. set (z := repeat 0%nat (length (l_shape l))) in *. assert (Lz : length z = length (l_shape l)) by (unfold z; apply repeat_length).
  assert (V1 : valid (l_shape l) (upd z k 1%nat)). { apply (valid_upd (l_shape l) z k (nth k (l_shape l) 0%nat)); auto; [now rewrite upd_same|lia]. }
  assert (X : z = upd z k 1%nat). { apply J; auto. unfold addr. f_equal. rewrite dot_upd_r by (rewrite W; auto). rewrite Et. lia. }
  assert (Y : nth k z 0%nat = nth k (upd z k 1%nat) 0%nat) by now rewrite <- X. rewrite nth_upd_same in Y by (rewrite Lz; auto). unfold z in Y. rewrite nth_repeat in Y. discriminate Y. Qed.
Lemma sorted_le_unique (a : list Z) : forall b, Permutation a b -> StronglySorted Z.le a -> StronglySorted Z.le b -> a = b.
Proof. induction a as [|x a IH]; intros b P Sa Sb; [apply Permutation_nil in P; now subst|]. destruct b as [|y b]; [symmetry in P; now apply Permutation_nil in P|].
  inversion Sa as [|? ? Sa' Fa]; inversion Sb as [|? ? Sb' Fb]; subst. rewrite Forall_forall in Fa, Fb. assert (x = y) as ->.
  { assert (Hx : In x (y :: b)) by (eapply Permutation_in; eauto; now left). assert (Hy : In y (x :: a)) by (eapply Permutation_in; [symmetry; exact P|now left]). destruct Hx as [->|Hx]; auto. destruct Hy as [->|Hy]; auto. specialize (Fa _ Hy). specialize (Fb _ Hx). lia. }
  f_equal. apply IH; auto. eapply Permutation_cons_inv; eauto. Qed.
Lemma consecutive_sorted n : StronglySorted Z.le (consecutive 0 n).
Proof. unfold consecutive. apply SS_map. eapply SS_impl; [|apply SS_seq]. cbn beta. intros. lia. Qed.
Lemma peek_consecutive {T} (c : list T) ys : length c = length ys -> Forall2 (fun p y => peek c p = Some y) (consecutive 0 (length c)) ys -> c = ys.
Proof. intros L F. apply peek_ext; auto. intro p. destruct (Z.ltb_spec p 0) as [H|H]; [unfold peek; now replace (p <? 0) with true by lia|]. destruct (Z.ltb_spec p (Z.of_nat (length c))) as [H'|H'].
  - assert (X : nth_error (consecutive 0 (length c)) (Z.to_nat p) = Some p). { unfold consecutive. rewrite nth_error_map. rewrite nth_error_nth' with (d := 0%nat) by (rewrite seq_length; lia). cbn. rewrite seq_nth by lia. f_equal. lia. }
    assert (Y : forall (ps : list Z) n q, Forall2 (fun p y => peek c p = Some y) ps ys -> nth_error ps n = Some q -> peek c q = nth_error ys n). { clear. intros ps n q F. revert n. induction F as [|a b ps ys H F IH]; intros [|n] E; try discriminate E; cbn in *; [congruence|auto]. }
    rewrite (Y _ _ _ F X). unfold peek. now replace (p <? 0) with false by lia.
  - unfold peek. replace (p <? 0) with false by lia. rewrite !(proj2 (nth_error_None _ _)); auto; lia. Qed.
