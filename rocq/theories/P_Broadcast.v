(** Proofs about M_Broadcast. *)
From Verif Require Import Base Spec P_Index P_List M_Layout P_Layout P_Bounds P_Contig P_Strides M_Broadcast P_Indexer.
Local Open Scope Z_scope.

Lemma aligned_ext_spec s n i : (length s <= n)%nat -> (i < n)%nat -> aligned_ext s n i = ext RowMajor s (n - 1 - i).
Proof. intros Hs Hi. unfold aligned_ext, ext. destruct (Z.leb_spec 0 (Z.of_nat (length s + i) - Z.of_nat n)).
  - rewrite rev_nth by lia. rewrite nth_indep with (d' := 1%nat) by lia. f_equal. lia.
  - rewrite nth_overflow; auto. rewrite rev_length. lia. Qed.

Definition compat (o : order) (s1 s2 : list nat) : Prop := forall k, ext o s1 k = ext o s2 k \/ ext o s1 k = 1%nat \/ ext o s2 k = 1%nat.
Lemma ext_beyond o s k : (length s <= k)%nat -> ext o s k = 1%nat.
Proof. intro H. unfold ext. apply nth_overflow. destruct o; rewrite ?rev_length; auto. Qed.
Lemma ext_inj o s t : length s = length t -> (forall k, ext o s k = ext o t k) -> s = t.
Proof. intros Hl H. unfold ext in H. destruct o.
  - rewrite <- (rev_involutive s), <- (rev_involutive t). f_equal. apply nth_eq_ext with (d := 1%nat); rewrite ?rev_length; auto.
  - apply nth_eq_ext with (d := 1%nat); auto. Qed.
Lemma ext_col s k : ext ColMajor s k = ext RowMajor (rev s) k.
Proof. unfold ext. now rewrite rev_involutive. Qed.
Lemma broadcasts_fun o s1 s2 s s' : broadcasts o s1 s2 s -> broadcasts o s1 s2 s' -> s = s'.
Proof. intros [L H] [L' H']. apply (ext_inj o); [congruence|]. intro k. specialize (H k). specialize (H' k). cbn in *. lia. Qed.

(** type of axis [i] of operand [s1] *)
Definition btype_of (s1 s2 : list nat) (n i : nat) : btype :=
  if (length s1 + i <? n)%nat then Expand
  else if (aligned_ext s1 n i =? 1)%nat && negb (aligned_ext s2 n i =? 1)%nat then Upcast else Preserve.
Lemma broadcast_cell_ok s1 s2 n i c : broadcast_cell s1 s2 n i = Ok c <->
  let d1 := aligned_ext s1 n i in let d2 := aligned_ext s2 n i in
  (d1 = d2 \/ d1 = 1 \/ d2 = 1)%nat /\ c = ((if (d1 =? 1)%nat then d2 else d1), btype_of s1 s2 n i, btype_of s2 s1 n i).
Proof. unfold broadcast_cell, btype_of. cbv zeta. set (d1 := aligned_ext s1 n i). set (d2 := aligned_ext s2 n i). clearbody d1 d2.
  replace (Z.of_nat (length s1 + i) - Z.of_nat n <? 0) with (length s1 + i <? n)%nat by lia.
  replace (Z.of_nat (length s2 + i) - Z.of_nat n <? 0) with (length s2 + i <? n)%nat by lia.
  destruct (Nat.eqb_spec d1 1), (Nat.eqb_spec d2 1); cbn [bind andb negb].
  - subst. split; [intro H; injection H as <-|intros [_ ->]]; auto.
  - subst. split; [intro H; injection H as <-|intros [_ ->]]; auto.
  - subst. split; [intro H; injection H as <-|intros [_ ->]]; auto.
  - unfold check. destruct (Nat.eqb_spec d1 d2); cbn [bind].
    + split; [intro H; injection H as <-|intros [_ ->]]; auto.
    + split; [discriminate|lia]. Qed.
Lemma broadcast_cell_nopanic s1 s2 n i : broadcast_cell s1 s2 n i <> Panic.
Proof. unfold broadcast_cell. destruct (_ =? 1)%nat, (_ =? 1)%nat; cbn; try discriminate. unfold check. destruct (_ =? _)%nat; discriminate. Qed.

Lemma cells_ok s1 s2 n cells : map_res (broadcast_cell s1 s2 n) (rev (seq 0 n)) = Ok cells <->
  (forall i, (i < n)%nat -> aligned_ext s1 n i = aligned_ext s2 n i \/ aligned_ext s1 n i = 1%nat \/ aligned_ext s2 n i = 1%nat) /\
  rev cells = map (fun i => ((if (aligned_ext s1 n i =? 1)%nat then aligned_ext s2 n i else aligned_ext s1 n i), btype_of s1 s2 n i, btype_of s2 s1 n i)) (seq 0 n).
Proof. rewrite map_res_ok. set (g := fun i => ((if (aligned_ext s1 n i =? 1)%nat then aligned_ext s2 n i else aligned_ext s1 n i), btype_of s1 s2 n i, btype_of s2 s1 n i)). split.
  - intro H. assert (E : cells = map g (rev (seq 0 n))).
    { clear - H. induction H; cbn; auto. f_equal; auto. apply broadcast_cell_ok in H. apply H. }
    split; [|rewrite E, map_rev, rev_involutive; auto].
    intros i Hi. assert (In i (rev (seq 0 n))) as I by (rewrite <- in_rev; apply in_seq; lia). clear E.
    induction H as [|x y l l' Hxy H IH]; [easy|]. destruct I as [->|I]; auto. apply broadcast_cell_ok in Hxy. apply Hxy.
  - intros [H E]. assert (E' : cells = map g (rev (seq 0 n))) by (rewrite map_rev, <- E, rev_involutive; auto). subst cells.
    assert (A : forall l, (forall i, In i l -> (i < n)%nat) -> Forall2 (fun x y => broadcast_cell s1 s2 n x = Ok y) l (map g l)).
    { induction l as [|x l IH]; cbn; constructor; auto. apply broadcast_cell_ok. split; auto. }
    apply A. intros i Hi. rewrite <- in_rev in Hi. apply in_seq in Hi. lia. Qed.

Lemma broadcast_row_ok s1 s2 s t1 t2 : broadcast_shape s1 s2 RowMajor = Ok (s, t1, t2) <->
  broadcasts RowMajor s1 s2 s /\ t1 = map (btype_of s1 s2 (length s)) (seq 0 (length s)) /\ t2 = map (btype_of s2 s1 (length s)) (seq 0 (length s)).
Proof. unfold broadcast_shape. set (n := Nat.max (length s1) (length s2)).
  assert (X : forall k, (k < n)%nat -> aligned_ext s1 n k = ext RowMajor s1 (n - 1 - k) /\ aligned_ext s2 n k = ext RowMajor s2 (n - 1 - k)).
  { intros k Hk. split; apply aligned_ext_spec; unfold n in *; lia. }
  set (g := fun i => (if (aligned_ext s1 n i =? 1)%nat then aligned_ext s2 n i else aligned_ext s1 n i)).
  assert (EX : forall k, ext RowMajor (map g (seq 0 n)) k = if (k <? n)%nat then g (n - 1 - k)%nat else 1%nat).
  { intro k. destruct (Nat.ltb_spec k n).
    - unfold ext. rewrite rev_nth by (rewrite map_length, seq_length; auto). rewrite map_length, seq_length.
      rewrite map_nth_in with (d := 0%nat) by (rewrite seq_length; lia). rewrite seq_nth by lia. f_equal. lia.
    - apply ext_beyond. now rewrite map_length, seq_length. }
  split.
  - intro H. apply bind_ok in H. destruct H as (cells & H & E). apply cells_ok in H. destruct H as [C R]. rewrite R in E. rewrite !map_map in E. cbn in E.
    injection E as <- <- <-. rewrite map_length, seq_length. split; [|auto]. fold g. split; [rewrite map_length, seq_length; auto|].
    intro k. cbv zeta. rewrite EX. destruct (Nat.ltb_spec k n) as [Hk|Hk].
    + assert (Hk2 : (n - 1 - k < n)%nat) by lia. specialize (C _ Hk2). unfold g. destruct (X _ Hk2) as [E1 E2]. rewrite E1, E2 in *. clear X E1 E2 Hk2 EX.
      replace (n - 1 - (n - 1 - k))%nat with k in * by lia. destruct (Nat.eqb_spec (ext RowMajor s1 k) 1); lia.
    + rewrite !ext_beyond by (unfold n in Hk; lia). auto.
  - intros ([L B] & -> & ->). fold n in L. rewrite L.
    assert (C : forall i, (i < n)%nat -> aligned_ext s1 n i = aligned_ext s2 n i \/ aligned_ext s1 n i = 1%nat \/ aligned_ext s2 n i = 1%nat).
    { intros i Hi. destruct (X i Hi) as [-> ->]. specialize (B (n - 1 - i)%nat). cbv zeta in B. lia. }
    assert (Cs : map_res (broadcast_cell s1 s2 n) (rev (seq 0 n)) = Ok (rev (map (fun i => (g i, btype_of s1 s2 n i, btype_of s2 s1 n i)) (seq 0 n)))).
    { apply cells_ok. split; auto. now rewrite rev_involutive. }
    rewrite Cs. cbn [bind]. rewrite rev_involutive, !map_map. cbn [fst snd]. f_equal. f_equal. f_equal.
    apply (ext_inj RowMajor); [rewrite map_length, seq_length; auto|]. intro k. rewrite EX. specialize (B k). cbv zeta in B.
    destruct (Nat.ltb_spec k n) as [Hk|Hk].
    + unfold g. destruct (X (n - 1 - k)%nat ltac:(lia)) as [-> ->]. replace (n - 1 - (n - 1 - k))%nat with k by lia.
      destruct (Nat.eqb_spec (ext RowMajor s1 k) 1); lia.
    + rewrite ext_beyond; auto. lia. Qed.
Lemma broadcast_shape_col s1 s2 : broadcast_shape s1 s2 ColMajor =
  let* p := broadcast_shape (rev s1) (rev s2) RowMajor in let '(s, t1, t2) := p in Ok (rev s, rev t1, rev t2).
Proof. unfold broadcast_shape. destruct (map_res _ _); reflexivity. Qed.
Lemma broadcasts_col s1 s2 s : broadcasts ColMajor s1 s2 s <-> broadcasts RowMajor (rev s1) (rev s2) (rev s).
Proof. unfold broadcasts. rewrite !rev_length. split; intros [L H]; split; auto; intro k; specialize (H k); cbv zeta in *; rewrite !ext_col in *; auto. Qed.
Lemma broadcast_shape_ok o s1 s2 s t1 t2 : broadcast_shape s1 s2 o = Ok (s, t1, t2) -> broadcasts o s1 s2 s.
Proof. destruct o; [intro H; now apply broadcast_row_ok in H|]. rewrite broadcast_shape_col. intro H. apply bind_ok in H.
  destruct H as ([[s' t1'] t2'] & H & E). injection E as <- <- <-. apply broadcast_row_ok in H. apply broadcasts_col. rewrite rev_involutive. apply H. Qed.
Lemma broadcast_shape_complete o s1 s2 s : broadcasts o s1 s2 s -> exists t1 t2, broadcast_shape s1 s2 o = Ok (s, t1, t2).
Proof. destruct o; intro H.
  - do 2 eexists. apply broadcast_row_ok. split; eauto.
  - rewrite broadcast_shape_col. apply broadcasts_col in H.
    assert (E : exists t1 t2, broadcast_shape (rev s1) (rev s2) RowMajor = Ok (rev s, t1, t2)) by (do 2 eexists; apply broadcast_row_ok; split; eauto).
    destruct E as (t1 & t2 & ->). cbn [bind]. rewrite rev_involutive. eauto. Qed.
Lemma broadcast_shape_nopanic o s1 s2 : broadcast_shape s1 s2 o <> Panic.
Proof. unfold broadcast_shape. pose proof (map_res_not_panic (broadcast_cell (match o with ColMajor => rev s1 | RowMajor => s1 end) (match o with ColMajor => rev s2 | RowMajor => s2 end) (Nat.max (length (match o with ColMajor => rev s1 | RowMajor => s1 end)) (length (match o with ColMajor => rev s2 | RowMajor => s2 end)))) (rev (seq 0 (Nat.max (length (match o with ColMajor => rev s1 | RowMajor => s1 end)) (length (match o with ColMajor => rev s2 | RowMajor => s2 end))))) (fun x _ => broadcast_cell_nopanic _ _ _ x)) as H.
  cbv zeta. destruct (map_res _ _); cbn; congruence. Qed.
(** existence from pointwise compatibility *)
Lemma compat_broadcasts o s1 s2 : compat o s1 s2 <-> exists s, broadcasts o s1 s2 s.
Proof. split.
  - intro C. set (n := Nat.max (length s1) (length s2)).
    set (r := map (fun k => if (ext o s1 k =? 1)%nat then ext o s2 k else ext o s1 k) (seq 0 n)).
    assert (R : forall k, nth k r 1%nat = if (ext o s1 k =? 1)%nat then ext o s2 k else ext o s1 k).
    { intro k. unfold r. destruct (Nat.ltb_spec k n).
      - rewrite map_nth_in with (d := 0%nat) by (rewrite seq_length; lia). rewrite seq_nth by lia. reflexivity.
      - rewrite nth_overflow by (rewrite map_length, seq_length; auto). rewrite !ext_beyond by (unfold n in *; lia). reflexivity. }
    assert (Lr : length r = n) by (unfold r; rewrite map_length, seq_length; auto).
    exists (match o with RowMajor => rev r | ColMajor => r end). split.
    + destruct o; rewrite ?rev_length; auto.
    + intro k. cbv zeta. specialize (C k). specialize (R k). replace (ext o (match o with RowMajor => rev r | ColMajor => r end) k) with (nth k r 1%nat).
      2:{ unfold ext. destruct o; rewrite ?rev_involutive; auto. }
      rewrite R. destruct (Nat.eqb_spec (ext o s1 k) 1); lia.
  - intros (s & L & H) k. specialize (H k). cbv zeta in H. lia. Qed.
Lemma broadcasts_comm o s1 s2 s : broadcasts o s1 s2 s -> broadcasts o s2 s1 s.
Proof. intros [L H]. split; [lia|]. intro k. specialize (H k). cbv zeta in *. lia. Qed.
Lemma broadcasts_assoc o a b c ab r : broadcasts o a b ab -> broadcasts o ab c r -> exists bc, broadcasts o b c bc /\ broadcasts o a bc r.
Proof. intros [L1 H1] [L2 H2]. destruct (proj1 (compat_broadcasts o b c)) as (bc & L3 & H3).
  { intro k. specialize (H1 k). specialize (H2 k). cbv zeta in *. lia. }
  exists bc. split; [split; auto|]. split; [lia|]. intro k. specialize (H1 k). specialize (H2 k). specialize (H3 k). cbv zeta in *. lia. Qed.

(** ** several shapes *)
Definition max_len (l : list (list nat)) : nat := fold_right (fun s m => Nat.max (length s) m) 0%nat l.
Definition joint (o : order) (shapes : list (list nat)) (out : list nat) : Prop :=
  length out = max_len shapes /\
  forall k, (forall s, In s shapes -> ext o s k = 1%nat \/ ext o s k = ext o out k) /\
            (ext o out k = 1%nat \/ exists s, In s shapes /\ ext o s k = ext o out k).
Lemma fold_broadcast o r acc out : fold_res (fun acc sh => let* p := broadcast_shape sh acc o in Ok (fst (fst p))) r acc = Ok out <-> joint o (acc :: r) out.
Proof. revert acc; induction r as [|s r IH]; intros acc; cbn [fold_res].
  - split.
    + intros [= <-]. split; [cbn; lia|]. intro k. split; [intros s [->|[]]; auto|]. right. exists acc. cbn. auto.
    + intros [L H]. f_equal. apply (ext_inj o); [cbn in L; lia|]. intro k. destruct (H k) as [H1 H2].
      destruct (H1 acc (or_introl eq_refl)); auto. destruct H2 as [H2|(s & [->|[]] & H2)]; congruence.
  - split.
    + intro H. apply bind_ok in H. destruct H as (acc' & H & H'). apply bind_ok in H. destruct H as ([[a' t1] t2] & H & E). cbn in E. injection E as <-.
      apply broadcast_shape_ok in H. apply IH in H'. destruct H as [L H], H' as [L' H']. split.
      * cbn in *. lia.
      * intro k. specialize (H k). destruct (H' k) as [H1 H2]. cbv zeta in H. pose proof (H1 a' (or_introl eq_refl)) as Ha. split.
        -- intros x [<-|[<-|Hx]]; [lia|lia|]. apply H1. now right.
        -- destruct H2 as [|(x & [<-|Hx] & E)]; auto; [|right; exists x; cbn; auto].
           destruct H as [[A1 A2]|[[A1 A2]|[A1 A2]]]; [right; exists s; cbn; split; auto; congruence|right; exists acc; cbn; split; auto; congruence|right; exists s; cbn; split; auto; congruence].
    + intros [L H]. destruct (proj1 (compat_broadcasts o s acc)) as (a' & L' & H').
      { intro k. destruct (H k) as [H1 _]. pose proof (H1 s ltac:(cbn; auto)). pose proof (H1 acc ltac:(cbn; auto)). lia. }
      destruct (broadcast_shape_complete o s acc a' (conj L' H')) as (t1 & t2 & ->). cbn [bind fst]. apply IH. split.
      * cbn in *. lia.
      * intro k. specialize (H' k). cbv zeta in H'. destruct (H k) as [H1 H2]. pose proof (H1 s ltac:(cbn; auto)) as Hs. pose proof (H1 acc ltac:(cbn; auto)) as Ha. split.
        -- intros x [<-|Hx]; [lia|]. apply H1. cbn; auto.
        -- destruct H2 as [|(x & Hx & E)]; auto. cbn in Hx. destruct Hx as [<-|[<-|Hx]]; [| |right; exists x; cbn; auto].
           ++ destruct (Nat.eq_dec (ext o out k) 1); auto. right. exists a'. cbn. split; auto. lia.
           ++ destruct (Nat.eq_dec (ext o out k) 1); auto. right. exists a'. cbn. split; auto. lia. Qed.
Lemma joint_perm o p q out : Permutation p q -> joint o p out -> joint o q out.
Proof. intros P [L H]. split.
  - rewrite L. clear - P. unfold max_len. induction P; cbn [fold_right]; lia.
  - intro k. destruct (H k) as [H1 H2]. split.
    + intros s Hs. apply H1. eapply Permutation_in; [symmetry|]; eauto.
    + destruct H2 as [|(s & Hs & E)]; auto. right. exists s. split; auto. eapply Permutation_in; eauto. Qed.

(** ** broadcast layouts *)
Definition mask (st : list Z) (bt : list btype) : list Z := map (fun p => match snd p with Preserve => fst p | _ => 0 end) (combine st bt).
Lemma dot_mask s st bt ix : length st = length s -> length bt = length s -> length ix = length s ->
  (forall k, (k < length s)%nat -> (nth k bt Preserve = Preserve /\ (nth k s 0%nat = 1%nat -> nth k ix 0%nat = 0%nat)) \/ (nth k bt Preserve <> Preserve /\ nth k s 0%nat = 1%nat)) ->
  dot (mask st bt) ix = dot st (clip s ix).
Proof. revert st bt ix; induction s as [|d s IH]; intros [|t st] [|b bt] [|i ix] H1 H2 H3 H; try discriminate; auto. unfold mask, clip in *. cbn [combine map fst snd dot].
  rewrite IH; cbn in H1, H2, H3; try lia.
  - f_equal. specialize (H 0%nat ltac:(cbn; lia)). cbn in H. destruct (Nat.eqb_spec d 1).
    + destruct H as [[-> H]|[Hb _]]; [rewrite H by auto; auto|]. destruct b; [lia|lia|congruence].
    + destruct H as [[-> _]|[_ ?]]; [auto|congruence].
  - intros k Hk. apply (H (S k)). cbn; lia. Qed.
Lemma dot_zero_prefix n st ix : dot (repeat 0 n ++ st) ix = dot st (skipn n ix).
Proof. revert ix; induction n; intros [|i ix]; cbn [repeat app skipn dot]; rewrite ?dot_nil_r; auto. rewrite IHn. lia. Qed.
Lemma mask_prefix n st bt : (length bt = n + length st)%nat -> (forall k, (k < n)%nat -> nth k bt Preserve <> Preserve) ->
  mask (repeat 0 n ++ st) bt = repeat 0 n ++ mask st (skipn n bt).
Proof. revert bt; induction n; intros bt Hl H; cbn [repeat app]; auto. destruct bt as [|b bt]; [discriminate|].
  unfold mask in *. cbn [combine map fst snd skipn]. rewrite IHn; [|cbn in Hl; lia|intros k Hk; apply (H (S k)); lia].
  f_equal. specialize (H 0%nat ltac:(lia)). destruct b; auto. Qed.
Lemma clip_valid s ix : length ix = length s -> (forall k, (k < length s)%nat -> (nth k ix 0 < nth k s 0 \/ nth k s 0 = 1)%nat) -> valid s (clip s ix).
Proof. revert ix; induction s as [|d s IH]; intros [|i ix] Hl H; try discriminate; unfold clip in *; cbn [combine map fst snd]; [constructor|].
  apply valid_cons. split.
  - specialize (H 0%nat ltac:(cbn; lia)). cbn in H. destruct (Nat.eqb_spec d 1); lia.
  - apply IH; [cbn in Hl; lia|]. intros k Hk. apply (H (S k)). cbn; lia. Qed.
Lemma ext_nth s k : (k < length s)%nat -> nth k s 0%nat = ext RowMajor s (length s - 1 - k).
Proof. intro H. unfold ext. rewrite rev_nth by lia. rewrite nth_indep with (d' := 1%nat) by auto. f_equal. lia. Qed.
Lemma btypes_nth s1 s2 n k : (k < n)%nat -> nth k (map (btype_of s1 s2 n) (seq 0 n)) Preserve = btype_of s1 s2 n k.
Proof. intro H. rewrite map_nth_in with (d := 0%nat) by (rewrite seq_length; auto). now rewrite seq_nth. Qed.

Lemma update_row_spec l s2 s : wf l -> broadcasts RowMajor (l_shape l) s2 s ->
  exists l', update_layout_row l s (map (btype_of (l_shape l) s2 (length s)) (seq 0 (length s))) = Ok l' /\ l_shape l' = s /\ length (l_stride l') = length s /\ l_offset l' = l_offset l /\
    forall ix, valid s ix -> valid (l_shape l) (source_index RowMajor (l_shape l) ix) /\ addr l' ix = addr l (source_index RowMajor (l_shape l) ix).
Proof. intros [Hl _] [L B]. unfold update_layout_row, ndim. set (s1 := l_shape l) in *. set (n := length s) in *.
  replace (n <? length s1)%nat with false by lia. set (bt := map (btype_of s1 s2 n) (seq 0 n)).
  assert (Lb : length bt = n) by (unfold bt; now rewrite map_length, seq_length).
  eexists. split; [reflexivity|]. cbn [l_shape l_stride l_offset]. split; auto. split. { rewrite map_length, combine_length, app_length, repeat_length, Lb. lia. } split; auto.
  intros ix Hv. pose proof (valid_length _ _ Hv) as Li. apply valid_nth in Hv. destruct Hv as [_ Hv]. unfold source_index.
  replace (length ix - length s1)%nat with (n - length s1)%nat by lia. set (m := (n - length s1)%nat).
  assert (Lsk : length (skipn m ix) = length s1) by (rewrite skipn_length; lia).
  assert (F : forall k, (k < length s1)%nat -> nth k s1 0%nat = aligned_ext s1 n (m + k) /\ nth k (skipn m ix) 0%nat = nth (m + k) ix 0%nat /\ (nth (m + k) ix 0 < nth (m + k) s 0)%nat
     /\ (nth (m + k) s 0 = nth k s1 0 \/ nth k s1 0 = 1)%nat /\ (nth (m + k) s 0 = if nth k s1 0 =? 1 then aligned_ext s2 n (m + k) else nth k s1 0)%nat).
  { intros k Hk. assert (E1 : aligned_ext s1 n (m + k) = nth k s1 0%nat).
    { rewrite aligned_ext_spec by lia. rewrite (ext_nth s1 k Hk). f_equal. lia. }
    assert (E2 : nth (m + k) s 0%nat = ext RowMajor s (n - 1 - (m + k))) by (apply ext_nth; lia).
    specialize (B (n - 1 - (m + k))%nat). cbv zeta in B.
    assert (E3 : ext RowMajor s1 (n - 1 - (m + k)) = nth k s1 0%nat). { rewrite (ext_nth s1 k Hk). f_equal. lia. }
    assert (E4 : aligned_ext s2 n (m + k) = ext RowMajor s2 (n - 1 - (m + k))) by (apply aligned_ext_spec; lia).
    rewrite E1, E2, E4. rewrite E3 in B. split; auto. split. { clear. revert ix. induction m; intros [|x ix]; cbn; auto. destruct k; auto. }
    split. { rewrite <- E2. apply Hv. lia. } split; [lia|]. destruct (Nat.eqb_spec (nth k s1 0%nat) 1); lia. }
  split.
  - apply clip_valid; auto. intros k Hk. destruct (F k Hk) as (_ & -> & F1 & F2 & _). lia.
  - unfold addr. cbn [l_offset l_stride]. f_equal. fold (mask (repeat 0 m ++ l_stride l) bt). rewrite mask_prefix.
    + rewrite dot_zero_prefix. apply dot_mask; auto. { rewrite skipn_length. lia. }
      intros k Hk. replace (nth k (skipn m bt) Preserve) with (nth (m + k) bt Preserve). 2:{ generalize bt. clear. intro bt. revert bt. induction m; intros [|x ix]; cbn; auto. destruct k; auto. }
      destruct (F k Hk) as (F0 & F1 & F2 & F3 & F4). unfold bt. rewrite btypes_nth by lia. unfold btype_of. replace (length s1 + (m + k) <? n)%nat with false by lia.
      rewrite <- F0, F1. destruct (Nat.eqb_spec (nth k s1 0%nat) 1) as [E|E]; cbn [andb].
      * destruct (Nat.eqb_spec (aligned_ext s2 n (m + k)) 1); cbn [negb]; [left|right; split; [discriminate|auto]]. split; auto. intros _. lia.
      * left. split; auto. congruence.
    + rewrite Lb, Hl. lia.
    + intros k Hk. unfold bt. rewrite btypes_nth by lia. unfold btype_of. replace (length s1 + k <? n)%nat with true by lia. discriminate. Qed.

Lemma source_index_col s ix : (length s <= length ix)%nat -> source_index ColMajor s ix = rev (source_index RowMajor (rev s) (rev ix)).
Proof. intro H. unfold source_index, clip. rewrite !rev_length, skipn_rev. replace (length ix - (length ix - length s))%nat with (length s) by lia.
  rewrite combine_rev by (rewrite firstn_length; lia). now rewrite map_rev, rev_involutive. Qed.
Lemma reverse_addr l ix : length (l_stride l) = length ix -> addr (reverse_axes l) (rev ix) = addr l ix.
Proof. intro H. unfold addr, reverse_axes. cbn. now rewrite dot_rev. Qed.
Lemma broadcast_operand l s2 s o : wf l -> broadcasts o (l_shape l) s2 s ->
  forall t1 t2, broadcast_shape (l_shape l) s2 o = Ok (s, t1, t2) ->
  exists l', update_layout_by_shape l s t1 o = Ok l' /\ l_shape l' = s /\ length (l_stride l') = length s /\ l_offset l' = l_offset l /\
    forall ix, valid s ix -> valid (l_shape l) (source_index o (l_shape l) ix) /\ addr l' ix = addr l (source_index o (l_shape l) ix).
Proof. intros Hw B t1 t2 E. destruct o.
  - apply broadcast_row_ok in E. destruct E as (_ & -> & _). now apply update_row_spec.
  - rewrite broadcast_shape_col in E. apply bind_ok in E. destruct E as ([[s' t1'] t2'] & E & E'). injection E' as <- <- <-.
    apply broadcast_row_ok in E. destruct E as (B' & -> & _). cbn [update_layout_by_shape]. rewrite !rev_involutive.
    change (rev (l_shape l)) with (l_shape (reverse_axes l)) in *.
    destruct (update_row_spec (reverse_axes l) (rev s2) s') as (l' & E & S & Ls & O & F); [now apply reverse_wf|auto|].
    rewrite E. cbn [bind]. exists (reverse_axes l'). split; auto. cbn [reverse_axes l_shape l_stride l_offset]. rewrite S, !rev_length, Ls. split; auto. split; auto.
    split; [exact O|]. intros ix Hv. pose proof (valid_length _ _ Hv) as Li. rewrite rev_length in Li.
    assert (Hv' : valid s' (rev ix)) by (apply valid_rev in Hv; now rewrite rev_involutive in Hv).
    destruct (F _ Hv') as [F1 F2]. assert (Lle : (length (l_shape l) <= length ix)%nat). { destruct B' as [L _]. cbn in L. rewrite !rev_length in L. lia. }
    rewrite source_index_col by auto. change (rev (l_shape l)) with (l_shape (reverse_axes l)). split.
    + apply valid_rev in F1. cbn [reverse_axes l_shape] in F1 |- *. rewrite rev_involutive in F1. exact F1.
    + rewrite <- (rev_involutive ix) at 1. change (addr _ (rev (rev ix))) with (addr (reverse_axes l') (rev (rev ix))). rewrite reverse_addr by (rewrite rev_length; lia).
      rewrite F2. rewrite <- (reverse_addr l). * now rewrite rev_involutive. * rewrite rev_length. destruct Hw as [-> _]. apply valid_length in F1. cbn [reverse_axes l_shape] in F1. rewrite rev_length in F1. auto. Qed.
