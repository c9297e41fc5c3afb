(** Reshaping without copying keeps a layout acceptable: the check of Layout::new sees a group of combinable axes as one axis. *)
From Verif Require Import Base Spec P_Index P_List M_Layout P_Layout P_Bounds P_Contig P_Strides M_Reshape P_Reshape P_Tensor.
Local Open Scope Z_scope.

Lemma nz_cons d t b : nz ((d, t) :: b) = (if nzp (d, t) then [(d, Z.abs t)] else []) ++ nz b.
Proof. unfold nz. cbn [filter]. now destruct (nzp (d, t)). Qed.
Lemma nzp_iff d t : nzp (d, t) = true <-> (1 < d)%nat /\ t <> 0.
Proof. unfold nzp. cbn [fst snd]. rewrite andb_true_iff, negb_true_iff, Z.eqb_neq, Nat.ltb_lt. tauto. Qed.
Lemma chk_nz a b : Permutation (nz a) (nz b) -> chk a -> chk b.
Proof. intros P (p & Hp & H). exists p. split; auto. now rewrite Hp. Qed.

Lemma pass_split p1 d1 d2 t p2 c : pass (p1 ++ ((d1 * d2)%nat, t) :: p2) c -> pass (p1 ++ (d2, t) :: (d1, Z.of_nat d2 * t) :: p2) c.
Proof. revert c; induction p1 as [|[d s] p1 IH]; intros c H; cbn [app pass] in *; [|split; [apply H|apply IH, H]].
  destruct H as [H1 H2]. split; auto. split; [lia|]. eapply pass_mono; [|exact H2]. lia. Qed.
Lemma pass_merge_adj p1 d1 d2 t p2 c : pass (p1 ++ (d2, t) :: (d1, Z.of_nat d2 * t) :: p2) c -> pass (p1 ++ ((d1 * d2)%nat, t) :: p2) c.
Proof. revert c; induction p1 as [|[d s] p1 IH]; intros c H; cbn [app pass] in *; [|split; [apply H|apply IH, H]].
  destruct H as (H1 & H2 & H3). split; auto. eapply pass_mono; [|exact H3]. lia. Qed.
(** in a list that passes, the axis (d1, d2 * t) follows (d2, t) at once *)
Lemma pass_next p c d1 d2 t : 0 <= c -> (2 <= d2)%nat -> 0 < t -> Forall (fun x => (2 <= fst x)%nat /\ 0 < snd x) p -> pass p (c + (Z.of_nat d2 - 1) * t) ->
  In (d1, Z.of_nat d2 * t) p -> exists q, p = (d1, Z.of_nat d2 * t) :: q.
Proof. intros Hc Hd Ht Hf Hp Hi. destruct p as [|[e s] q]; [easy|]. destruct Hi as [E|Hi]; [exists q; congruence|]. exfalso.
  inversion Hf as [|x y [He Hs] Hq]; subst. cbn [fst snd] in He, Hs. cbn [pass] in Hp. destruct Hp as [H1 H2].
  assert (P0 : 0 <= (Z.of_nat d2 - 1) * t) by nia. assert (P1 : s <= (Z.of_nat e - 1) * s) by nia.
  apply pass_sorted in H2; auto; [|lia]. destruct H2 as [_ F]. rewrite Forall_forall in F. specialize (F _ Hi). cbn [snd] in F. nia. Qed.
Lemma pass_merge p d1 d2 t c : 0 <= c -> (2 <= d2)%nat -> (2 <= d1)%nat -> 0 < t -> Forall (fun x => (2 <= fst x)%nat /\ 0 < snd x) p -> pass p c ->
  forall r, Permutation p ((d2, t) :: (d1, Z.of_nat d2 * t) :: r) -> exists q, Permutation q (((d1 * d2)%nat, t) :: r) /\ pass q c.
Proof. intros Hc H2 H1 Ht Hf Hp r P.
  assert (I : In (d2, t) p) by (eapply Permutation_in; [symmetry; exact P|now left]). apply in_split in I as (p1 & p2 & ->).
  assert (P' : Permutation (p1 ++ p2) ((d1, Z.of_nat d2 * t) :: r)) by (symmetry; symmetry in P; now apply Permutation_cons_app_inv in P).
  destruct (pass_sorted _ _ Hc Hf Hp) as [SS _].
  assert (I : In (d1, Z.of_nat d2 * t) (p1 ++ p2)) by (eapply Permutation_in; [symmetry; exact P'|now left]). apply in_app_or in I.
  assert (N : ~ In (d1, Z.of_nat d2 * t) p1).
  { intro I1. clear - SS I1 H2 Ht. induction p1 as [|x p1 IH]; [easy|]. cbn [app] in SS. inversion SS as [|y z S1 F]; subst. destruct I1 as [->|I1]; [|now apply IH].
    rewrite Forall_forall in F. specialize (F (d2, t) ltac:(apply in_or_app; right; now left)). unfold keylt in F. cbn [snd] in F. nia. }
  destruct I as [I|I]; [easy|].
  assert (X : exists c', 0 <= c' /\ pass p2 (c' + (Z.of_nat d2 - 1) * t)).
  { clear - Hc Hf Hp. revert c Hc Hp. induction p1 as [|[d s] p1 IH]; intros c Hc Hp; cbn [app pass] in *; [exists c; tauto|].
    inversion Hf as [|x y [A B] F]; subst. cbn [fst snd] in A, B. destruct Hp as [_ Hp]. apply (IH F) in Hp; auto. nia. }
  destruct X as (c' & C0 & C1). apply Forall_app in Hf as [_ Hf]. inversion Hf as [|x y _ Hf2]; subst.
  destruct (pass_next p2 c' d1 d2 t C0 H2 Ht Hf2 C1 I) as (q & ->). exists (p1 ++ ((d1 * d2)%nat, t) :: q). split; [|now apply pass_merge_adj].
  symmetry in P'. apply Permutation_cons_app_inv in P'. rewrite <- Permutation_middle. constructor. now symmetry. Qed.

Lemma chk_split a d1 d2 t b : (1 <= d1)%nat -> (1 <= d2)%nat -> chk (a ++ ((d1 * d2)%nat, t) :: b) -> chk (a ++ (d1, Z.of_nat d2 * t) :: (d2, t) :: b).
Proof. intros H1 H2 H. destruct (Z.eq_dec t 0) as [->|T].
  { rewrite Z.mul_0_r. revert H. apply chk_nz. rewrite !nz_app, !nz_cons. unfold nzp. cbn [fst snd negb Z.eqb]. rewrite !andb_false_r. reflexivity. }
  destruct (Nat.eq_dec d1 1) as [->|D1].
  { apply chk_insert; auto. now rewrite Nat.mul_1_l in H. }
  destruct (Nat.eq_dec d2 1) as [->|D2].
  { rewrite Nat.mul_1_r in H. change (Z.of_nat 1) with 1. rewrite Z.mul_1_l. revert H. apply chk_nz. rewrite !nz_app, !nz_cons. replace (nzp (1%nat, t)) with false by reflexivity. reflexivity. }
  destruct H as (p & Hp & H). rewrite nz_app, nz_cons in Hp. rewrite (proj2 (nzp_iff _ _)) in Hp by nia. cbn [app] in Hp.
  assert (I : In ((d1 * d2)%nat, Z.abs t) p) by (eapply Permutation_in; [symmetry; exact Hp|apply in_or_app; right; now left]). apply in_split in I as (p1 & p2 & ->).
  apply Permutation_app_inv in Hp. exists (p1 ++ (d2, Z.abs t) :: (d1, Z.of_nat d2 * Z.abs t) :: p2). split; [|now apply pass_split].
  rewrite nz_app, !nz_cons, !(proj2 (nzp_iff _ _)) by nia. cbn [app]. rewrite Z.abs_mul. replace (Z.abs (Z.of_nat d2)) with (Z.of_nat d2) by lia.
  rewrite <- !Permutation_middle, Hp. apply perm_swap. Qed.
Lemma chk_merge a d1 d2 t b : (1 <= d1)%nat -> (1 <= d2)%nat -> chk (a ++ (d1, Z.of_nat d2 * t) :: (d2, t) :: b) -> chk (a ++ ((d1 * d2)%nat, t) :: b).
Proof. intros H1 H2 H. destruct (Z.eq_dec t 0) as [->|T].
  { rewrite Z.mul_0_r in H. revert H. apply chk_nz. rewrite !nz_app, !nz_cons. unfold nzp. cbn [fst snd negb Z.eqb]. rewrite !andb_false_r. reflexivity. }
  destruct (Nat.eq_dec d1 1) as [->|D1].
  { rewrite Nat.mul_1_l. revert H. apply chk_remove. }
  destruct (Nat.eq_dec d2 1) as [->|D2].
  { rewrite Nat.mul_1_r. change (Z.of_nat 1) with 1 in H. rewrite Z.mul_1_l in H. revert H. apply chk_nz. rewrite !nz_app, !nz_cons. replace (nzp (1%nat, t)) with false by reflexivity. reflexivity. }
  destruct H as (p & Hp & H). pose proof (nz_facts (a ++ (d1, Z.of_nat d2 * t) :: (d2, t) :: b)) as F. rewrite nz_app, !nz_cons, !(proj2 (nzp_iff _ _)) in Hp, F by nia. cbn [app] in Hp, F.
  rewrite Z.abs_mul in Hp, F. replace (Z.abs (Z.of_nat d2)) with (Z.of_nat d2) in Hp, F by lia.
  assert (Fp : Forall (fun x => (2 <= fst x)%nat /\ 0 < snd x) p) by (apply Forall_forall; intros x Hx; apply F; eapply Permutation_in; eauto).
  destruct (pass_merge p d1 d2 (Z.abs t) 0 ltac:(lia) ltac:(lia) ltac:(lia) ltac:(lia) Fp H (nz a ++ nz b)) as (q & Q1 & Q2).
  { rewrite Hp, <- !Permutation_middle. apply perm_swap. }
  exists q. split; auto. rewrite nz_app, nz_cons, (proj2 (nzp_iff _ _)) by nia. cbn [app]. now rewrite Q1, <- Permutation_middle. Qed.
Lemma chk_swap a x y b : chk (a ++ x :: y :: b) -> chk (a ++ y :: x :: b).
Proof. apply chk_perm. apply Permutation_app_head, perm_swap. Qed.

(** a group of combinable axes counts as one axis *)
Lemma size_pos_in s d : size s <> 0%nat -> In d s -> (1 <= d)%nat.
Proof. intros N I. destruct d; [|lia]. exfalso. apply N. clear N. induction s as [|x s IH]; [easy|]. rewrite size_cons. destruct I as [->|I]; [lia|rewrite IH; auto; lia]. Qed.
Lemma group_merge f og : og <> [] -> combinable f og = true -> size (dims og) <> 0%nat -> forall a b, chk (a ++ og ++ b) ->
  chk (a ++ (size (dims og), if f then snd (hd (0%nat, 0) og) else snd (last og (0%nat, 0))) :: b).
Proof. induction og as [|[d t] og IH]; intros N C Z a b H; [easy|]. destruct og as [|[d' t'] og].
  { cbn [map fst hd last snd]. rewrite size_cons. change (size []) with 1%nat. rewrite Nat.mul_1_r. destruct f; exact H. }
  pose proof C as C0. cbn [combinable] in C. apply andb_true_iff in C as [C1 C2]. assert (Z' : size (dims ((d', t') :: og)) <> 0%nat) by (cbn [map fst] in Z |- *; rewrite size_cons in Z; intro X; rewrite X in Z; lia).
  assert (D : (1 <= d)%nat) by (apply (size_pos_in _ d Z); now left).
  assert (H' : chk ((a ++ [(d, t)]) ++ ((d', t') :: og) ++ b)) by (rewrite <- app_assoc; exact H).
  apply IH in H'; auto; [|discriminate]. rewrite <- app_assoc in H'. cbn [app] in H'.
  change (dims ((d, t) :: (d', t') :: og)) with (d :: dims ((d', t') :: og)). rewrite size_cons. remember (size (dims ((d', t') :: og))) as n. destruct f; cbn [hd snd] in *.
  - apply Z.eqb_eq in C1. subst t'. rewrite Nat.mul_comm. apply chk_merge; auto; [lia|]. now apply chk_swap.
  - change (last ((d, t) :: (d', t') :: og) (0%nat, 0)) with (last ((d', t') :: og) (0%nat, 0)).
    destruct (combinable_c d t ((d', t') :: og) C0) as [E _]. rewrite <- Heqn in E. change (last ((d, t) :: (d', t') :: og) (0%nat, 0)) with (last ((d', t') :: og) (0%nat, 0)) in E.
    rewrite E in H'. apply chk_merge; auto. lia. Qed.
Lemma strides_up_chk dl : size dl <> 0%nat -> forall t a b, chk (a ++ (size dl, t) :: b) -> chk (a ++ combine dl (strides_up dl t) ++ b).
Proof. induction dl as [|d dl IH]; intros N t a b H; [now apply chk_remove in H|]. cbn [strides_up combine app].
  assert (D : (1 <= d)%nat) by (apply (size_pos_in _ d N); now left). rewrite size_cons in N, H. assert (N' : size dl <> 0%nat) by (intro X; rewrite X in N; lia).
  rewrite Nat.mul_comm in H. apply chk_split in H; auto; [|lia]. apply chk_swap in H. change (a ++ (d, t) :: (size dl, Z.of_nat d * t) :: b) with (a ++ [(d, t)] ++ (size dl, Z.of_nat d * t) :: b) in H.
  rewrite app_assoc in H. apply IH in H; auto. rewrite <- app_assoc in H. now rewrite Z.mul_comm. Qed.
Lemma strides_down_chk dl : size dl <> 0%nat -> forall t a b, chk (a ++ (size dl, t) :: b) -> chk (a ++ combine dl (rev (strides_up (rev dl) t)) ++ b).
Proof. induction dl as [|d dl IH]; intros N t a b H; [now apply chk_remove in H|]. cbn [rev]. rewrite strides_up_snoc, rev_app_distr, size_rev. cbn [rev app combine].
  assert (D : (1 <= d)%nat) by (apply (size_pos_in _ d N); now left). rewrite size_cons in N, H. assert (N' : size dl <> 0%nat) by (intro X; rewrite X in N; lia).
  apply chk_split in H; auto; [|lia]. change (a ++ (d, Z.of_nat (size dl) * t) :: (size dl, t) :: b) with (a ++ [(d, Z.of_nat (size dl) * t)] ++ (size dl, t) :: b) in H.
  rewrite app_assoc in H. apply IH in H; auto. rewrite <- app_assoc in H. now rewrite Z.mul_comm. Qed.
Lemma group_chk f ng og a b : og <> [] -> combinable f og = true -> size ng = size (dims og) -> size ng <> 0%nat -> chk (a ++ og ++ b) -> chk (a ++ combine ng (group_strides f ng og) ++ b).
Proof. intros N C E Z H. apply (group_merge f og N C ltac:(congruence)) in H. rewrite <- E in H. unfold group_strides. destruct f; [now apply strides_up_chk|now apply strides_down_chk]. Qed.

Lemma groups_chk fuel f new old acc acc' rest : (length new <= fuel)%nat -> size new <> 0%nat -> reshape_groups fuel f new old acc = Some (acc', rest) ->
  exists newc st oldr, acc' = acc ++ st /\ new = newc ++ rest /\ length st = length newc /\ forall a, chk (a ++ old) -> chk (a ++ combine newc st ++ oldr).
Proof. revert new old acc; induction fuel as [|fuel IH]; intros new old acc Hf Z H; cbn [reshape_groups] in H.
  - destruct new; [|cbn in Hf; lia]. injection H as <- <-. exists [], [], old. rewrite app_nil_r. auto.
  - destruct new as [|d nr].
    { injection H as <- <-. exists [], [], old. rewrite app_nil_r. auto. }
    destruct old as [|[od ot] orr].
    { injection H as <- <-. exists [], [], []. rewrite app_nil_r. auto. }
    destruct (match_group _ _ _ _ _ _ _) as [[[[ng nr'] og] orr']|] eqn:M; [|discriminate].
    apply match_group_ok in M. 2:{ rewrite size_cons. change (size []) with 1%nat. lia. } 2:{ cbn [map fst]. rewrite size_cons. change (size []) with 1%nat. lia. }
    destruct M as (x & y & -> & -> & -> & -> & E). destruct (combinable f _) eqn:C; [|discriminate].
    assert (N : [(od, ot)] ++ y <> []) by discriminate.
    change (d :: x ++ nr') with ((d :: x) ++ nr') in Z. rewrite size_app in Z.
    destruct (group_ok f _ _ N C E) as [_ G2]. apply IH in H. 2:{ cbn in Hf. rewrite app_length in Hf. lia. } 2:{ intro X. rewrite X in Z. lia. }
    destruct H as (newc & st & oldr & -> & -> & L & K).
    exists (([d] ++ x) ++ newc), (group_strides f ([d] ++ x) ([(od, ot)] ++ y) ++ st), oldr.
    split; [now rewrite app_assoc|]. split; [cbn; now rewrite app_assoc|]. split; [rewrite !app_length, L, G2, app_length; auto|].
    intros a H. rewrite combine_app by auto. change (a ++ (od, ot) :: y ++ orr') with (a ++ ([(od, ot)] ++ y) ++ orr') in H.
    apply (group_chk f ([d] ++ x) _ a orr' N C E) in H; [|cbn [app]; intro X; rewrite X in Z; lia].
    rewrite app_assoc in H. apply K in H. rewrite <- !app_assoc in H. now rewrite <- !app_assoc. Qed.

Lemma nz_filter1 L : nz (filter (fun p => negb (fst p =? 1)%nat) L) = nz L.
Proof. unfold nz. rewrite filter_filter. f_equal. apply filter_ext. intros [d t]. unfold nzp. cbn [fst snd]. destruct (Nat.eqb_spec d 1) as [->|]; auto. Qed.
Lemma attempt_chk f sh st new st' : length st = length sh -> size sh <> 0%nat -> size sh = size new -> attempt_nocopy_reshape sh st new f = Some st' ->
  chk (combine sh st) -> chk (combine new st').
Proof. intros L N E H K. unfold attempt_nocopy_reshape in H. set (old := filter _ _) in H.
  assert (Ko : chk old) by (revert K; apply chk_nz; unfold old; now rewrite nz_filter1).
  destruct (reshape_groups _ _ _ _ _) as [[acc rest]|] eqn:G; [|discriminate].
  destruct (reshape_groups_ok _ _ _ _ _ _ _ (le_n _) G) as (newc0 & stc0 & oldc & oldr0 & Ea0 & En0 & Eo & Ls0 & Sz & _ & R).
  apply groups_chk in G; auto; [|congruence]. destruct G as (newc & stc & oldr & Ea & En & Ls & Q). cbn [app] in Ea, Ea0. subst acc.
  set (ls := if (1 <=? length stc)%nat then _ else _) in H. clearbody ls. injection H as <-.
  assert (newc0 = newc) as -> by (apply (app_inv_tail rest); congruence). subst new.
  rewrite combine_app by auto. specialize (Q [] Ko). cbn [app] in Q. apply chk_app_l in Q.
  assert (So : size (dims old) = size sh). { unfold old. rewrite size_filter. rewrite combine_split_r; auto. }
  rewrite Eo, map_app, size_app in So. rewrite size_app, Sz in E.
  assert (Ez : size rest = size (dims oldr0)) by nia.
  assert (O1 : size rest = 1%nat).
  { destruct R as [->|X]; [reflexivity|]. now rewrite X in Ez. }
  revert Q. apply chk_nz. rewrite nz_app. replace (nz (combine rest (repeat ls (length rest)))) with (@nil (nat * Z)); [now rewrite app_nil_r|].
  symmetry. unfold nz. apply map_eq_nil with (f := fun x => x). rewrite map_id. assert (X : filter nzp (combine rest (repeat ls (length rest))) = []); [|now rewrite X].
  assert (All : forall p, In p (combine rest (repeat ls (length rest))) -> fst p = 1%nat).
  { intros [d t] Hp. apply in_combine_l in Hp. cbn [fst]. now apply (size_one rest). }
  clear - All. induction (combine rest (repeat ls (length rest))) as [|[d t] r IH]; auto. cbn [filter]. pose proof (All _ (or_introl eq_refl)) as D. cbn [fst] in D. subst d.
  replace (nzp (1%nat, t)) with false by reflexivity. apply IH. intros p Hp. apply All. now right. Qed.

Lemma addrs_eq_nonneg o l l' : nonneg l -> addrs o l' = addrs o l -> nonneg l'.
Proof. intros H E ix Hv. assert (I : In (addr l' ix) (addrs o l')) by (unfold addrs; apply in_map; destruct o; cbn [enum]; [now apply in_row_major|now apply in_col_major]).
  rewrite E in I. unfold addrs in I. apply in_map_iff in I as (jx & <- & Hj). apply H. destruct o; cbn [enum] in Hj; [now apply in_row_major in Hj|now apply in_col_major in Hj]. Qed.
Lemma reshape_good o l shape l' : good l -> layout_reshapeable l shape o = Ok (Some l') -> good l'.
Proof. intros G H. pose proof (reshapeable_ok l shape o (proj1 G)) as R. rewrite H in R. destruct R as (E & S & W & Aeq).
  apply good_intro; [apply W|]. intro N. split; [apply (addrs_eq_nonneg o l); auto; apply G|].
  unfold layout_reshapeable in H. apply bind_ok in H as (q & Q & H). unfold quick_check in Q. apply bind_ok in Q as ([] & _ & Q).
  assert (N' : size (l_shape l) <> 0%nat) by congruence. destruct (good_elim l G N') as (Hl & Ho & _ & K).
  destruct ((size (l_shape l) =? 0) || (size (l_shape l) =? 1))%nat eqn:E01.
  { apply bind_ok in Q as (r & Q & X). injection X as <-. injection H as ->. apply layout_new_eq in Q. subst l'. apply chk_ones. intros [d t] Hp. apply in_combine_l in Hp. cbn [fst l_shape] in *. apply (size_one shape); auto. lia. }
  destruct (list_eq_dec Nat.eq_dec shape (l_shape l)) as [Es|_].
  { injection Q as <-. injection H as <-. exact K. }
  assert (X : forall st, attempt_nocopy_reshape (l_shape l) (l_stride l) shape (order_eqb o ColMajor) = Some st -> chk (combine shape st)).
  { intros st T. apply (attempt_chk _ _ _ _ _ Hl N' (eq_sym E) T K). }
  destruct o.
  - destruct (c_contig l); injection Q as <-; [injection H as <-; apply (good_elim (new_c_contig Dyn shape (l_offset l))); auto; apply (contig_good Dyn shape (l_offset l) RowMajor Ho)|].
    destruct (attempt_nocopy_reshape _ _ _ _) as [st|]; [|discriminate]. injection H as <-. now apply X.
  - destruct (f_contig l); injection Q as <-; [injection H as <-; apply (good_elim (new_f_contig Dyn shape (l_offset l))); auto; apply (contig_good Dyn shape (l_offset l) ColMajor Ho)|].
    destruct (attempt_nocopy_reshape _ _ _ _) as [st|]; [|discriminate]. injection H as <-. now apply X. Qed.
