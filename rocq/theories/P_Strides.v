(** An order-free characterisation of check_strides, and its closure properties. *)
From Verif Require Import Base Spec P_Index P_List M_Layout P_Layout P_Bounds.
Local Open Scope Z_scope.

Fixpoint pass (p : list (nat * Z)) (c : Z) : Prop :=
  match p with
  | [] => True
  | (d, t) :: r => c < t /\ pass r (c + (Z.of_nat d - 1) * t)
  end.
Definition nzp (p : nat * Z) : bool := (1 <? fst p)%nat && negb (snd p =? 0).
Definition nz (L : list (nat * Z)) : list (nat * Z) := map (fun p => (fst p, Z.abs (snd p))) (filter nzp L).
Definition chk (L : list (nat * Z)) : Prop := exists p, Permutation p (nz L) /\ pass p 0.

Lemma nz_app a b : nz (a ++ b) = nz a ++ nz b.
Proof. unfold nz. now rewrite filter_app, map_app. Qed.
Lemma nz_perm a b : Permutation a b -> Permutation (nz a) (nz b).
Proof. intro H. unfold nz. apply Permutation_map.
  induction H; cbn; auto. - destruct (nzp x); auto. - destruct (nzp x), (nzp y); auto; constructor.
  - etransitivity; eauto. Qed.
Lemma nz_facts L x : In x (nz L) -> (2 <= fst x)%nat /\ 0 < snd x.
Proof. unfold nz. rewrite in_map_iff. intros (y & <- & Hy). apply filter_In in Hy. destruct Hy as [_ Hy]. unfold nzp in Hy. cbn [fst snd]. lia. Qed.

Lemma strides_loop_pass p c : Forall (fun x => 0 <= snd x) p ->
  strides_loop p true c = Ok tt <-> pass (filter (fun x => negb (snd x =? 0)) p) c.
Proof. revert c; induction p as [|[d t] p IH]; intros c Hp; cbn [strides_loop filter snd]; [cbn; split; auto|].
  inversion Hp; subst. rewrite andb_true_r. destruct (Z.eqb_spec t 0); cbn [negb]; [now apply IH|].
  cbn [pass]. destruct (Z.ltb_spec c t); [rewrite IH by auto; tauto|]. split; [discriminate|lia]. Qed.

Definition keylt (a b : nat * Z) : Prop := snd a < snd b.
Definition keyle (a b : nat * Z) : Prop := snd a <= snd b.
Lemma pass_sorted p c : 0 <= c -> Forall (fun x => (2 <= fst x)%nat /\ 0 < snd x) p -> pass p c ->
  StronglySorted keylt p /\ Forall (fun x => c < snd x) p.
Proof. revert c; induction p as [|[d t] p IH]; intros c Hc Hf Hp; [split; constructor|].
  inversion Hf; subst. cbn in *. destruct Hp as [Hp1 Hp2].
  destruct (IH (c + (Z.of_nat d - 1) * t)) as [S F]; auto; [nia|]. split.
  - constructor; auto. eapply Forall_impl; [|exact F]. cbn. intros a Ha. unfold keylt; cbn. nia.
  - constructor; auto. eapply Forall_impl; [|exact F]. cbn. intros a Ha. nia. Qed.
Lemma sorted_unique p q : StronglySorted keylt p -> StronglySorted keyle q -> Permutation p q -> p = q.
Proof. intro Hp. revert q; induction Hp as [|x p Hp IH Hx]; intros q Hq P.
  - apply Permutation_nil in P. congruence.
  - destruct q as [|y q]; [symmetry in P; now apply Permutation_nil in P|].
    inversion Hq; subst. assert (x = y).
    { rewrite Forall_forall in *. assert (I1 : In x (y :: q)) by (eapply Permutation_in; [eauto|now left]).
      assert (I2 : In y (x :: p)) by (eapply Permutation_in; [symmetry; eauto|now left]).
      destruct I1 as [|I1], I2 as [|I2]; auto. specialize (Hx y I2). specialize (H2 x I1). unfold keylt, keyle in *. lia. }
    subst y. f_equal. apply IH; auto. eapply Permutation_cons_inv; eauto. Qed.

Lemma filter_filter {A} (f g : A -> bool) l : filter f (filter g l) = filter (fun x => g x && f x) l.
Proof. induction l; cbn; auto. destruct (g a); cbn; rewrite IHl; auto. Qed.
Lemma SS_map {A B} (f : A -> B) (R : B -> B -> Prop) l : StronglySorted (fun a b => R (f a) (f b)) l -> StronglySorted R (map f l).
Proof. induction 1; cbn; constructor; auto. now apply Forall_map. Qed.
Lemma SS_filter {A} (R : A -> A -> Prop) f l : StronglySorted R l -> StronglySorted R (filter f l).
Proof. induction 1; cbn; [constructor|]. destruct (f a); auto. constructor; auto.
  rewrite Forall_forall in *. intros x Hx. apply filter_In in Hx. apply H0, Hx. Qed.

Lemma check_strides_chk l : length (l_stride l) = length (l_shape l) -> size (l_shape l) <> 0%nat ->
  check_strides l true = Ok tt <-> chk (combine (l_shape l) (l_stride l)).
Proof. intros Hl Hs. unfold check_strides, l_size, ndim. rewrite Hl, Nat.eqb_refl. cbn [negb].
  replace (size (l_shape l) =? 0)%nat with false by lia. cbn [orb].
  destruct (Nat.eqb_spec (length (l_shape l)) 0) as [E|E].
  - destruct (l_shape l); [|discriminate]. split; auto. intros _. exists []. cbn. auto.
  - set (S := sorted_axes l).
    assert (HS : Forall (fun x => 0 <= snd x) S).
    { unfold S, sorted_axes. apply Forall_forall. intros x Hx. apply in_map_iff in Hx. destruct Hx as (y & <- & _). cbn. lia. }
    rewrite strides_loop_pass by auto.
    assert (P : Permutation (filter (fun x => negb (snd x =? 0)) S) (nz (combine (l_shape l) (l_stride l)))).
    { unfold S, sorted_axes, nz. rewrite filter_map_comm. apply Permutation_map. cbn [snd].
      assert (PF : forall (f : nat * Z -> bool) a b, Permutation a b -> Permutation (filter f a) (filter f b)).
      { intros f a b H. induction H; cbn; auto. - destruct (f x); auto. - destruct (f x), (f y); auto; constructor. - etransitivity; eauto. }
      rewrite <- (PF _ _ _ (sort_perm _ _)). rewrite filter_filter. unfold nzp.
      match goal with |- Permutation (filter ?f ?a) (filter ?g ?a) => rewrite (filter_ext f g) end; [apply Permutation_refl|].
      intros [d t]. cbn [fst snd]. lia. }
    assert (SO : StronglySorted keyle (filter (fun x => negb (snd x =? 0)) S)).
    { apply SS_filter. unfold S, sorted_axes. apply SS_map. 
      pose proof (sort_sorted (fun a b : nat * Z => Z.abs (snd a) <=? Z.abs (snd b)) ltac:(intros; lia) ltac:(intros; lia)
        (filter (fun p => (1 <? fst p)%nat) (combine (l_shape l) (l_stride l)))) as H.
      clear - H. induction H; constructor; auto. eapply Forall_impl; [|eauto]. unfold keyle; cbn. intros; lia. }
    split.
    + intro Hp. eexists; split; eauto.
    + intros (p & Hp & Hpass). replace (filter _ S) with p; auto. apply sorted_unique; auto.
      * eapply pass_sorted with (c := 0); eauto; [lia|]. apply Forall_forall. intros x Hx.
        apply (Permutation_in x Hp) in Hx. eapply nz_facts; eauto.
      * rewrite Hp. symmetry. exact P. Qed.

Lemma pass_mono p c c' : c' <= c -> pass p c -> pass p c'.
Proof. revert c c'; induction p as [|[d t] p IH]; intros c c' Hc H; cbn in *; auto. split; [lia|].
  eapply IH; [|apply H]. lia. Qed.
Lemma pass_remove p1 d t p2 c : (1 <= d)%nat -> 0 <= t -> pass (p1 ++ (d, t) :: p2) c -> pass (p1 ++ p2) c.
Proof. intros Hd Ht. revert c; induction p1 as [|[d1 t1] p1 IH]; intros c H; cbn in *.
  - eapply pass_mono; [|apply H]. nia. - split; [apply H|]. apply IH, H. Qed.
Lemma pass_replace p1 d t d' t' p2 c : t <= t' -> (Z.of_nat d' - 1) * t' <= (Z.of_nat d - 1) * t ->
  pass (p1 ++ (d, t) :: p2) c -> pass (p1 ++ (d', t') :: p2) c.
Proof. intros Hd Ht. revert c; induction p1 as [|[d1 t1] p1 IH]; intros c H; cbn in *.
  - split; [lia|]. eapply pass_mono; [|apply H]. lia. - split; [apply H|]. apply IH, H. Qed.

Lemma chk_perm a b : Permutation a b -> chk a -> chk b.
Proof. intros P (p & Hp & H). exists p. split; auto. rewrite Hp. now apply nz_perm. Qed.
Lemma pass_drop_l A B p : Permutation p (A ++ B) -> (forall x, In x (A ++ B) -> (2 <= fst x)%nat /\ 0 < snd x) -> pass p 0 -> exists q, Permutation q B /\ pass q 0.
Proof. revert p; induction A as [|[d t] A IH]; intros p Hp Hf H; [exists p; auto|].
  assert (I : In (d, t) p) by (eapply Permutation_in; [symmetry; exact Hp|now left]).
  apply in_split in I. destruct I as (p1 & p2 & ->).
  apply (IH (p1 ++ p2)).
  - apply Permutation_sym. cbn in Hp. symmetry in Hp. now apply Permutation_cons_app_inv in Hp.
  - intros x Hx. apply Hf. now right.
  - destruct (Hf (d, t)) as [Hd Ht]; [now left|]. cbn [fst snd] in *. apply (pass_remove p1 d t p2 0); auto; lia. Qed.
Lemma chk_app_r a b : chk (a ++ b) -> chk b.
Proof. intros (p & Hp & H). rewrite nz_app in Hp. destruct (pass_drop_l _ _ _ Hp) with (2 := H) as (q & Hq & Hpass).
  - intros x Hx. rewrite <- nz_app in Hx. eapply nz_facts; eauto.
  - exists q; auto. Qed.
Lemma chk_app_l a b : chk (a ++ b) -> chk a.
Proof. intro H. apply (chk_app_r b). eapply chk_perm; [apply Permutation_app_comm|auto]. Qed.
Lemma chk_remove a x b : chk (a ++ x :: b) -> chk (a ++ b).
Proof. intro H. apply (chk_app_r [x]). eapply chk_perm; [|exact H]. cbn. symmetry. apply Permutation_middle. Qed.
(** an axis may be replaced by a coarser one covering no more than before, or become trivial *)
Lemma chk_shrink a d t d' t' b :
  (d' <= 1)%nat \/ t' = 0 \/ ((2 <= d)%nat /\ Z.abs t <= Z.abs t' /\ (Z.of_nat d' - 1) * Z.abs t' <= (Z.of_nat d - 1) * Z.abs t /\ t <> 0) ->
  chk (a ++ (d, t) :: b) -> chk (a ++ (d', t') :: b).
Proof. intros Hc H. destruct (nzp (d', t')) eqn:N.
  - assert (NN : forall (d : nat) t, nzp (d, t) = true <-> (1 < d)%nat /\ t <> 0).
    { clear. intros d t. unfold nzp. cbn [fst snd]. rewrite andb_true_iff, negb_true_iff, Z.eqb_neq, Nat.ltb_lt. tauto. }
    apply NN in N as N'. destruct N' as [N1 N2].
    destruct Hc as [Hc|[Hc|(C1 & C2 & C3 & C4)]]; [lia|congruence|].
    assert (N0 : nzp (d, t) = true) by (apply NN; lia).
    assert (Hc' : Z.abs t <= Z.abs t' /\ (Z.of_nat d' - 1) * Z.abs t' <= (Z.of_nat d - 1) * Z.abs t) by auto.
    destruct H as (p & Hp & H). rewrite nz_app in Hp. unfold nz in Hp at 2. cbn [filter] in Hp. rewrite N0 in Hp. cbn [map fst snd] in Hp.
    fold (nz b) in Hp.
    assert (I : In (d, Z.abs t) p) by (eapply Permutation_in; [symmetry; exact Hp|apply in_app_iff; right; now left]).
    apply in_split in I. destruct I as (p1 & p2 & ->).
    exists (p1 ++ (d', Z.abs t') :: p2). split.
    + rewrite nz_app. unfold nz at 2. cbn [filter]. rewrite N. cbn [map fst snd]. fold (nz b).
      apply Permutation_app_inv in Hp. now apply Permutation_elt.
    + eapply pass_replace; [apply Hc'|apply Hc'|exact H].
  - apply chk_remove in H. destruct H as (p & Hp & H). exists p. split; auto. rewrite Hp, !nz_app.
    unfold nz at 4. cbn [filter]. rewrite N. reflexivity. Qed.
Lemma chk_insert a d t b : (d <= 1)%nat -> chk (a ++ b) -> chk (a ++ (d, t) :: b).
Proof. intros Hd (p & Hp & H). exists p. split; auto. rewrite Hp, !nz_app. unfold nz at 4. cbn [filter].
  replace (nzp (d, t)) with false by (unfold nzp; cbn [fst snd]; lia). reflexivity. Qed.

(** ** good layouts: what Layout::new accepts *)
Definition good (l : layout) : Prop := wf l /\ nonneg l /\ check_strides l true = Ok tt.
Lemma layout_new_good sh st off : good (mkLayout sh st off) -> layout_new sh st off = Ok (mkLayout sh st off).
Proof. intros (Hw & Hn & Hc). unfold layout_new. apply bounds_index_ok_iff in Hn; auto. destruct Hn as (b & ->). cbn [bind].
  rewrite Hc. reflexivity. Qed.
Lemma good_new sh st off l : (size sh <> 0%nat -> 0 <= off) -> layout_new sh st off = Ok l -> good l /\ l = mkLayout sh st off.
Proof. intros Ho H. apply layout_new_ok in H; auto. destruct H as (E & Hw & Hn & Hc). split; auto. split; auto. Qed.
Lemma layout_new_eq sh st off l : layout_new sh st off = Ok l -> l = mkLayout sh st off.
Proof. unfold layout_new. intro H. apply bind_ok in H. destruct H as (? & _ & H). apply bind_ok in H. destruct H as (? & _ & H). congruence. Qed.
Lemma check_strides_zero l : length (l_stride l) = length (l_shape l) -> size (l_shape l) = 0%nat -> check_strides l true = Ok tt.
Proof. intros Hl Hs. unfold check_strides, l_size. rewrite Hl, Nat.eqb_refl, Hs. reflexivity. Qed.
Lemma good_intro l : length (l_stride l) = length (l_shape l) ->
  (size (l_shape l) <> 0%nat -> nonneg l /\ chk (combine (l_shape l) (l_stride l))) -> good l.
Proof. intros Hl H. destruct (Nat.eq_dec (size (l_shape l)) 0) as [E|E].
  - split; [|split]. + split; auto. congruence.
    + intros ix Hv. exfalso. now apply valid_size_pos in Hv.
    + now apply check_strides_zero.
  - destruct (H E) as [Hn Hc]. split; [|split]; auto.
    + split; auto. intros _. specialize (Hn _ (valid_zeros _ E)). unfold addr in Hn. rewrite dot_zeros in Hn. lia.
    + now apply check_strides_chk. Qed.
Lemma good_elim l : good l -> size (l_shape l) <> 0%nat ->
  length (l_stride l) = length (l_shape l) /\ 0 <= l_offset l /\ nonneg l /\ chk (combine (l_shape l) (l_stride l)).
Proof. intros ([Hl Ho] & Hn & Hc) Hs. repeat split; auto. now apply check_strides_chk. Qed.
Lemma good_accepted l : good l <-> accepted l.
Proof. split.
  - intro H. split; [apply H|]. destruct l; now apply layout_new_good.
  - intros [Hw H]. apply good_new in H; [tauto|]. apply Hw. Qed.
