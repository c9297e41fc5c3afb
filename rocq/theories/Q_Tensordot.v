(** Statements about the subscripts of tensordot (C43). *)
From Coq Require Import Ascii.
From Verif Require Import Base Spec P_Index P_List M_Layout P_Layout P_Indexer P_Manip Spec_Views Spec_Tensordot M_Tensordot P_Tensordot.
Local Open Scope nat_scope.

Lemma denotes_bound nd v p : Forall2 (axis_denotes nd) v p -> forall a, In a p -> a < nd.
Proof. induction 1 as [|x y v p [H _] F IH]; intros a []; subst; auto. Qed.
Lemma summed_ok da db axes pa pb : contracts da db axes pa pb -> summed_axes da db axes = Ok (pa, pb) /\ NoDup pa /\ NoDup pb /\ (forall a, In a pa -> a < da) /\ (forall a, In a pb -> a < db).
Proof. intros [H1 H2|n H1 H2|a b va vb pa' pb' La Lb Fa Fb Na Nb].
  - unfold summed_axes. change (0 <=? 2)%Z with true. change (Z.to_nat 2) with 2. cbn [check bind]. replace ((2 <=? da) && (2 <=? db)) with true by lia. cbn [check bind seq]. replace (S (da - 2)) with (da - 1) by lia. split; auto. split. { repeat constructor; cbn; lia. } split. { repeat constructor; cbn; lia. } split; intros a X; cbn in X; lia.
  - unfold summed_axes. replace (0 <=? Z.of_nat n)%Z with true by lia. cbn [check bind]. rewrite Nat2Z.id. replace ((n <=? da) && (n <=? db)) with true by lia. cbn [check bind]. split; auto. split; [apply seq_NoDup|]. split; [apply seq_NoDup|]. split; intros a X; apply in_seq in X; lia.
  - unfold summed_axes. rewrite (normalize_ok a va da false false pa' La Fa Na). cbn [bind]. rewrite (normalize_ok b vb db false false pb' Lb Fb Nb). cbn [bind]. split; auto. split; auto. split; auto. split; eapply denotes_bound; eauto. Qed.
Lemma summed_err da db axes : (~ exists pa pb, contracts da db axes pa pb) -> exists e, summed_axes da db axes = Err e.
Proof. intro H. destruct axes as [|n|a b].
  - unfold summed_axes. change (0 <=? 2)%Z with true. change (Z.to_nat 2) with 2. cbn [check bind]. destruct ((2 <=? da) && (2 <=? db)) eqn:E; [|eexists; reflexivity]. exfalso. apply H. do 2 eexists. constructor; lia.
  - unfold summed_axes. destruct (Z.leb_spec 0 n) as [Hn|Hn]; cbn [check bind]; [|eauto]. destruct ((Z.to_nat n <=? da) && (Z.to_nat n <=? db)) eqn:E; cbn [check bind]; [|eauto]. exfalso. apply H. rewrite <- (Z2Nat.id n) by auto. do 2 eexists. constructor; lia.
  - unfold summed_axes. destruct (normalize_axes_index a da false false) as [pa|e|] eqn:Ea; cbn [bind]; [|eauto|now apply normalize_nopanic in Ea]. destruct (normalize_axes_index b db false false) as [pb|e|] eqn:Eb; cbn [bind]; [|eauto|now apply normalize_nopanic in Eb]. exfalso. apply H.
    assert (X : forall x d p, normalize_axes_index x d false false = Ok p -> exists v, lists_axes x v /\ Forall2 (axis_denotes d) v p /\ NoDup p). { intros x d p E. assert (exists v, lists_axes x v) as (v & Lv) by (destruct x; [discriminate|eexists; constructor|eexists; constructor]). exists v. split; auto. rewrite (normalize_list _ _ _ _ _ Lv) in E. apply normalize_spec in E as (p0 & D & [Y|Y] & ->); [discriminate|]. auto. }
    destruct (X _ _ _ Ea) as (va & ? & ? & ?). destruct (X _ _ _ Eb) as (vb & ? & ? & ?). exists pa, pb. econstructor; eauto. Qed.

Lemma l_tensordot : forall da db axes,
  (forall pa pb, contracts da db axes pa pb -> length pa = length pb ->
     (da + db - length pa <= 52 -> exists la lb lo, tensordot_to_einsum_str da db axes = Ok (subscripts la lb lo) /\ labelled da db pa pb la lb lo /\ Forall is_letter (la ++ lb ++ lo)) /\
     (52 < da + db - length pa -> tensordot_to_einsum_str da db axes = Err InvalidValue)) /\
  ((~ exists pa pb, contracts da db axes pa pb) -> exists e, tensordot_to_einsum_str da db axes = Err e).
Proof. intros da db axes. unfold tensordot_to_einsum_str. split.
  - intros pa pb C L. destruct (summed_ok _ _ _ _ _ C) as (E & Na & Nb & Ha & Hb). destruct (labels_ok _ _ _ _ _ E Na Nb Ha Hb) as [A B]. rewrite L, Nat.min_id in *. split.
    + intro H. destruct (A H) as (la & lb & lo & -> & R). cbn [bind]. eauto.
    + intro H. rewrite B by auto. reflexivity.
  - intro H. destruct (summed_err _ _ _ H) as (e & E). unfold tensordot_labels. rewrite E. cbn. eauto. Qed.

(** lists of different lengths are accepted *)
Lemma in_pick_except {A} n p (d : A) l x : length l = n -> In x (pick (axes_except n p) d l) -> exists i, nth_error l i = Some x /\ ~ In i p.
Proof. intros Ln H. apply in_map_iff in H as (i & <- & H). apply filter_In in H as [H1 H2]. apply in_seq in H1. exists i. split; [apply nth_error_nth'; lia|]. intro X. assert (existsb (Nat.eqb i) p = true) by (apply existsb_exists; exists i; split; auto; apply Nat.eqb_refl). rewrite H in H2. discriminate. Qed.
Lemma l_unequal_refuted : forall da db axes pa pb, contracts da db axes pa pb -> length pb < length pa -> da + db - length pb <= 52 ->
  exists la lb lo, tensordot_to_einsum_str da db axes = Ok (subscripts la lb lo) /\ exists i x, In i pa /\ nth_error la i = Some x /\ ~ In x lb /\ ~ In x lo.
Proof. intros da db axes pa pb C L H. destruct (summed_ok _ _ _ _ _ C) as (E & Na & Nb & Ha & Hb). destruct (labels_ok _ _ _ _ _ E Na Nb Ha Hb) as [A _]. rewrite Nat.min_r in A by lia. destruct (A H) as (la & lb & lo & El & [Ra Rb Da Db S O] & _). unfold tensordot_to_einsum_str. rewrite El. exists la, lb, lo. split; auto.
  destruct (nth_error pa (length pb)) as [i|] eqn:Ei; [|apply nth_error_None in Ei; lia]. pose proof (nth_error_In _ _ Ei) as Hi. destruct (nth_error la i) as [x|] eqn:Ex. 2:{ apply nth_error_None in Ex. specialize (Ha i Hi). lia. }
  assert (Nx : ~ In x lb). { intro X. apply In_nth_error in X as (j & Hj). apply (S i j x x Ex Hj) in X0 || (pose proof (proj1 (S i j x x Ex Hj) eq_refl) as X0). apply In_nth_error in X0 as (k & Hk). assert (Hk' : k < length (combine pa pb)) by (apply nth_error_Some; congruence). rewrite combine_length in Hk'. assert (Ek : nth_error pa k = Some i). { assert (Q : nth_error (map fst (combine pa pb)) k = Some i) by (rewrite nth_error_map, Hk; auto). rewrite combine_fst in Q. rewrite <- (firstn_skipn (Nat.min (length pa) (length pb)) pa). rewrite nth_error_app1; auto. rewrite firstn_length. lia. }
    assert (k = length pb); [|lia]. apply (proj1 (NoDup_nth_error pa) Na); [lia|congruence]. }
  exists i, x. split; auto. split; auto. split; auto. rewrite (O "a"%char). intro X. apply in_app_or in X as [X|X].
  - apply in_pick_except in X as (j & Hj & Nj); auto. assert (j = i); [|congruence]. apply (proj1 (NoDup_nth_error la) Da); [apply nth_error_Some; congruence|congruence].
  - apply in_pick_except in X as (j & Hj & _); auto. apply Nx. eapply nth_error_In; eauto. Qed.

(** the text determines the labels *)
Lemma not_letter_split (s : ascii) : ~ is_letter s -> forall a a' t t', Forall is_letter a -> Forall is_letter a' -> a ++ s :: t = a' ++ s :: t' -> a = a' /\ t = t'.
Proof. intro Ns. induction a as [|x a IH]; intros [|y a'] t t' F F' E; cbn [app] in E.
  - injection E as ->. auto.
  - injection E as -> _. inversion F'. contradiction.
  - injection E as <- _. inversion F. contradiction.
  - injection E as -> E. inversion_clear F. inversion_clear F'. destruct (IH a' t t') as [-> ->]; auto. Qed.
Lemma l_subscripts : forall a b o a' b' o', Forall is_letter (a ++ b ++ o) -> Forall is_letter (a' ++ b' ++ o') -> subscripts a b o = subscripts a' b' o' -> a = a' /\ b = b' /\ o = o'.
Proof. intros a b o a' b' o' F F' E. apply Forall_app in F as [Fa F]. apply Forall_app in F as [Fb _]. apply Forall_app in F' as [Fa' F']. apply Forall_app in F' as [Fb' _]. unfold subscripts in E. cbn [app] in E.
  apply not_letter_split in E as [-> E]; auto. 2:{ unfold is_letter. vm_compute. lia. } injection E as E. apply not_letter_split in E as [-> E]; auto. 2:{ unfold is_letter. vm_compute. lia. } injection E as ->. auto. Qed.
