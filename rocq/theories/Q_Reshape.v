(** Property lemmas about reshaping (C15, C16). *)
From Verif Require Import Base Spec P_Index P_List M_Layout P_Layout P_Bounds P_Contig P_Strides M_Reshape P_Reshape.
Local Open Scope Z_scope.

Lemma l_reshape_order : forall o l shape l', wf l -> layout_reshapeable l shape o = Ok (Some l') ->
  l_shape l' = shape /\ wf l' /\ addrs o l' = addrs o l.
Proof. intros o l shape l' W H. pose proof (reshapeable_ok l shape o W) as R. rewrite H in R. tauto. Qed.
Lemma l_reshape_inside : forall o l shape l' n, wf l -> layout_reshapeable l shape o = Ok (Some l') -> inside l n -> inside l' n.
Proof. intros o l shape l' n W H I ix Hv. destruct (l_reshape_order o l shape l' W H) as (S & _ & E).
  assert (In (addr l' ix) (addrs o l')). { unfold addrs. apply in_map. destruct o; cbn; [now apply in_row_major|now apply in_col_major]. }
  rewrite E in H0. unfold addrs in H0. apply in_map_iff in H0. destruct H0 as (jx & <- & Hj). apply I. destruct o; cbn in Hj; [now apply in_row_major in Hj|now apply in_col_major in Hj]. Qed.
Lemma l_reshape_same_size : forall o l shape, wf l ->
  (is_ok (layout_reshapeable l shape o) = true <-> size shape = size (l_shape l)) /\ layout_reshapeable l shape o <> Panic.
Proof. intros o l shape W. pose proof (reshapeable_ok l shape o W) as R. destruct (layout_reshapeable l shape o) as [[l'|]|e|]; cbn; (split; [split|discriminate||auto]); auto; try tauto; try discriminate. Qed.
Lemma l_substitute : forall shape n, ~ (In (-1) shape /\ In 0 shape) ->
  match reshape_substitute_negatives shape n with
  | Ok s => fills shape s /\ (In (-1) shape -> size s = n /\ forall s', fills shape s' -> size s' = n -> s' = s)
  | Err _ => (exists v, In v shape /\ v < -1) \/ (2 <= count_occ Z.eq_dec shape (-1)%Z)%nat \/ (forall s', fills shape s' -> size s' <> n)
  | Panic => False
  end.
Proof. exact substitute_ok. Qed.
Lemma l_substitute_rejects : forall shape n,
  (exists v, In v shape /\ v < -1) \/ (2 <= count_occ Z.eq_dec shape (-1)%Z)%nat -> exists e, reshape_substitute_negatives shape n = Err e.
Proof. intros shape n H. unfold reshape_substitute_negatives. destruct (find_neg1 shape 0 None) as [r|e|] eqn:F; cbn [bind]; [|eauto|].
  - exfalso. apply find_neg1_ok in F. destruct F as [F1 F2]. destruct H as [(v & I & L)|H].
    + rewrite Forall_forall in F1. apply F1 in I. lia.
    + assert (N : forall l, Forall (fun v => 0 <= v) l -> count_occ Z.eq_dec l (-1) = 0%nat). { intros l Hl. apply count_occ_not_In. intro I. rewrite Forall_forall in Hl. apply Hl in I. lia. }
      destruct F2 as [[F2 _]|(_ & a & b & -> & Ha & Hb & _)]; [rewrite N in H by auto; lia|].
      rewrite count_occ_app in H. cbn [count_occ] in H. destruct (Z.eq_dec (-1) (-1)); [|congruence]. rewrite !N in H by auto. lia.
  - pose proof (find_neg1_err shape 0 None) as E. now rewrite F in E. Qed.
Lemma l_substitute_panics : exists shape n, (count_occ Z.eq_dec shape (-1)%Z = 1)%nat /\ (forall v, In v shape -> -1 <= v) /\ reshape_substitute_negatives shape n = Panic.
Proof. exists [-1; 0], 6%nat. split; [reflexivity|]. split; [|reflexivity]. intros v [<-|[<-|[]]]; lia. Qed.
Lemma l_reshape_total : forall o l shape, wf l -> ~ (In (-1) shape /\ In 0 shape) ->
  match reshapeable_without_copy l shape o with
  | Ok (Some l') => fills shape (l_shape l') /\ size (l_shape l') = size (l_shape l) /\ addrs o l' = addrs o l
  | Ok None => exists s, fills shape s /\ size s = size (l_shape l)
  | Err _ => (exists v, In v shape /\ v < -1) \/ (2 <= count_occ Z.eq_dec shape (-1)%Z)%nat \/ (forall s, fills shape s -> size s <> size (l_shape l))
  | Panic => False
  end.
Proof. intros o l shape W Z0. unfold reshapeable_without_copy. pose proof (substitute_ok shape (size (l_shape l)) Z0) as S.
  destruct (reshape_substitute_negatives shape (size (l_shape l))) as [s|e|]; cbn [bind]; auto. destruct S as [F U].
  pose proof (reshapeable_ok l s o W) as R. destruct (layout_reshapeable l s o) as [[l'|]|e|]; auto.
  - destruct R as (R1 & -> & _ & R2). auto.
  - eauto.
  - destruct (in_dec Z.eq_dec (-1) shape) as [I|I]; [exfalso; apply R, U; auto|]. right. right. intros s' F'.
    assert (s' = s) as ->; auto. clear - F F' I. revert s' s F F'. induction shape as [|v r IH]; intros s' s F F'; inversion F as [|? d ? t A1 A2]; inversion F' as [|? d' ? t' B1 B2]; subst; auto.
    f_equal; [|apply IH; auto; intro; apply I; now right]. assert (v <> -1) by (intro; apply I; now left). lia. Qed.
