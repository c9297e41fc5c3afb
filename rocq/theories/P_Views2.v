(** The layouts of views are again what Layout::new accepts, so that every theorem about tensors applies to views. *)
From Verif Require Import Base Spec P_Index P_List M_Layout P_Layout P_Bounds P_Contig P_Strides M_Indexer P_Indexer M_Broadcast P_Broadcast Q_Broadcast
  M_Reshape P_Reshape Q_Reshape Q_Layout M_Rearr P_Rearr M_Iter P_Iter Q_Iter M_Tensor P_BinOp P_Arg P_Axes M_Manip Spec_Views P_Manip P_Views P_Tensor P_Reshape2.
Local Open Scope Z_scope.

Lemma good_safe l : good l -> safe l.
Proof. intros G. split; apply G. Qed.
Lemma safe_new_good sh st off l : safe l -> layout_new sh st off = Ok l -> good l.
Proof. intros [W N] H. pose proof (layout_new_eq _ _ _ _ H) as E. apply (good_new sh st off l); auto. rewrite E in W. apply W. Qed.
Lemma narrow_good l axis s l' : good l -> dim_narrow l axis s = Ok l' -> good l'.
Proof. intros G H. destruct (narrow_shows l axis s l' (good_safe _ G) H) as [S _]. unfold dim_narrow in H. apply bind_ok in H as (a & _ & H).
  destruct (slice_is_full s); [injection H as <-; auto|]. cbv zeta in H. destruct (_ =? 0); [discriminate|]. destruct (_ =? 0); [injection H as <-; auto|].
  destruct (_ >? 0); [destruct (narrow_pos _ _ _)|destruct (narrow_neg _ _ _)]; now apply safe_new_good in H. Qed.
Lemma select_good l axis i l' : good l -> dim_select l axis i = Ok l' -> good l'.
Proof. intros G H. destruct (select_shows l axis i l' (good_safe _ G) H) as [S _]. unfold dim_select in H. apply bind_ok in H as (a & _ & H). cbv zeta in H.
  destruct ((0 <=? _) && _); [|discriminate]. now apply safe_new_good in H. Qed.
Lemma eliminate_good l axis l' : good l -> dim_eliminate l axis = Ok l' -> good l'.
Proof. intros G H. destruct (eliminate_shows l axis l' (good_safe _ G) H) as [S _]. unfold dim_eliminate in H. apply bind_ok in H as (a & _ & H).
  destruct (negb _); [discriminate|]. now apply safe_new_good in H. Qed.
Lemma insert_good l axis l' : good l -> dim_insert l axis = Ok l' -> good l'.
Proof. intros G H. destruct (insert_shows l axis l' (good_safe _ G) H) as [S _]. unfold dim_insert in H. apply bind_ok in H as (a & _ & H). cbv zeta in H. now apply safe_new_good in H. Qed.
Lemma slice_loop_good ixs : forall l cur l' cur', good l -> slice_loop ixs l cur = Ok (l', cur') -> good l'.
Proof. induction ixs as [|x r IH]; intros l cur l' cur' G H; cbn [slice_loop] in H; [injection H as <- <-; auto|].
  apply bind_ok in H as ([l1 c1] & H1 & H). apply IH in H1; auto.
  destruct x; try discriminate; apply bind_ok in H as (l2 & H2 & H); injection H as <- <-; eauto using narrow_good, select_good, insert_good. Qed.
Lemma slice_good l ixs l' : good l -> dim_slice l ixs = Ok l' -> good l'.
Proof. intros G H. unfold dim_slice in H. apply bind_ok in H as (l0 & H0 & H). apply layout_new_eq in H0. assert (l0 = l) as -> by (now destruct l).
  apply bind_ok in H as ([c e] & _ & H). destruct (_ <? _)%nat; [discriminate|]. apply bind_ok in H as ([l1 cur] & H1 & H). destruct (cur =? 0); [|discriminate]. injection H as <-.
  eapply slice_loop_good; eauto. Qed.
Lemma fold_good {A} (f : layout -> A -> res layout) : (forall l a l', good l -> f l a = Ok l' -> good l') -> forall v l l', good l -> fold_res f v l = Ok l' -> good l'.
Proof. intros Hf v. induction v as [|a v IH]; intros l l' G H; cbn in H; [injection H as <-; auto|]. apply bind_ok in H as (l1 & H1 & H). eauto. Qed.
Lemma transpose_good l axes l' : good l -> transpose l axes = Ok l' -> good l'.
Proof. intros G H. apply transpose_spec in H as (ax & _ & P & ->). now apply permuted_good. Qed.
Lemma swapaxes_good l a b l' : good l -> swapaxes l a b = Ok l' -> good l'.
Proof. intros G H. apply swapaxes_spec in H as (i & j & [Hi _] & [Hj _] & ->); [|apply G]. apply (permuted_good (swap_perm (ndim l) i j) l); auto. now apply swap_perm_perm. Qed.
Lemma into_broadcast_good l shape o l' : good l -> into_broadcast l shape o = Ok l' -> good l'.
Proof. intros G H. unfold into_broadcast in H. apply bind_ok in H as ([[s t1] t2] & E & H). apply bind_ok in H as (u & _ & H). eapply update_good; eauto. Qed.
Lemma view_good o op l l' : good l -> view_layout o op l = Ok l' -> good l'.
Proof. intros G H. destruct op; cbn [view_layout] in H.
  - eapply slice_good; eauto.
  - destruct axes; cbn in H; [injection H as <-; now apply good_reverse|eapply transpose_good; eauto|eapply transpose_good; eauto].
  - injection H as <-. now apply good_reverse.
  - eapply swapaxes_good; eauto.
  - unfold moveaxis in H. repeat (apply bind_ok in H as (? & _ & H)). eapply transpose_good; eauto.
  - unfold flip in H. apply bind_ok in H as (ax & _ & H). revert H. apply fold_good; auto. intros; eapply narrow_good; eauto.
  - unfold expand_dims in H. apply bind_ok in H as (? & _ & H). apply bind_ok in H as (ax & _ & H). revert H. apply fold_good; auto. intros; eapply insert_good; eauto.
  - unfold squeeze in H. apply bind_ok in H as (ax & _ & H). revert H. apply fold_good; auto. intros; eapply eliminate_good; eauto.
  - eapply into_broadcast_good; eauto.
  - apply bind_ok in H as (s & _ & H). apply bind_ok in H as (v & Hv & H). destruct v as [l1|]; [|discriminate]. injection H as <-. eapply reshape_good; eauto. Qed.
Lemma views_good {T} o ops : forall (t t' : tensor T), good (t_layout t) -> views o ops t = Ok t' -> good (t_layout t').
Proof. induction ops as [|op ops IH]; intros t t' G H; cbn in H; [injection H as <-; auto|].
  apply bind_ok in H as (t1 & H1 & H). unfold view in H1. apply bind_ok in H1 as (l1 & H1 & E). injection E as <-. apply view_good in H1; auto. now apply IH in H. Qed.
