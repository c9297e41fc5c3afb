(** Property lemmas about broadcasting (C13, C14). *)
From Verif Require Import Base Spec P_Index P_List M_Layout P_Layout P_Bounds P_Contig P_Strides M_Broadcast P_Indexer P_Broadcast.
Local Open Scope Z_scope.


Lemma cell_err s1 s2 n i e : broadcast_cell s1 s2 n i = Err e -> e = InvalidLayout.
Proof. unfold broadcast_cell. destruct (_ =? 1)%nat, (_ =? 1)%nat; cbn; try discriminate. unfold check. destruct (_ =? _)%nat; cbn; congruence. Qed.
Lemma map_res_err {A B} (f : A -> res B) l e : map_res f l = Err e -> exists x, In x l /\ f x = Err e.
Proof. induction l as [|x l IH]; cbn; [discriminate|]. destruct (f x) as [y|e'|] eqn:E; cbn.
  - destruct (map_res f l); cbn; try discriminate. intros [= ->]. destruct IH as (z & Hz & Ez); auto. exists z. auto.
  - intros [= ->]. exists x. auto.
  - discriminate. Qed.
Lemma broadcast2_err o s1 s2 : (exists s, broadcasts o s1 s2 s /\ broadcast2 o s1 s2 = Ok s) \/ (~ compat o s1 s2 /\ broadcast2 o s1 s2 = Err InvalidLayout).
Proof. unfold broadcast2. destruct (broadcast_shape s1 s2 o) as [[[s t1] t2]|e|] eqn:E; cbn [bind].
  - left. exists s. split; auto. now apply broadcast_shape_ok in E.
  - right. split.
    + intro C. apply compat_broadcasts in C. destruct C as [s C]. apply broadcast_shape_complete in C. destruct C as (t1 & t2 & C). congruence.
    + f_equal. unfold broadcast_shape in E. cbv zeta in E. destruct (map_res _ _) eqn:M; cbn in E; try discriminate. injection E as ->.
      apply map_res_err in M. destruct M as (x & _ & M). now apply cell_err in M.
  - exfalso. now apply broadcast_shape_nopanic in E. Qed.

Lemma l_broadcast_spec : forall o s1 s2 s, broadcast2 o s1 s2 = Ok s <-> broadcasts o s1 s2 s.
Proof. intros o s1 s2 s. destruct (broadcast2_err o s1 s2) as [(s' & B & ->)|[C ->]].
  - split; [intros [= <-]; auto|]. intro B'. f_equal. eapply broadcasts_fun; eauto.
  - split; [discriminate|]. intro B. exfalso. apply C. apply compat_broadcasts. eauto. Qed.
Lemma l_broadcast_defined : forall o s1 s2,
  broadcast2 o s1 s2 <> Panic /\
  (is_ok (broadcast2 o s1 s2) = true <-> (forall k, ext o s1 k = ext o s2 k \/ ext o s1 k = 1%nat \/ ext o s2 k = 1%nat)).
Proof. intros o s1 s2. destruct (broadcast2_err o s1 s2) as [(s' & B & ->)|[C ->]]; (split; [discriminate|]); cbn.
  - split; auto. intros _. change (compat o s1 s2). apply compat_broadcasts. eauto.
  - split; [discriminate|]. intro H. exfalso. auto. Qed.
Lemma l_broadcast_comm : forall o s1 s2, broadcast2 o s1 s2 = broadcast2 o s2 s1.
Proof. intros o s1 s2. destruct (broadcast2_err o s1 s2) as [(s' & B & ->)|[C ->]].
  - symmetry. apply l_broadcast_spec. now apply broadcasts_comm.
  - destruct (broadcast2_err o s2 s1) as [(s' & B & ->)|[C' ->]]; auto. exfalso. apply C. apply compat_broadcasts. exists s'. now apply broadcasts_comm. Qed.
Lemma l_broadcast_assoc : forall o a b c,
  (let* ab := broadcast2 o a b in broadcast2 o ab c) = (let* bc := broadcast2 o b c in broadcast2 o a bc).
Proof. intros o a b c. destruct (broadcast2_err o a b) as [(ab & B1 & ->)|[C1 ->]]; cbn [bind].
  - destruct (broadcast2_err o ab c) as [(r & B2 & ->)|[C2 ->]].
    + destruct (broadcasts_assoc _ _ _ _ _ _ B1 B2) as (bc & B3 & B4). apply l_broadcast_spec in B3, B4. rewrite B3. cbn [bind]. auto.
    + destruct (broadcast2_err o b c) as [(bc & B3 & ->)|[C3 ->]]; cbn [bind]; auto.
      destruct (broadcast2_err o a bc) as [(r & B4 & ->)|[C4 ->]]; auto. exfalso. apply C2. apply compat_broadcasts.
      apply broadcasts_comm in B3, B4. destruct (broadcasts_assoc _ _ _ _ _ _ B3 B4) as (ab' & B5 & B6). apply broadcasts_comm in B5, B6.
      rewrite (broadcasts_fun _ _ _ _ _ B1 B5). eauto.
  - destruct (broadcast2_err o b c) as [(bc & B3 & ->)|[C3 ->]]; cbn [bind]; auto.
    destruct (broadcast2_err o a bc) as [(r & B4 & ->)|[C4 ->]]; auto. exfalso. apply C1. apply compat_broadcasts.
    apply broadcasts_comm in B3, B4. destruct (broadcasts_assoc _ _ _ _ _ _ B3 B4) as (ab' & B5 & B6). apply broadcasts_comm in B5. eauto. Qed.

Lemma l_broadcast_many : forall o shapes out, shapes <> [] ->
  (broadcast_shapes shapes o = Ok out <->
   (length out = fold_right Nat.max 0%nat (map (@length nat) shapes) /\
    forall k, (forall s, In s shapes -> ext o s k = 1%nat \/ ext o s k = ext o out k) /\
              (ext o out k = 1%nat \/ exists s, In s shapes /\ ext o s k = ext o out k))).
Proof. intros o [|s r] out H; [congruence|]. unfold broadcast_shapes. rewrite fold_broadcast. unfold joint, max_len.
  replace (fold_right (fun s0 m => Nat.max (length s0) m) 0%nat (s :: r)) with (fold_right Nat.max 0%nat (map (@length nat) (s :: r))); [reflexivity|].
  generalize (s :: r). induction l; cbn [map fold_right]; auto. Qed.
Lemma fold_broadcast_cases o r acc : (exists out, fold_res (fun acc sh => let* p := broadcast_shape sh acc o in Ok (fst (fst p))) r acc = Ok out) \/
  fold_res (fun acc sh => let* p := broadcast_shape sh acc o in Ok (fst (fst p))) r acc = Err InvalidLayout.
Proof. revert acc; induction r as [|s r IH]; intros acc; cbn [fold_res]; [eauto|]. fold (broadcast2 o s acc).
  destruct (broadcast2_err o s acc) as [(s' & B & ->)|[C ->]]; cbn [bind]; auto. Qed.
Lemma broadcast_shapes_cases o shapes : (exists out, broadcast_shapes shapes o = Ok out) \/ broadcast_shapes shapes o = Err InvalidLayout.
Proof. destruct shapes; cbn; eauto. apply fold_broadcast_cases. Qed.
Lemma l_broadcast_perm : forall o p q, Permutation p q -> broadcast_shapes p o = broadcast_shapes q o.
Proof. intros o p q P. destruct p as [|a p]; [apply Permutation_nil in P; now subst|]. destruct q as [|b q]; [symmetry in P; now apply Permutation_nil in P|].
  assert (X : forall out, broadcast_shapes (a :: p) o = Ok out <-> broadcast_shapes (b :: q) o = Ok out).
  { intro out. cbn [broadcast_shapes]. rewrite !fold_broadcast. split; apply joint_perm; auto. now symmetry. }
  destruct (broadcast_shapes_cases o (a :: p)) as [(out & E)|E].
  - rewrite E. symmetry. now apply X.
  - destruct (broadcast_shapes_cases o (b :: q)) as [(out & E')|E']; [|congruence]. apply X in E'. congruence. Qed.

(** ** views *)
Lemma inside_of_source m l l' (f : list nat -> list nat) :
  (forall ix, valid (l_shape l') ix -> valid (l_shape l) (f ix) /\ addr l' ix = addr l (f ix)) -> inside l m -> inside l' m.
Proof. intros H I ix Hv. destruct (H ix Hv) as [H1 ->]. now apply I. Qed.

Lemma source_wf l l' (f : list nat -> list nat) : wf l -> length (l_stride l') = length (l_shape l') -> l_offset l' = l_offset l ->
  (forall ix, valid (l_shape l') ix -> valid (l_shape l) (f ix)) -> wf l'.
Proof. intros [H1 H2] Ls O H. split; auto. intro Hs. rewrite O. apply H2. apply (valid_size_pos _ (f (repeat 0%nat (length (l_shape l'))))). apply H. now apply valid_zeros. Qed.

Lemma l_broadcast_layout : forall o l1 l2, wf l1 -> wf l2 ->
  match broadcast_layout l1 l2 o with
  | Ok (r1, r2) =>
      exists s, broadcasts o (l_shape l1) (l_shape l2) s /\ l_shape r1 = s /\ l_shape r2 = s /\ wf r1 /\ wf r2 /\
      forall ix, valid s ix ->
        valid (l_shape l1) (source_index o (l_shape l1) ix) /\ addr r1 ix = addr l1 (source_index o (l_shape l1) ix) /\
        valid (l_shape l2) (source_index o (l_shape l2) ix) /\ addr r2 ix = addr l2 (source_index o (l_shape l2) ix)
  | Err _ => forall s, ~ broadcasts o (l_shape l1) (l_shape l2) s
  | Panic => False
  end.
Proof. intros o l1 l2 W1 W2. unfold broadcast_layout. destruct (broadcast_shape (l_shape l1) (l_shape l2) o) as [[[s t1] t2]|e|] eqn:E; cbn [bind].
  - pose proof (broadcast_shape_ok _ _ _ _ _ _ E) as B. pose proof (broadcasts_comm _ _ _ _ B) as B'.
    destruct (broadcast_operand l1 _ s o W1 B _ _ E) as (r1 & -> & S1 & L1 & O1 & F1). cbn [bind].
    assert (E' : broadcast_shape (l_shape l2) (l_shape l1) o = Ok (s, t2, t1)).
    { clear - E B'. destruct o.
      - apply broadcast_row_ok in E. apply broadcast_row_ok. tauto.
      - rewrite broadcast_shape_col in E |- *. apply bind_ok in E. destruct E as ([[s' t1'] t2'] & E & E'). injection E' as <- <- <-.
        apply broadcast_row_ok in E. destruct E as (B & -> & ->).
        assert (X : broadcast_shape (rev (l_shape l2)) (rev (l_shape l1)) RowMajor = Ok (s', map (btype_of (rev (l_shape l2)) (rev (l_shape l1)) (length s')) (seq 0 (length s')), map (btype_of (rev (l_shape l1)) (rev (l_shape l2)) (length s')) (seq 0 (length s')))).
        { apply broadcast_row_ok. split; auto. now apply broadcasts_comm. }
        rewrite X. reflexivity. }
    destruct (broadcast_operand l2 _ s o W2 B' _ _ E') as (r2 & -> & S2 & L2 & O2 & F2). cbn [bind].
    exists s. split; auto. split; auto. split; auto. split. { apply (source_wf l1 _ (source_index o (l_shape l1)) W1); rewrite ?S1; auto. intros ix Hv. now apply F1. }
    split. { apply (source_wf l2 _ (source_index o (l_shape l2)) W2); rewrite ?S2; auto. intros ix Hv. now apply F2. }
    intros ix Hv. destruct (F1 ix Hv), (F2 ix Hv). auto.
  - intros s B. apply broadcast_shape_complete in B. destruct B as (t1 & t2 & B). congruence.
  - now apply broadcast_shape_nopanic in E. Qed.

Lemma l_into_broadcast : forall o l shape, wf l ->
  match into_broadcast l shape o with
  | Ok r => broadcasts o (l_shape l) shape shape /\ l_shape r = shape /\ wf r /\
      forall ix, valid shape ix -> valid (l_shape l) (source_index o (l_shape l) ix) /\ addr r ix = addr l (source_index o (l_shape l) ix)
  | Err _ => ~ broadcasts o (l_shape l) shape shape
  | Panic => False
  end.
Proof. intros o l shape W. unfold into_broadcast. destruct (broadcast_shape (l_shape l) shape o) as [[[s t1] t2]|e|] eqn:E; cbn [bind].
  - pose proof (broadcast_shape_ok _ _ _ _ _ _ E) as B. unfold check. destruct (list_eq_dec Nat.eq_dec s shape) as [->|N]; cbn [bind].
    + destruct (broadcast_operand l _ shape o W B _ _ E) as (r1 & -> & S1 & L1 & O1 & F1). split; auto. split; auto. split; auto.
      apply (source_wf l _ (source_index o (l_shape l)) W); rewrite ?S1; auto. intros ix Hv. now apply F1.
    + intro B'. apply N. eapply broadcasts_fun; eauto.
  - intro B. apply broadcast_shape_complete in B. destruct B as (t1 & t2' & B). congruence.
  - now apply broadcast_shape_nopanic in E. Qed.

Lemma l_broadcast_inside : forall o l1 l2 r1 r2 m1 m2, wf l1 -> wf l2 -> broadcast_layout l1 l2 o = Ok (r1, r2) ->
  inside l1 m1 -> inside l2 m2 -> inside r1 m1 /\ inside r2 m2.
Proof. intros o l1 l2 r1 r2 m1 m2 W1 W2 E I1 I2. pose proof (l_broadcast_layout o l1 l2 W1 W2) as H. rewrite E in H.
  destruct H as (s & B & S1 & S2 & _ & _ & F). split.
  - apply (inside_of_source m1 l1 r1 (source_index o (l_shape l1))); auto. rewrite S1. intros ix Hv. destruct (F ix Hv) as (? & ? & ? & ?). auto.
  - apply (inside_of_source m2 l2 r2 (source_index o (l_shape l2))); auto. rewrite S2. intros ix Hv. destruct (F ix Hv) as (? & ? & ? & ?). auto. Qed.

(** broadcastable_from/to *)
Lemma forallb_rev_seq f n : forallb f (rev (seq 0 n)) = true <-> forall i, (i < n)%nat -> f i = true.
Proof. rewrite forallb_forall. split; intros H i Hi; apply H.
  - rewrite <- in_rev. apply in_seq. lia.
  - rewrite <- in_rev in Hi. apply in_seq in Hi. lia. Qed.
Lemma l_broadcastable_to : forall s1 s2, broadcastable_to s1 s2 = true <-> broadcasts RowMajor s1 s2 s2.
Proof. intros s1 s2. unfold broadcastable_to, broadcasts. set (n := Nat.max (length s1) (length s2)). destruct (Nat.eqb_spec n (length s2)) as [E|E]; cbn [negb].
  - rewrite forallb_rev_seq. split.
    + intro H. split; auto. intro k. cbv zeta. destruct (Nat.ltb_spec k n) as [Hk|Hk].
      * specialize (H (n - 1 - k)%nat ltac:(lia)). cbv zeta in H. rewrite !aligned_ext_spec in H by lia. replace (n - 1 - (n - 1 - k))%nat with k in H by lia. lia.
      * rewrite !ext_beyond by lia. auto.
    + intros [_ H] i Hi. specialize (H (n - 1 - i)%nat). cbv zeta in *. rewrite !aligned_ext_spec by lia. lia.
  - split; [discriminate|]. intros [L _]. lia. Qed.
Lemma l_broadcastable_from : forall s1 s2, broadcastable_from s1 s2 = true <-> broadcasts RowMajor s2 s1 s1.
Proof. intros s1 s2. unfold broadcastable_from, broadcasts. set (n := Nat.max (length s1) (length s2)). destruct (Nat.eqb_spec n (length s1)) as [E|E]; cbn [negb].
  - rewrite forallb_rev_seq. split.
    + intro H. split; [lia|]. intro k. cbv zeta. destruct (Nat.ltb_spec k n) as [Hk|Hk].
      * specialize (H (n - 1 - k)%nat ltac:(lia)). cbv zeta in H. rewrite !aligned_ext_spec in H by lia. replace (n - 1 - (n - 1 - k))%nat with k in H by lia. lia.
      * rewrite !ext_beyond by lia. auto.
    + intros [_ H] i Hi. specialize (H (n - 1 - i)%nat). cbv zeta in *. rewrite !aligned_ext_spec by lia. lia.
  - split; [discriminate|]. intros [L _]. lia. Qed.
