(** Proofs about indices and ranges of Rust's integer types. *)
From Verif Require Import Base Spec Spec_Range M_Layout M_Indexer M_Range Q_Indexer.
Local Open Scope Z_scope.

Lemma filter_none {A} (p : A -> bool) : forall l, (forall x, In x l -> p x = false) -> filter p l = [].
Proof. induction l as [|x l IH]; intro H; auto. cbn [filter]. rewrite H by now left. apply IH. intros y I. apply H. now right. Qed.
Lemma filter_every {A} (p : A -> bool) : forall l, (forall x, In x l -> p x = true) -> filter p l = l.
Proof. induction l as [|x l IH]; intro H; auto. cbn [filter]. rewrite H by now left. f_equal. apply IH. intros y I. apply H. now right. Qed.
Lemma filter_between (b e n : nat) : (e <= n)%nat ->
  filter (fun i => (Z.of_nat b <=? i) && (i <? Z.of_nat e) && ((i - Z.of_nat b) mod 1 =? 0)) (map Z.of_nat (seq 0 n)) = map Z.of_nat (seq b (e - b)).
Proof.
  intro H. destruct (Nat.le_gt_cases e b) as [E|E].
  - replace (e - b)%nat with 0%nat by lia. apply filter_none. intros x I. apply in_map_iff in I. destruct I as (i & <- & _). replace ((Z.of_nat b <=? Z.of_nat i) && (Z.of_nat i <? Z.of_nat e)) with false by lia. reflexivity.
  - replace n with (b + ((e - b) + (n - e)))%nat by lia. rewrite !seq_app, !map_app, !filter_app.
    rewrite (filter_none _ (map Z.of_nat (seq 0 b))), (filter_every _ (map Z.of_nat (seq (0 + b) (e - b)))), (filter_none _ (map Z.of_nat (seq (0 + b + (e - b)) (n - e)))).
    + cbn [app Nat.add]. apply app_nil_r.
    + intros x I. apply in_map_iff in I. destruct I as (i & <- & I). apply in_seq in I. replace (Z.of_nat i <? Z.of_nat e) with false by lia. now rewrite andb_false_r.
    + intros x I. apply in_map_iff in I. destruct I as (i & <- & I). apply in_seq in I. rewrite Z.mod_1_r. lia.
    + intros x I. apply in_map_iff in I. destruct I as (i & <- & I). apply in_seq in I. replace (Z.of_nat b <=? Z.of_nat i) with false by lia. reflexivity.
Qed.
Lemma as_isize_id z : z < 2 ^ 63 -> as_isize z = z.
Proof. unfold as_isize. intro H. apply Z.ltb_lt in H. now rewrite H. Qed.
Lemma slice_plain r : bounds r (fun z => z < 2 ^ 63) -> slice_of_range r = mkSlice (lower r) (upper r) None.
Proof. intros [A B]. destruct r; cbn in *; unfold slice_from; cbn; rewrite ?as_isize_id by auto; reflexivity. Qed.
Lemma l_range_python : forall t r l axis a, accepted l -> axis_denotes (ndim l) axis a -> bounds r (has_value t) -> bounds r (fun z => z < 2 ^ 63) ->
  let positions := py_slice (lower r) (upper r) 1 (nth a (l_shape l) 0%nat) in
  exists l', dim_narrow l axis (slice_of_range r) = Ok l' /\ l_shape l' = upd (l_shape l) a (length positions) /\
    forall jx, valid (l_shape l') jx -> exists i, nth_error positions (nth a jx 0%nat) = Some (Z.of_nat i) /\ valid (l_shape l) (upd jx a i) /\ addr l' jx = addr l (upd jx a i).
Proof.
  intros t r l axis a A D _ B. rewrite (slice_plain r B). destruct (narrow_python l axis a (mkSlice (lower r) (upper r) None) A D) as [H _]. apply H; [cbn; lia|]. unfold plain_slice. cbn. lia.
Qed.
Lemma range_positions r d : bounds r (fun z => 0 <= z) -> py_slice (lower r) (upper r) 1 d = map Z.of_nat (seq (match lower r with Some a => clipped a d | None => 0%nat end) (count_of r d)).
Proof.
  intros [A B]. unfold py_slice, count_of. cbn [Z.ltb Z.compare].
  set (lo := match lower r with Some a => clipped a d | None => 0%nat end). set (hi := match upper r with Some b => clipped b d | None => d end).
  assert (E1 : match lower r with Some x => py_adjust x (Z.of_nat d) 0 (Z.of_nat d) | None => 0 end = Z.of_nat lo).
  { unfold lo. destruct (lower r) as [x|]; auto. specialize (A x eq_refl). unfold py_adjust, clipped. replace (x <? 0) with false by lia. lia. }
  assert (E2 : match upper r with Some x => py_adjust x (Z.of_nat d) 0 (Z.of_nat d) | None => Z.of_nat d end = Z.of_nat hi).
  { unfold hi. destruct (upper r) as [x|]; auto. specialize (B x eq_refl). unfold py_adjust, clipped. replace (x <? 0) with false by lia. lia. }
  rewrite E1, E2. apply filter_between. unfold hi. destruct (upper r); unfold clipped; lia.
Qed.
Lemma l_range : forall t r l axis a, accepted l -> axis_denotes (ndim l) axis a -> bounds r (has_value t) -> bounds r (fun z => 0 <= z < 2 ^ 63) ->
  exists l', dim_narrow l axis (slice_of_range r) = Ok l' /\ l_shape l' = upd (l_shape l) a (count_of r (nth a (l_shape l) 0%nat)) /\
    forall jx, valid (l_shape l') jx -> let ix := upd jx a (first_of r + nth a jx 0)%nat in valid (l_shape l) ix /\ addr l' jx = addr l ix.
Proof.
  intros t r l axis a A D V B. assert (B1 : bounds r (fun z => z < 2 ^ 63)) by (destruct B as [P Q]; split; intros x X; [apply P in X|apply Q in X]; lia). assert (B2 : bounds r (fun z => 0 <= z)) by (destruct B as [P Q]; split; intros x X; [apply P in X|apply Q in X]; lia).
  destruct (l_range_python t r l axis a A D V B1) as (l' & E & S & H). rewrite range_positions in S, H by auto. rewrite map_length, seq_length in S.
  exists l'. split; auto. split; auto. intros jx J. destruct (H jx J) as (i & N & Vi & Ai). cbn zeta.
  assert (Hk : (nth a jx 0 < count_of r (nth a (l_shape l) 0))%nat). { rewrite <- (seq_length (count_of r (nth a (l_shape l) 0%nat)) (match lower r with Some x => clipped x (nth a (l_shape l) 0%nat) | None => 0%nat end)). rewrite <- (map_length Z.of_nat). apply nth_error_Some. congruence. }
  rewrite nth_error_map in N. rewrite nth_error_nth' with (d := 0%nat) in N by (rewrite seq_length; auto). rewrite seq_nth in N by auto. cbn in N. injection N as N. apply Nat2Z.inj in N.
  replace (first_of r + nth a jx 0)%nat with i; auto. rewrite <- N. f_equal. unfold first_of. destruct (lower r) as [x|] eqn:L; auto.
  unfold clipped. unfold count_of in Hk. rewrite L in Hk. destruct B2 as [B2 _]. specialize (B2 x L).
  assert ((match upper r with Some b => clipped b (nth a (l_shape l) 0%nat) | None => nth a (l_shape l) 0%nat end <= nth a (l_shape l) 0)%nat) by (destruct (upper r); unfold clipped; lia).
  unfold clipped in Hk at 2. lia.
Qed.
Lemma l_index : forall t l axis a i, accepted l -> axis_denotes (ndim l) axis a -> has_value t i -> 0 <= i < 2 ^ 63 ->
  (i < Z.of_nat (nth a (l_shape l) 0%nat) -> exists l', dim_select l axis (as_isize i) = Ok l' /\ l_shape l' = remove_at (l_shape l) a /\
     forall jx, valid (l_shape l') jx -> addr l' jx = addr l (insert_at jx a (Z.to_nat i))) /\
  (Z.of_nat (nth a (l_shape l) 0%nat) <= i -> exists e, dim_select l axis (as_isize i) = Err e).
Proof.
  intros t l axis a i A D _ B. rewrite as_isize_id by lia. destruct (mixed_indexing_select_insert l axis A) as (S & _ & _ & R & _). split.
  - intro H. destruct (S a i (Z.to_nat i) D) as (l' & E & _ & Sh & X). { split; [lia|left; lia]. } exists l'. split; auto. split; auto. intros jx J. now apply X.
  - intro H. apply R. intros a' k D' X. assert (a' = a) as -> by (unfold axis_denotes in *; lia). unfold index_denotes, axis_denotes in X. lia.
Qed.
(** [..usize::MAX] and [usize::MAX] *)
Lemma l_range_refuted : exists t b l, accepted l /\ has_value t b /\ Z.of_nat (nth 0 (l_shape l) 0%nat) < b /\
  exists l', dim_narrow l 0 (slice_of_range (To b)) = Ok l' /\ nth 0 (l_shape l') 0%nat = (nth 0 (l_shape l) 0 - 1)%nat.
Proof.
  exists Usize, (2 ^ 64 - 1), (mkLayout [3%nat] [1] 0). split; [split; [split; [reflexivity|cbn; lia]|reflexivity]|]. split; [unfold has_value; lia|]. split; [cbn; lia|].
  eexists. split; [vm_compute; reflexivity|reflexivity].
Qed.
Lemma l_index_refuted : exists t i l, accepted l /\ has_value t i /\ Z.of_nat (nth 0 (l_shape l) 0%nat) < i /\ exists l', dim_select l 0 (as_isize i) = Ok l'.
Proof.
  exists U64, (2 ^ 64 - 1), (mkLayout [3%nat] [1] 0). split; [split; [split; [reflexivity|cbn; lia]|reflexivity]|]. split; [unfold has_value; lia|]. split; [cbn; lia|].
  eexists. vm_compute. reflexivity.
Qed.
