(** Statements about packing into fixed arrays (C45, C59). *)
From Verif Require Import Base Spec P_Index P_List M_Layout P_Layout P_Bounds P_Strides M_Indexer P_Indexer P_Manip M_Kernel P_Kernel M_Tensor P_Tensor Q_Tensor P_Concat2 Spec_Pack M_Pack P_Pack.
Local Open Scope nat_scope.

Lemma l_pack : forall (T : Type) n (xs : list T), (0 < n)%nat ->
  (Nat.divide n (length xs) -> exists ys, pack_array_f n xs = Ok ys /\ unpack_array ys = xs /\ (length ys * n = length xs)%nat /\ Forall (fun y => length y = n) ys /\
     forall q r, (q < length ys)%nat -> (r < n)%nat -> exists y, nth_error ys q = Some y /\ nth_error y r = nth_error xs (q * n + r)%nat) /\
  (~ Nat.divide n (length xs) -> pack_array_f n xs = Err InvalidValue).
Proof. intros T n xs Hn. destruct (pack_spec n xs Hn) as [A B]. split; [|exact B]. intros [m H]. exists (chunks n xs m). split; [now apply A|]. split; [now apply chunks_concat|]. assert (L : length (chunks n xs m) = m) by (unfold chunks; now rewrite map_length, seq_length). rewrite L. split; [lia|]. split; [now apply chunks_length|]. intros q r Hq Hr. destruct (nth_chunk n m xs q r H Hq Hr) as (c & ? & _ & ?). eauto. Qed.
Lemma l_unpack : forall (T : Type) n (ys : list (list T)), (0 < n)%nat -> Forall (fun y => length y = n) ys -> pack_array_f n (unpack_array ys) = Ok ys.
Proof. intros T n ys Hn F. destruct (pack_spec n (concat ys) Hn) as [A _]. unfold unpack_array. rewrite (A (length ys) (concat_length n ys F)). f_equal. now apply chunks_of_concat. Qed.
Lemma l_pack_zero_refuted : forall (T : Type) (xs : list T), pack_array_f 0 xs = Panic.
Proof. reflexivity. Qed.

Local Open Scope Z_scope.
(** the conditions the code checks *)
Definition packable {T} (n : nat) (t : tensor T) (a : nat) : Prop :=
  nth a (l_stride (t_layout t)) 0 = 1 /\ nth a (t_shape t) 0%nat = n /\ (Z.of_nat n | l_offset (t_layout t)) /\ Nat.divide n (length (t_data t)).
(** the condition it does not check *)
Definition others_fit {T} (n : nat) (t : tensor T) (a : nat) : Prop :=
  forall b, (b < length (t_shape t))%nat -> b <> a -> (nth b (t_shape t) 0 <= 1)%nat \/ (Z.of_nat n | nth b (l_stride (t_layout t)) 0).
Definition packed_layout (n : nat) (l : layout) (a : nat) : layout := mkLayout (remove_at (l_shape l) a) (map (fun s => Z.quot s (Z.of_nat n)) (remove_at (l_stride l) a)) (l_offset l / Z.of_nat n).

Lemma into_pack_value {T} n (t : tensor T) axis a : tensor_ok t -> 0 <= l_offset (t_layout t) -> (0 < n)%nat -> axis_denotes (length (t_shape t)) axis a -> packable n t a ->
  exists m, length (t_data t) = (m * n)%nat /\ into_pack_array_f n t axis = Ok (mkTensor (chunks n (t_data t) m) (packed_layout n (t_layout t) a)).
Proof. intros Ht O Hn Ax (P1 & P2 & P3 & m & P4). apply tensor_ok_good in Ht as [Gt It]. exists m. split; auto. unfold into_pack_array_f. rewrite (proj2 (check_axis_spec axis (ndim (t_layout t)) a) Ax). cbn [bind]. rewrite P1. unfold t_shape in P2. rewrite P2. cbn [Z.eqb Pos.eqb check bind]. rewrite Nat.eqb_refl. cbn [check bind]. replace (n =? 0)%nat with false by lia. rewrite as_usize_nonneg by auto.
  apply Z.mod_divide in P3; [|lia]. rewrite P3. cbn [Z.eqb check bind]. destruct (pack_spec n (t_data t) Hn) as [A _]. rewrite (A m P4). cbn [bind]. destruct (chop_spec (t_layout t) (Z.of_nat a) a Gt) as [E _]. { split; [apply Ax|auto]. } { rewrite P2. lia. } rewrite E. cbn [bind chopped l_shape l_stride l_offset]. rewrite as_usize_nonneg by auto. reflexivity. Qed.

Lemma others_forall {T} n (t : tensor T) a : wf (t_layout t) -> (a < length (t_shape t))%nat -> others_fit n t a -> Forall2 (fits (Z.of_nat n)) (remove_at (l_shape (t_layout t)) a) (remove_at (l_stride (t_layout t)) a).
Proof. intros [W _] Ha H. unfold t_shape in *. set (sh := l_shape (t_layout t)) in *. set (st := l_stride (t_layout t)) in *.
  assert (X : forall (p : list nat) (q : list Z), length p = length q -> (forall k, (k < length p)%nat -> fits (Z.of_nat n) (nth k p 0%nat) (nth k q 0)) -> Forall2 (fits (Z.of_nat n)) p q). { induction p as [|x p IH]; intros [|y q] L Q; cbn in L; try lia; constructor; [apply (Q 0%nat); cbn; lia|]. apply IH; [lia|]. intros k Hk. apply (Q (S k)). cbn. lia. }
  apply X. { rewrite !remove_length; lia. } intros k Hk. rewrite remove_length in Hk by auto. rewrite !nth_remove by lia. assert (Hb : forall b, (b < length sh)%nat -> b <> a -> fits (Z.of_nat n) (nth b sh 0%nat) (nth b st 0)) by exact H. destruct (Nat.ltb_spec k a); apply Hb; lia. Qed.
Lemma packed_addr n l a ix k : wf l -> (0 < n)%nat -> (a < ndim l)%nat -> nth a (l_stride l) 0 = 1 -> (Z.of_nat n | l_offset l) -> Forall2 (fits (Z.of_nat n)) (remove_at (l_shape l) a) (remove_at (l_stride l) a) -> valid (remove_at (l_shape l) a) ix ->
  addr l (insert_at ix a k) = Z.of_nat n * addr (packed_layout n l a) ix + Z.of_nat k.
Proof. intros [W _] Hn Ha P1 P3 F V. unfold addr, packed_layout. cbn [l_stride l_offset]. rewrite Z.mul_add_distr_l, (dot_quot (Z.of_nat n) _ _ _ ltac:(lia) F V). assert (D : l_offset l = Z.of_nat n * (l_offset l / Z.of_nat n)) by (apply Z_div_exact_full_2; [lia|apply Z.mod_divide; [lia|auto]]). rewrite <- D.
  assert (Q : dot (l_stride l) (insert_at ix a k) = dot (remove_at (l_stride l) a) ix + nth a (l_stride l) 0 * Z.of_nat k). { unfold ndim in Ha. rewrite <- (insert_remove (l_stride l) a 0) at 1 by lia. apply dot_insert; rewrite ?(valid_length _ _ V), !remove_length; lia. } rewrite Q, P1. lia. Qed.
Lemma combine_quot (sh : list nat) st n : combine sh (map (fun s => Z.quot s n) st) = map (fun p => (fst p, Z.quot (snd p) n)) (combine sh st).
Proof. revert st. induction sh as [|d sh IH]; intros [|s st]; cbn; auto. now rewrite IH. Qed.
Lemma Forall2_combine {A B} (R : A -> B -> Prop) p q : Forall2 R p q -> Forall (fun x => R (fst x) (snd x)) (combine p q).
Proof. induction 1; cbn; constructor; auto. Qed.
Lemma packed_good n l a : good l -> (0 < n)%nat -> (a < ndim l)%nat -> nth a (l_stride l) 0 = 1 -> nth a (l_shape l) 0%nat = n -> (Z.of_nat n | l_offset l) -> Forall2 (fits (Z.of_nat n)) (remove_at (l_shape l) a) (remove_at (l_stride l) a) -> good (packed_layout n l a).
Proof. intros G Hn Ha P1 P2 P3 F. pose proof (proj1 (proj1 G)) as Hl. unfold ndim in Ha. apply good_intro. { cbn. rewrite map_length, !remove_length; lia. } cbn [packed_layout l_shape l_stride]. intro Hs. assert (S0 : size (l_shape l) <> 0%nat) by (rewrite (size_remove _ a Ha), P2; nia). destruct (good_elim l G S0) as (_ & Ho & Hn' & C). split.
  - intros ix V. cbn [packed_layout l_shape] in V. pose proof (packed_addr n l a ix 0 (proj1 G) Hn Ha P1 P3 F V) as E. assert (V' : valid (l_shape l) (insert_at ix a 0%nat)). { rewrite <- (insert_remove (l_shape l) a 0%nat) by auto. apply valid_insert; [rewrite remove_length; lia|]. split; [now apply valid_length|]. split; auto. rewrite P2. lia. } apply Hn' in V'. nia.
  - rewrite combine_quot. destruct (combine_remove (l_shape l) (l_stride l) a) as [E|E]; [|congruence]. pose proof (Forall2_combine _ _ _ F) as F'. rewrite E in F' |- *. unfold remove_at in F' |- *. apply chk_quot; auto. assert (X : (n, 1) = nth a (combine (l_shape l) (l_stride l)) (0%nat, 0)) by (rewrite combine_nth by auto; now rewrite P1, P2). rewrite X. rewrite <- (split_nth (combine (l_shape l) (l_stride l)) a (0%nat, 0)); auto. rewrite combine_length. lia. Qed.

Lemma packed_ok {T} n (t : tensor T) a m : tensor_ok t -> (0 < n)%nat -> (a < length (t_shape t))%nat -> packable n t a -> others_fit n t a -> length (t_data t) = (m * n)%nat ->
  tensor_ok (mkTensor (chunks n (t_data t) m) (packed_layout n (t_layout t) a)) /\ packs n a t (mkTensor (chunks n (t_data t) m) (packed_layout n (t_layout t) a)).
Proof. intros Ht Hn Ha (P1 & P2 & P3 & _) Of L. apply tensor_ok_good in Ht as [Gt It]. pose proof (others_forall n t a (proj1 Gt) Ha Of) as F. unfold t_shape in Ha, P2. assert (Lc : length (chunks n (t_data t) m) = m) by (unfold chunks; now rewrite map_length, seq_length).
  assert (I : forall ix, valid (remove_at (l_shape (t_layout t)) a) ix -> 0 <= addr (packed_layout n (t_layout t) a) ix < Z.of_nat m). { intros ix V. assert (V' : forall k, (k < n)%nat -> valid (l_shape (t_layout t)) (insert_at ix a k)). { intros k Hk. rewrite <- (insert_remove (l_shape (t_layout t)) a 0%nat) by auto. apply valid_insert; [rewrite remove_length; lia|]. split; [now apply valid_length|]. split; auto. now rewrite P2. }
    pose proof (It _ (V' 0%nat Hn)) as A0. rewrite (packed_addr n (t_layout t) a ix 0 (proj1 Gt) Hn Ha P1 P3 F V) in A0. rewrite L in A0. rewrite Nat2Z.inj_mul in A0. nia. }
  split. { apply tensor_ok_good. split; [apply packed_good; auto|]. cbn [t_layout t_data]. intros ix V. rewrite Lc. apply I. exact V. }
  split. { unfold t_shape. cbn [t_layout packed_layout l_shape]. rewrite <- P2. symmetry. apply insert_remove. exact Ha. }
  unfold t_shape. cbn [t_layout packed_layout l_shape]. intros ix V. specialize (I ix V). set (q := addr (packed_layout n (t_layout t) a) ix) in *. destruct (nth_chunk n m (t_data t) (Z.to_nat q) 0 L ltac:(lia) Hn) as (c & Hc & Lh & _). exists c. unfold at_, elem. cbn [t_data t_layout]. fold q. unfold peek at 1. replace (q <? 0) with false by lia. split; auto. split; auto. intros k Hk. destruct (nth_chunk n m (t_data t) (Z.to_nat q) k L ltac:(lia) Hk) as (c' & Hc' & _ & E). assert (c' = c) as -> by congruence. rewrite E. unfold peek. rewrite (packed_addr n (t_layout t) a ix k (proj1 Gt) Hn Ha P1 P3 F V). fold q. replace (_ <? 0) with false by nia. f_equal. nia. Qed.

Lemma l_into_pack : forall (T : Type) n (t : tensor T) axis, tensor_ok t -> 0 <= l_offset (t_layout t) -> (0 < n)%nat ->
  (forall a, axis_denotes (length (t_shape t)) axis a -> packable n t a -> others_fit n t a -> exists r, into_pack_array_f n t axis = Ok r /\ tensor_ok r /\ packs n a t r) /\
  ((~ exists a, axis_denotes (length (t_shape t)) axis a /\ packable n t a) -> exists e, into_pack_array_f n t axis = Err e).
Proof. intros T n t axis Ht O Hn. split.
  - intros a Ax P Of. destruct (into_pack_value n t axis a Ht O Hn Ax P) as (m & L & E). rewrite E. eexists. split; [reflexivity|]. apply packed_ok; auto. apply Ax.
  - intro H. unfold into_pack_array_f. destruct (check_axis axis (ndim (t_layout t))) as [a|e|] eqn:E; cbn [bind]; [|eauto|now apply check_axis_nopanic in E]. apply check_axis_spec in E. destruct (Z.eqb_spec (nth a (l_stride (t_layout t)) 0) 1) as [P1|P1]; cbn [check bind]; [|eauto]. destruct (Nat.eqb_spec (nth a (l_shape (t_layout t)) 0%nat) n) as [P2|P2]; cbn [check bind]; [|eauto]. replace (n =? 0)%nat with false by lia. rewrite as_usize_nonneg by auto. destruct (Z.eqb_spec (l_offset (t_layout t) mod Z.of_nat n) 0) as [P3|P3]; cbn [check bind]; [|eauto].
    destruct (pack_spec n (t_data t) Hn) as [_ B]. rewrite B; [cbn; eauto|]. intro P4. apply H. exists a. split; auto. split; auto. split; auto. split; auto. apply Z.mod_divide; [lia|auto]. Qed.

(** strides that are not multiples of N are divided all the same *)
Definition unit_at (nd b : nat) : list nat := upd (repeat 0%nat nd) b 1%nat.
Lemma dot_zeros st nd : dot st (repeat 0%nat nd) = 0.
Proof. revert st. induction nd as [|nd IH]; intros [|s st]; cbn [repeat dot]; auto. rewrite IH. lia. Qed.
Lemma dot_unit st nd : forall b, (b < nd)%nat -> dot st (unit_at nd b) = nth b st 0.
Proof. unfold unit_at. revert st. induction nd as [|nd IH]; intros [|s st] [|b] Hb; cbn [repeat upd dot nth]; try lia. { rewrite dot_zeros. lia. } rewrite IH by lia. lia. Qed.
Lemma valid_unit sh b : (forall k, (k < length sh)%nat -> (0 < nth k sh 0)%nat) -> (1 < nth b sh 0)%nat -> (b < length sh)%nat -> valid sh (unit_at (length sh) b).
Proof. intros H1 H2 Hb. apply valid_nth. unfold unit_at. rewrite upd_length, repeat_length. split; auto. intros k Hk. rewrite nth_upd, repeat_length. destruct (Nat.eqb_spec b k) as [->|]; cbn [andb]; [replace (k <? length sh)%nat with true by lia; auto|]. rewrite nth_repeat. auto. Qed.
Lemma valid_zeros sh : (forall k, (k < length sh)%nat -> (0 < nth k sh 0)%nat) -> valid sh (repeat 0%nat (length sh)).
Proof. intro H. apply valid_nth. rewrite repeat_length. split; auto. intros k Hk. rewrite nth_repeat. auto. Qed.
Lemma l_into_pack_refuted : forall (T : Type) n (t : tensor T) axis a b, tensor_ok t -> NoDup (t_data t) -> size (t_shape t) <> 0%nat -> axis_denotes (length (t_shape t)) axis a -> packable n t a ->
  (b < length (t_shape t))%nat -> b <> a -> (1 < nth b (t_shape t) 0)%nat -> ~ (Z.of_nat n | nth b (l_stride (t_layout t)) 0) ->
  exists r, into_pack_array_f n t axis = Ok r /\ ~ packs n a t r.
Proof. intros T n t axis a b Ht Nd S0 Ax P Hb Hba H1 Hd. pose proof (proj1 Ax) as Ha. assert (Hn : (0 < n)%nat). { destruct P as (_ & <- & _). unfold t_shape in *. rewrite (size_remove _ a Ha) in S0. nia. } assert (O : 0 <= l_offset (t_layout t)). { apply tensor_ok_good in Ht as [[[_ W] _] _]. auto. }
  destruct (into_pack_value n t axis a Ht O Hn Ax P) as (m & L & E). eexists. split; [exact E|]. intros [_ Q]. apply tensor_ok_good in Ht as [Gt It]. destruct P as (P1 & P2 & P3 & _). unfold t_shape in *. cbn [t_layout packed_layout l_shape] in Q. set (sh := l_shape (t_layout t)) in *. set (st := l_stride (t_layout t)) in *. pose proof (proj1 (proj1 Gt)) as W. fold sh st in W.
  set (b' := if (b <? a)%nat then b else (b - 1)%nat). assert (Lr : length (remove_at sh a) = (length sh - 1)%nat) by (now apply remove_length). assert (Hb' : (b' < length (remove_at sh a))%nat) by (unfold b'; destruct (Nat.ltb_spec b a); lia). assert (N1 : forall (A : Type) (l : list A) d, length l = length sh -> nth b' (remove_at l a) d = nth b l d). { intros A l d Ll. rewrite nth_remove by lia. unfold b'. destruct (Nat.ltb_spec b a). { replace (b <? a)%nat with true by lia. auto. } replace (b - 1 <? a)%nat with false by lia. f_equal. lia. }
  assert (Pos : forall k, (k < length (remove_at sh a))%nat -> (0 < nth k (remove_at sh a) 0)%nat). { intros k Hk. rewrite (size_remove _ a Ha) in S0. assert (nth k (remove_at sh a) 0%nat <> 0%nat); [|lia]. intro Z0. assert (size (remove_at sh a) = 0%nat); [|nia]. now rewrite (size_remove _ k Hk), Z0. }
  assert (V : valid (remove_at sh a) (unit_at (length (remove_at sh a)) b')) by (apply valid_unit; auto; rewrite N1; auto). destruct (Q _ V) as (xs & Hx & Lx & Hk). specialize (Hk 0%nat Hn). unfold at_, elem in Hx, Hk. cbn [t_data t_layout] in Hx, Hk. unfold addr in Hx, Hk. cbn [packed_layout l_offset l_stride] in Hx. fold st in Hx, Hk. rewrite dot_unit in Hx by auto. pose proof (map_nth (fun s => Z.quot s (Z.of_nat n)) (remove_at st a) 0 b') as Mn. cbv beta in Mn. rewrite (nth_indep _ 0 (Z.quot 0 (Z.of_nat n))) in Hx by (rewrite map_length, remove_length; lia). rewrite Mn, N1 in Hx by auto.
  rewrite <- (insert_remove st a 0) in Hk at 1 by lia. rewrite dot_insert in Hk by (unfold unit_at; rewrite ?upd_length, ?repeat_length, ?remove_length; lia). rewrite dot_unit, N1 in Hk by auto. fold st in P1. rewrite P1 in Hk. set (s := nth b st 0) in *. set (q := l_offset (t_layout t) / Z.of_nat n + Z.quot s (Z.of_nat n)) in *. unfold peek in Hx. destruct (Z.ltb_spec q 0) as [Hq|Hq]; [discriminate|].
  assert (Hm : (Z.to_nat q < m)%nat). { assert (X : nth_error (chunks n (t_data t) m) (Z.to_nat q) <> None) by congruence. apply nth_error_Some in X. unfold chunks in X. now rewrite map_length, seq_length in X. } destruct (nth_chunk n m (t_data t) (Z.to_nat q) 0 L Hm Hn) as (c & Hc & _ & E0). assert (c = xs) as -> by congruence. rewrite Hk in E0. unfold peek in E0. destruct (Z.ltb_spec (l_offset (t_layout t) + (s + 1 * Z.of_nat 0)) 0) as [Hp|Hp].
  - symmetry in E0. apply nth_error_None in E0. nia.
  - assert (X : Z.to_nat (l_offset (t_layout t) + (s + 1 * Z.of_nat 0)) = (Z.to_nat q * n + 0)%nat). { symmetry. apply (proj1 (NoDup_nth_error (t_data t)) Nd); [nia|]. symmetry. exact E0. }
    apply Hd. pose proof (Z_div_exact_full_2 (l_offset (t_layout t)) (Z.of_nat n) ltac:(lia) (proj2 (Z.mod_divide _ (Z.of_nat n) ltac:(lia)) P3)) as D. exists (Z.quot s (Z.of_nat n)). nia. Qed.

(** ** unpacking *)
Definition unpacked_layout (n : nat) (l : layout) (a : nat) : layout := mkLayout (insert_at (l_shape l) a n) (insert_at (map (fun s => s * Z.of_nat n) (l_stride l)) a 1) (l_offset l * Z.of_nat n).
Lemma combine_insert {A B} (p : list A) (q : list B) a x y : length p = length q -> combine (insert_at p a x) (insert_at q a y) = insert_at (combine p q) a (x, y).
Proof. revert q a. induction p as [|u p IH]; intros [|v q] a L; cbn in L; try lia. { destruct a; reflexivity. } destruct a as [|a]; [reflexivity|]. unfold insert_at in *. cbn [firstn skipn app combine]. f_equal. apply IH. lia. Qed.
Lemma combine_scale (sh : list nat) st n : combine sh (map (fun s => s * n) st) = map (fun p => (fst p, snd p * n)) (combine sh st).
Proof. revert st. induction sh as [|d sh IH]; intros [|s st]; cbn; auto. now rewrite IH. Qed.
Lemma unpacked_addr n l a ix k : wf l -> (a <= ndim l)%nat -> length ix = ndim l -> addr (unpacked_layout n l a) (insert_at ix a k) = Z.of_nat n * addr l ix + Z.of_nat k.
Proof. intros [W _] Ha Li. unfold addr, unpacked_layout, ndim in *. cbn [l_stride l_offset]. rewrite dot_insert by (rewrite ?map_length; lia). rewrite dot_scale. lia. Qed.
Lemma unpacked_good n l a : good l -> (0 < n)%nat -> (a <= ndim l)%nat -> good (unpacked_layout n l a).
Proof. intros G Hn Ha. pose proof (proj1 (proj1 G)) as Hl. unfold ndim in Ha. apply good_intro. { cbn. rewrite !insert_length, ?map_length; rewrite ?map_length; lia. } cbn [unpacked_layout l_shape l_stride]. intro Hs.
  assert (S0 : size (l_shape l) <> 0%nat). { intro X. apply Hs. unfold insert_at. rewrite size_app, size_cons. rewrite <- (firstn_skipn a (l_shape l)), size_app in X. nia. } destruct (good_elim l G S0) as (_ & Ho & Hn' & C). split.
  - intros jx V. cbn [unpacked_layout l_shape] in V. assert (Lj : length jx = S (length (l_shape l))) by (rewrite (valid_length _ _ V), insert_length; auto). rewrite <- (insert_remove jx a 0%nat) in V |- * by lia. apply valid_insert in V as (Lr & Hk & V); auto. rewrite unpacked_addr; auto; [|apply G]. apply Hn' in V. nia.
  - rewrite combine_insert by (rewrite map_length; lia). rewrite combine_scale. unfold insert_at. rewrite firstn_map, skipn_map. apply chk_scale; auto. now rewrite firstn_skipn. Qed.
Lemma unpack_value {T} n (t : tensor (list T)) axis a : insert_denotes (length (t_shape t)) axis a -> into_unpack_array_f n t axis = Ok (mkTensor (concat (t_data t)) (unpacked_layout n (t_layout t) a)).
Proof. intro Ax. unfold into_unpack_array_f. rewrite (proj2 (check_axis_insert_spec axis (ndim (t_layout t)) a) Ax). reflexivity. Qed.
Lemma l_into_unpack : forall (T : Type) n (t : tensor (list T)) axis, tensor_ok t -> (0 < n)%nat -> Forall (fun y => length y = n) (t_data t) ->
  (forall a, insert_denotes (length (t_shape t)) axis a -> exists r, into_unpack_array_f n t axis = Ok r /\ tensor_ok r /\ packs n a r t) /\
  ((~ exists a, insert_denotes (length (t_shape t)) axis a) -> exists e, into_unpack_array_f n t axis = Err e).
Proof. intros T n t axis Ht Hn F. split.
  - intros a Ax. rewrite (unpack_value n t axis a Ax). eexists. split; [reflexivity|]. apply tensor_ok_good in Ht as [Gt It]. assert (Ha : (a <= ndim (t_layout t))%nat) by apply Ax. pose proof (concat_length n _ F) as Lc. pose proof (chunks_of_concat n _ F) as Cc. split.
    + apply tensor_ok_good. split; [now apply unpacked_good|]. cbn [t_layout t_data]. intros jx V. cbn [unpacked_layout l_shape] in V. assert (Lj : length jx = S (length (l_shape (t_layout t)))) by (rewrite (valid_length _ _ V), insert_length; auto). unfold ndim in Ha. rewrite <- (insert_remove jx a 0%nat) in V |- * by lia. apply valid_insert in V as (Lr & Hk & V); auto. rewrite unpacked_addr; auto; [|apply Gt]. apply It in V. rewrite Lc. nia.
    + split; [reflexivity|]. intros ix V. pose proof (It _ V) as I. destruct (elem_inside _ _ _ It V) as (xs & Hx). exists xs. split; auto. assert (Lx : length xs = n). { unfold elem, peek in Hx. destruct (_ <? 0); [discriminate|]. apply nth_error_In in Hx. rewrite Forall_forall in F. auto. } split; auto. intros k Hk. unfold at_, elem. cbn [t_data t_layout]. rewrite unpacked_addr; auto; [|apply Gt|now apply valid_length].
      unfold elem in Hx. set (q := addr (t_layout t) ix) in *. unfold peek in Hx |- *. replace (q <? 0) with false in Hx by lia. replace (_ <? 0) with false by nia. destruct (nth_chunk n (length (t_data t)) (concat (t_data t)) (Z.to_nat q) k Lc ltac:(lia) Hk) as (c & Hc & _ & E). rewrite Cc in Hc. assert (c = xs) as -> by congruence. rewrite E. f_equal. nia.
  - intro H. unfold into_unpack_array_f. destruct (check_axis_insert axis (ndim (t_layout t))) as [a|e|] eqn:E; cbn [bind]; [|eauto|]. { apply check_axis_insert_spec in E. exfalso. eauto. } unfold check_axis_insert in E. destruct (_ && _) in E; discriminate. Qed.
Lemma l_unpack_pack : forall (T : Type) n (t : tensor (list T)) a r, tensor_ok t -> 0 <= l_offset (t_layout t) -> (0 < n)%nat -> Forall (fun y => length y = n) (t_data t) -> (a <= length (t_shape t))%nat ->
  into_unpack_array_f n t (Z.of_nat a) = Ok r -> into_pack_array_f n r (Z.of_nat a) = Ok t.
Proof. intros T n t a r Ht O Hn F Ha E. assert (Ax : insert_denotes (length (t_shape t)) (Z.of_nat a) a) by (split; [auto|lia]). destruct (l_into_unpack T n t (Z.of_nat a) Ht Hn F) as [A _]. destruct (A a Ax) as (r' & E' & Hr & _). assert (r' = r) as -> by congruence. rewrite (unpack_value n t _ a Ax) in E. injection E as <-. pose proof (concat_length n _ F) as Lc.
  apply tensor_ok_good in Ht as [Gt It]. pose proof (proj1 (proj1 Gt)) as W. unfold t_shape in Ha. destruct (into_pack_value n (mkTensor (concat (t_data t)) (unpacked_layout n (t_layout t) a)) (Z.of_nat a) a Hr) as (m & L & ->).
  - cbn. nia.
  - auto.
  - split; [|auto]. unfold t_shape. cbn. rewrite insert_length; lia.
  - split; [|split; [|split]]; unfold t_shape; cbn [t_layout t_data unpacked_layout l_stride l_shape l_offset].
    + rewrite nth_insert by (rewrite map_length; lia). rewrite Nat.ltb_irrefl, Nat.eqb_refl. auto.
    + rewrite nth_insert by lia. rewrite Nat.ltb_irrefl, Nat.eqb_refl. auto.
    + exists (l_offset (t_layout t)). auto.
    + exists (length (t_data t)). auto.
  - cbn [t_data t_layout] in *. assert (m = length (t_data t)) as -> by nia. rewrite (chunks_of_concat n _ F). destruct t as [d [sh st off]]. unfold packed_layout, unpacked_layout. cbn [t_data t_layout l_shape l_stride l_offset] in *. rewrite !remove_insert by (rewrite ?map_length; lia). rewrite map_map. rewrite Z.div_mul by lia. do 2 f_equal. f_equal. rewrite <- (map_id st) at 2. apply map_ext. intro s. apply Z.quot_mul. lia. Qed.
Lemma l_pack_unpack : forall (T : Type) n (t : tensor T) a r u, tensor_ok t -> 0 <= l_offset (t_layout t) -> (0 < n)%nat -> (a < length (t_shape t))%nat -> packable n t a -> others_fit n t a ->
  into_pack_array_f n t (Z.of_nat a) = Ok r -> into_unpack_array_f n r (Z.of_nat a) = Ok u -> t_data u = t_data t /\ t_shape u = t_shape t /\ forall ix, valid (t_shape t) ix -> at_ u ix = at_ t ix.
Proof. intros T n t a r u Ht O Hn Ha P Of Er Eu. assert (Ax : axis_denotes (length (t_shape t)) (Z.of_nat a) a) by (split; auto). destruct (into_pack_value n t _ a Ht O Hn Ax P) as (m & L & E). rewrite E in Er. injection Er as <-. destruct (packed_ok n t a m Ht Hn Ha P Of L) as [Hr [S1 Q1]]. set (r := mkTensor _ _) in *.
  assert (Ai : insert_denotes (length (t_shape r)) (Z.of_nat a) a). { split; [|auto]. apply (f_equal (@length _)) in S1. destruct (Nat.le_gt_cases a (length (t_shape r))); [lia|]. exfalso. unfold insert_at in S1. rewrite app_length in S1. cbn [length] in S1. rewrite firstn_length, skipn_length in S1. lia. }
  destruct (l_into_unpack T n r (Z.of_nat a) Hr Hn) as [A _]. { unfold r. cbn [t_data]. now apply chunks_length. } destruct (A a Ai) as (u' & Eu' & Hu & [S2 Q2]). assert (u' = u) as -> by congruence. split. { rewrite (unpack_value n r _ a Ai) in Eu. injection Eu as <-. cbn [t_data]. unfold r. cbn [t_data]. now apply chunks_concat. }
  split; [congruence|]. intros ix V. rewrite S1 in V. pose proof (proj1 Ai) as La. assert (Li : length ix = S (length (t_shape r))) by (rewrite (valid_length _ _ V), insert_length; lia). rewrite <- (insert_remove ix a 0%nat) in V |- * by lia. apply valid_insert in V as (Lr & Hk & V); [|lia]. destruct (Q1 _ V) as (x1 & H1 & _ & K1). destruct (Q2 _ V) as (x2 & H2 & _ & K2). rewrite <- K1, <- K2 by auto. congruence. Qed.
