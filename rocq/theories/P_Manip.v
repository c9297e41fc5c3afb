(** Proofs about flip, moveaxis, expand_dims, squeeze and chains of view operations. *)
From Verif Require Import Base Spec P_Index P_List M_Layout P_Layout P_Bounds P_Contig P_Strides M_Indexer P_Indexer Q_Indexer M_Broadcast P_Broadcast Q_Broadcast M_Reshape P_Reshape Q_Reshape M_Rearr M_Iter P_Iter P_Rearr P_BinOp P_Arg M_Tensor M_Manip Spec_Views.
Local Open Scope Z_scope.

(** ** lists of axes *)
Lemma nth_skipn {A} (v : list A) a k d : nth k (skipn a v) d = nth (a + k) v d.
Proof. revert a; induction v as [|x v IH]; intros [|a]; cbn; auto. now destruct k. Qed.
Lemma nth_firstn_lt {A} (v : list A) a k d : (k < a)%nat -> nth k (firstn a v) d = nth k v d.
Proof. revert a k; induction v as [|x v IH]; intros [|a] [|k] H; cbn; auto; try lia. apply IH. lia. Qed.
Lemma except_split n a I : (a <= n)%nat -> (forall x, In x I -> (x < a)%nat) -> axes_except n I = axes_except a I ++ seq a (n - a).
Proof. intros Ha H. unfold axes_except. replace n with (a + (n - a))%nat at 1 by lia. rewrite seq_app, filter_app. f_equal. cbn.
  assert (E : forall k m, (a <= k)%nat -> filter (fun k => negb (existsb (Nat.eqb k) I)) (seq k m) = seq k m).
  { intros k m; revert k; induction m as [|m IH]; intros k Hk; cbn; auto. rewrite IH by lia. replace (existsb (Nat.eqb k) I) with false; auto.
    symmetry. apply not_true_is_false. intro X. apply existsb_exists in X as (x & Hx & E). apply H in Hx. lia. }
  apply E. lia. Qed.
Lemma except_add n a I : (a < n)%nat -> (forall x, In x I -> (x < a)%nat) -> axes_except n (I ++ [a]) = axes_except a I ++ seq (S a) (n - S a).
Proof. intros Ha H. rewrite (except_split n (S a)); [|lia|].
  - f_equal. unfold axes_except. replace (S a) with (a + 1)%nat by lia. rewrite seq_app, filter_app. cbn. rewrite existsb_app. cbn. rewrite Nat.eqb_refl, orb_true_r. cbn. rewrite app_nil_r.
    apply filter_ext_in. intros k Hk. apply in_seq in Hk. rewrite existsb_app. cbn. replace (k =? a)%nat with false by lia. now rewrite !orb_false_r.
  - intros x Hx. apply in_app_iff in Hx as [Hx|[<-|[]]]; auto. apply H in Hx. lia. Qed.
Lemma pick_seq_skipn {A} (d : A) v a m : (a + m = length v)%nat -> pick (seq a m) d v = skipn a v.
Proof. intro E. unfold pick. apply nth_eq_ext with (d := d); [rewrite map_length, seq_length, skipn_length; lia|]. rewrite map_length, seq_length. intros k Hk.
  rewrite map_nth_in with (d := 0%nat) by (now rewrite seq_length). rewrite seq_nth by auto. rewrite nth_skipn. f_equal. Qed.
Lemma pick_ext {A} (d : A) ax v w : (forall a, In a ax -> nth a v d = nth a w d) -> pick ax d v = pick ax d w.
Proof. intro H. unfold pick. now apply map_ext_in. Qed.
Lemma nth_insert {A} (v : list A) a x d k : (a <= length v)%nat -> nth k (insert_at v a x) d = if (k <? a)%nat then nth k v d else if (k =? a)%nat then x else nth (k - 1) v d.
Proof. intro Ha. unfold insert_at. destruct (Nat.ltb_spec k a).
  - rewrite app_nth1 by (rewrite firstn_length; lia). now rewrite nth_firstn_lt.
  - rewrite app_nth2 by (rewrite firstn_length; lia). rewrite firstn_length, Nat.min_l by lia. destruct (Nat.eqb_spec k a) as [->|].
    + now rewrite Nat.sub_diag.
    + replace (k - a)%nat with (S (k - a - 1)) by lia. cbn [nth]. rewrite nth_skipn. f_equal. lia. Qed.
(** inserting [x] at [a], beyond all of [I]: nothing before [a] moves *)
Lemma pick_insert {A} (d : A) v a x I : (a <= length v)%nat -> (forall y, In y I -> (y < a)%nat) ->
  pick (axes_except (S (length v)) (I ++ [a])) d (insert_at v a x) = pick (axes_except (length v) I) d v.
Proof. intros Ha H. rewrite except_add by (auto; lia). rewrite (except_split (length v) a) by auto. rewrite !pick_app. f_equal.
  - apply pick_ext. intros k Hk. unfold axes_except in Hk. apply filter_In in Hk as [Hk _]. apply in_seq in Hk. rewrite nth_insert by auto. now replace (k <? a)%nat with true by lia.
  - replace (S (length v) - S a)%nat with (length v - a)%nat by lia. unfold pick. rewrite <- seq_shift, map_map. apply map_ext_in. intros k Hk. apply in_seq in Hk. rewrite nth_insert by auto.
    replace (S k <? a)%nat with false by lia. replace (S k =? a)%nat with false by lia. f_equal. lia. Qed.
(** inserting values at strictly increasing positions *)
Definition increasing (ax : list nat) : Prop := StronglySorted lt ax.
Lemma inc_app a b : increasing (a ++ b) <-> increasing a /\ increasing b /\ forall x y, In x a -> In y b -> (x < y)%nat.
Proof. unfold increasing. induction a as [|x a IH]; cbn.
  - split; [intro; repeat split; auto; [constructor|intros ? ? []]|tauto].
  - split.
    + intro H. inversion H as [|? ? H1 H2]; subst. apply IH in H1 as (A & B & C). rewrite Forall_app in H2. rewrite !Forall_forall in H2. split; [|split; auto].
      * constructor; auto. rewrite Forall_forall. apply H2.
      * intros u w [<-|Hu] Hw; [now apply H2|auto].
    + intros (H1 & H2 & H3). inversion H1 as [|? ? H4 H5]; subst. constructor; [apply IH; split; [auto|split; [auto|intros; apply H3; auto]]|].
      rewrite Forall_app. split; auto. rewrite Forall_forall. intros y Hy. apply H3; auto. Qed.
Lemma inc_nodup ax : increasing ax -> NoDup ax.
Proof. induction 1 as [|x ax H IH HF]; constructor; auto. intro Hi. rewrite Forall_forall in HF. apply HF in Hi. lia. Qed.
Lemma inc_bound ax : increasing ax -> forall n, (forall a, In a ax -> (a < n)%nat) -> forall a r, ax = a :: r -> (a + length ax <= n)%nat.
Proof. induction 1 as [|x ax H IH HF]; intros n B a r E; [discriminate|]. injection E as <- <-. cbn. destruct ax as [|y ax].
  - specialize (B x ltac:(now left)). cbn. lia.
  - specialize (IH n ltac:(intros; apply B; now right) y ax eq_refl). rewrite Forall_forall in HF. specialize (HF y ltac:(now left)). lia. Qed.
Lemma inc_of_sorted v : StronglySorted Nat.le v -> NoDup v -> increasing v.
Proof. induction 1 as [|x v H IH HF]; intro ND; constructor; inversion ND; subst; [now apply IH|]. rewrite Forall_forall in *. intros y Hy.
  specialize (HF y Hy). assert (x <> y) by (intro; subst; auto). lia. Qed.
Fixpoint insert_all {A} (v : list A) (ps : list (nat * A)) : list A :=
  match ps with [] => v | (a, x) :: r => insert_all (insert_at v a x) r end.
Lemma insert_all_ok {A} (d : A) ps : forall v done, increasing (done ++ map fst ps) -> (forall a, In a (map fst ps) -> (a < length v + length ps)%nat) ->
  (forall a, In a done -> (a < length v)%nat) ->
  length (insert_all v ps) = (length v + length ps)%nat /\
  (forall a, In a done -> nth a (insert_all v ps) d = nth a v d) /\
  (forall a x, In (a, x) ps -> nth a (insert_all v ps) d = x) /\
  pick (axes_except (length v + length ps) (done ++ map fst ps)) d (insert_all v ps) = pick (axes_except (length v) done) d v.
Proof. induction ps as [|[a x] ps IH]; intros v done Inc B Bd; cbn [insert_all map fst length].
  - rewrite Nat.add_0_r, app_nil_r. repeat split; auto. intros ? ? [].
  - apply inc_app in Inc as (I1 & I2 & I3). cbn [map fst] in I2, I3. assert (Ha : (a <= length v)%nat).
    { pose proof (inc_bound _ I2 (length v + S (length ps)) B a _ eq_refl) as X. cbn in X. rewrite map_length in X. lia. }
    assert (Hd : forall y, In y done -> (y < a)%nat) by (intros y Hy; apply I3; cbn; auto).
    assert (L : length (insert_at v a x) = S (length v)) by (now apply insert_length).
    destruct (IH (insert_at v a x) (done ++ [a])) as (E1 & E2 & E3 & E4).
    + rewrite <- app_assoc. cbn. apply inc_app. auto.
    + rewrite L. intros b Hb. specialize (B b ltac:(cbn; auto)). cbn in B. lia.
    + intros b Hb. rewrite L. apply in_app_iff in Hb as [Hb|[<-|[]]]; [apply Hd in Hb|]; lia.
    + rewrite L in *. replace (length v + S (length ps))%nat with (S (length v) + length ps)%nat by lia. repeat split; auto.
      * intros b Hb. rewrite E2 by (apply in_app_iff; auto). rewrite nth_insert by auto. apply Hd in Hb. now replace (b <? a)%nat with true by lia.
      * intros b y [E|Hb]; [injection E as <- <-|auto]. rewrite E2 by (apply in_app_iff; right; now left). rewrite nth_insert by auto. replace (a <? a)%nat with false by lia. now rewrite Nat.eqb_refl.
      * rewrite <- app_assoc in E4. cbn [app] in E4. rewrite E4. now apply pick_insert. Qed.
Lemma insert_at_perm {A} (v : list A) a x : Permutation (x :: v) (insert_at v a x).
Proof. unfold insert_at. rewrite <- (firstn_skipn a v) at 1. apply Permutation_middle. Qed.
Lemma insert_all_perm {A} ps : forall v : list A, Permutation (map snd ps ++ v) (insert_all v ps).
Proof. induction ps as [|[a x] ps IH]; intro v; cbn; auto. rewrite <- IH, <- insert_at_perm. apply Permutation_middle. Qed.

(** ** flip *)
Definition flip1 (l : layout) (a : nat) : layout := if (nth a (l_shape l) 0 =? 0)%nat then l else flipped l a.
Lemma flip1_shape l a : l_shape (flip1 l a) = l_shape l.
Proof. unfold flip1. destruct (_ =? _)%nat; auto. apply flipped_shape. Qed.
Lemma flip1_good l a : good l -> (a < ndim l)%nat -> good (flip1 l a).
Proof. intros G H. unfold flip1. destruct (_ =? _)%nat; auto. now apply flipped_good. Qed.
Lemma narrow_flip l a : (a < ndim l)%nat -> dim_narrow l (Z.of_nat a) (mkSlice None None (Some (-1))) =
  if (nth a (l_shape l) 0 =? 0)%nat then Ok l else layout_new (l_shape (flipped l a)) (l_stride (flipped l a)) (l_offset (flipped l a)).
Proof. intro Ha. unfold dim_narrow. assert (D : axis_denotes (ndim l) (Z.of_nat a) a) by (split; auto).
  apply check_axis_spec in D. rewrite D. cbn [bind slice_is_full sl_start sl_stop sl_step unwrap_or]. set (d := nth a (l_shape l) 0%nat).
  change (-1 =? 0) with false. cbv iota. destruct (Nat.eqb_spec d 0) as [E0|E0]; [now replace (Z.of_nat d =? 0) with true by lia|].
  replace (Z.of_nat d =? 0) with false by lia. change (-1 >? 0) with false. cbv iota.
  assert (E : narrow_neg (Z.of_nat d) None None = (Z.of_nat d - 1, -1)).
  { unfold narrow_neg. cbn [unwrap_or]. cbv zeta. change (-1 <? -1) with false. cbv iota. replace (Z.of_nat d - 1 <? 0) with false by lia. cbv iota.
    repeat match goal with |- context [if ?c then _ else _] => destruct c eqn:? end; f_equal; lia. }
  rewrite E. replace (Z.to_nat (Z.max (Z.quot (-1 - (Z.of_nat d - 1) + -1 + 1) (-1)) 0)) with d; [reflexivity|].
  replace (-1 - (Z.of_nat d - 1) + -1 + 1) with (- Z.of_nat d) by lia. change (Z.quot (- Z.of_nat d) (-1)) with (Z.quot (- Z.of_nat d) (- (1))). rewrite (Z.quot_opp_opp (Z.of_nat d) 1) by lia. rewrite Z.quot_1_r. lia. Qed.
Lemma flip_step l a : good l -> (a < ndim l)%nat -> dim_narrow l (Z.of_nat a) (mkSlice None None (Some (-1))) = Ok (flip1 l a).
Proof. intros G Ha. rewrite narrow_flip by auto. unfold flip1. destruct (_ =? _)%nat; auto. apply layout_new_good'. now apply flipped_good. Qed.
Lemma flip_fold ax : forall l, good l -> (forall a, In a ax -> (a < ndim l)%nat) ->
  fold_res (fun l a => dim_narrow l (Z.of_nat a) (mkSlice None None (Some (-1)))) ax l = Ok (fold_left flip1 ax l) /\ good (fold_left flip1 ax l) /\ l_shape (fold_left flip1 ax l) = l_shape l.
Proof. induction ax as [|a ax IH]; intros l G H; cbn [fold_res fold_left]; auto. assert (Ha : (a < ndim l)%nat) by (apply H; now left).
  rewrite flip_step by auto. cbn [bind]. destruct (IH (flip1 l a)) as (E1 & E2 & E3); [now apply flip1_good| |].
  - intros b Hb. unfold ndim. rewrite flip1_shape. apply H. now right.
  - rewrite flip1_shape in E3. auto. Qed.
Lemma flip_index_nth s ax ix k : (k < length s)%nat -> nth k (flip_index s ax ix) 0%nat = if mem k ax then (nth k s 0 - 1 - nth k ix 0)%nat else nth k ix 0%nat.
Proof. intro H. unfold flip_index. rewrite map_nth_in with (d := 0%nat) by (now rewrite seq_length). now rewrite seq_nth. Qed.
Lemma flip_index_length s ax ix : length (flip_index s ax ix) = length s.
Proof. unfold flip_index. now rewrite map_length, seq_length. Qed.
Lemma flip_index_valid s ax ix : valid s ix -> valid s (flip_index s ax ix).
Proof. intro V. apply valid_nth in V as [L V]. apply valid_nth. rewrite flip_index_length. split; auto. intros k Hk. rewrite flip_index_nth by lia. specialize (V k ltac:(lia)). destruct (mem k ax); lia. Qed.
Lemma flip_index_cons s a ax ix : valid s ix -> (a < length s)%nat -> ~ In a ax ->
  flip_index s (a :: ax) ix = upd (flip_index s ax ix) a (nth a s 0 - 1 - nth a (flip_index s ax ix) 0)%nat.
Proof. intros V Ha N. apply nth_eq_ext with (d := 0%nat); [rewrite upd_length; now rewrite !flip_index_length|]. rewrite flip_index_length. intros k Hk.
  rewrite nth_upd, !flip_index_length, !flip_index_nth by auto. replace (k <? length s)%nat with true by lia. rewrite andb_true_r. unfold mem. cbn [existsb]. rewrite (Nat.eqb_sym k a).
  destruct (Nat.eqb_spec a k) as [->|]; cbn [orb]; auto. fold (mem k ax). rewrite (proj2 (mem_notin k ax)) by auto. reflexivity. Qed.
Lemma flip_addr ax : forall l, good l -> (forall a, In a ax -> (a < ndim l)%nat) -> NoDup ax -> forall ix, valid (l_shape l) ix ->
  addr (fold_left flip1 ax l) ix = addr l (flip_index (l_shape l) ax ix).
Proof. induction ax as [|a ax IH]; intros l G H ND ix V; cbn [fold_left].
  - f_equal. symmetry. apply nth_eq_ext with (d := 0%nat); [rewrite flip_index_length; symmetry; now apply valid_length|]. rewrite flip_index_length. intros k Hk. now rewrite flip_index_nth.
  - assert (Ha : (a < ndim l)%nat) by (apply H; now left). inversion ND; subst. rewrite IH; auto; [| |rewrite ?flip1_shape..]; auto.
    + rewrite flip1_shape. rewrite flip_index_cons by auto. pose proof (flip_index_valid _ ax _ V) as V'. set (j := flip_index (l_shape l) ax ix) in *. clearbody j.
      pose proof V' as V''. apply valid_nth in V'' as [Lj Vj]. specialize (Vj a ltac:(unfold ndim in Ha; lia)).
      unfold flip1. replace (nth a (l_shape l) 0 =? 0)%nat with false by lia. destruct (flipped_renames l a (proj1 G) Ha) as (_ & R & _). apply R. now rewrite flipped_shape.
    + now apply flip1_good.
    + intros b Hb. unfold ndim. rewrite flip1_shape. apply H. now right. Qed.
(** flipping is an involution on layouts *)
Lemma upd_upd_same {A} (v : list A) a x y : upd (upd v a x) a y = upd v a y.
Proof. revert a; induction v as [|z v IH]; intros [|a]; cbn; auto. now rewrite IH. Qed.
Lemma upd_upd_other {A} (v : list A) a b x y : a <> b -> upd (upd v a x) b y = upd (upd v b y) a x.
Proof. revert a b; induction v as [|z v IH]; intros [|a] [|b] H; cbn; auto; try lia. now rewrite IH by lia. Qed.
Lemma flip1_invol l a : length (l_stride l) = length (l_shape l) -> flip1 (flip1 l a) a = l.
Proof. intro L. unfold flip1 at 1. rewrite flip1_shape. unfold flip1. destruct (_ =? _)%nat eqn:E; auto. unfold flipped at 1. rewrite flipped_shape. unfold narrowed. rewrite flipped_shape. unfold flipped, narrowed. cbn [l_shape l_stride l_offset].
  destruct l as [sh st off]; cbn [l_shape l_stride l_offset] in *. rewrite upd_same, upd_upd_same. rewrite nth_upd. rewrite Nat.eqb_refl. cbn [andb].
  destruct (Nat.ltb_spec a (length st)) as [Ha|Ha].
  - f_equal; [|lia]. replace (nth a st 0 * -1 * -1) with (nth a st 0) by lia. apply upd_same.
  - rewrite nth_overflow in E by lia. discriminate. Qed.
Lemma flip1_comm l a b : length (l_stride l) = length (l_shape l) -> flip1 (flip1 l a) b = flip1 (flip1 l b) a.
Proof. intro L. destruct (Nat.eq_dec a b) as [->|N]; auto. unfold flip1 at 1 3. rewrite !flip1_shape. unfold flip1.
  destruct (nth a (l_shape l) 0 =? 0)%nat eqn:Ea, (nth b (l_shape l) 0 =? 0)%nat eqn:Eb; auto.
  unfold flipped at 1 3. unfold narrowed. rewrite !flipped_shape. unfold flipped, narrowed. cbn [l_shape l_stride l_offset]. rewrite !upd_same, !nth_upd.
  replace (a =? b)%nat with false by lia. replace (b =? a)%nat with false by lia. cbn [andb]. f_equal; [now apply upd_upd_other|lia]. Qed.
Lemma flip1_len l a : length (l_stride l) = length (l_shape l) -> length (l_stride (flip1 l a)) = length (l_shape (flip1 l a)).
Proof. intro L. rewrite flip1_shape. unfold flip1. destruct (_ =? _)%nat; auto. cbn. now rewrite upd_length. Qed.
Lemma flip_fold_comm ax : forall l a, length (l_stride l) = length (l_shape l) -> flip1 (fold_left flip1 ax l) a = fold_left flip1 ax (flip1 l a).
Proof. induction ax as [|b ax IH]; intros l a L; cbn [fold_left]; auto. rewrite IH by (now apply flip1_len). now rewrite flip1_comm. Qed.
Lemma flip_fold_invol ax : forall l, length (l_stride l) = length (l_shape l) -> fold_left flip1 ax (fold_left flip1 ax l) = l.
Proof. induction ax as [|a ax IH]; intros l L; cbn [fold_left]; auto. rewrite flip_fold_comm by (now apply flip1_len). rewrite flip1_invol by auto. now apply IH. Qed.

(** ** axes given as one number or as a list *)
Lemma normalize_list axes v nd dup srt : lists_axes axes v -> normalize_axes_index axes nd dup srt = normalize_axes_index (AxVec v) nd dup srt.
Proof. intros []; auto. unfold normalize_axes_index. cbn [map_res]. destruct (check_axis a nd); cbn [bind]; auto. now destruct srt. Qed.
Lemma as_ref_list axes v : lists_axes axes v -> axes_as_ref axes = Ok v.
Proof. now intros []. Qed.
Lemma normalize_ok axes v nd dup srt ax0 : lists_axes axes v -> Forall2 (axis_denotes nd) v ax0 -> NoDup ax0 ->
  normalize_axes_index axes nd dup srt = Ok (if srt then sort_by Nat.leb ax0 else ax0).
Proof. intros L D N. rewrite (normalize_list _ _ _ _ _ L). apply normalize_spec. exists ax0. auto. Qed.
Lemma normalize_reject axes v nd srt : lists_axes axes v -> (~ exists ax, Forall2 (axis_denotes nd) v ax /\ NoDup ax) ->
  exists e, normalize_axes_index axes nd false srt = Err e.
Proof. intros L N. rewrite (normalize_list _ _ _ _ _ L). destruct (normalize_axes_index _ _ _ _) as [ax|e|] eqn:E; [|eauto|now apply normalize_nopanic in E].
  apply normalize_spec in E as (ax0 & D & [X|X] & _); [discriminate|]. exfalso. apply N. eauto. Qed.
Lemma sort_inc ax : NoDup ax -> increasing (sort_by Nat.leb ax).
Proof. intro N. apply inc_of_sorted.
  - eapply StronglySorted_ind with (P := fun v => StronglySorted Nat.le v); [constructor| |apply sort_nat_sorted]. intros a v _ H1 H2. constructor; auto.
  - eapply Permutation_NoDup; [apply sort_perm|auto]. Qed.
Lemma sort_bound ax n : (forall a, In a ax -> (a < n)%nat) -> forall a, In a (sort_by Nat.leb ax) -> (a < n)%nat.
Proof. intros H a Ha. apply H. now apply sort_in in Ha. Qed.

(** ** moveaxis *)
Lemma vec_insert_all {A} ps : forall v : list A, increasing (map fst ps) -> (forall a, In a (map fst ps) -> (a < length v + length ps)%nat) ->
  fold_res (fun v p => vec_insert v (fst p) (snd p)) ps v = Ok (insert_all v ps).
Proof. induction ps as [|[a x] ps IH]; intros v I B; cbn [fold_res insert_all]; auto. cbn [map fst] in I, B.
  assert (Ha : (a <= length v)%nat). { pose proof (inc_bound _ I _ B a _ eq_refl) as X. cbn in X. rewrite map_length in X. lia. }
  unfold vec_insert at 1. cbn [fst snd]. replace (a <=? length v)%nat with true by lia. cbn [bind]. apply IH.
  - now inversion I.
  - intros b Hb. rewrite insert_length by auto. specialize (B b ltac:(cbn; auto)). cbn in B. lia. Qed.
Lemma except_length n ax : NoDup ax -> (forall a, In a ax -> (a < n)%nat) -> (length (axes_except n ax) + length ax = n)%nat.
Proof. intros N B. pose proof (Permutation_length (except_perm n ax N B)) as X. rewrite app_length, seq_length in X. lia. Qed.
Lemma axes_except_ext n a b : (forall k, In k a <-> In k b) -> axes_except n a = axes_except n b.
Proof. intro H. unfold axes_except. apply filter_ext. intro k. f_equal. apply eq_iff_eq_true. rewrite !existsb_exists. split; intros (x & Hx & E); exists x; split; auto; now apply H. Qed.
Lemma nth_error_pairs {A B} (a : list A) : forall (b : list B) n x y, nth_error a n = Some x -> nth_error b n = Some y -> nth_error (combine a b) n = Some (x, y).
Proof. induction a as [|z a IH]; intros [|w b] [|n] x y; cbn; try discriminate; auto. now intros [= ->] [= ->]. Qed.
Lemma except_nil n : axes_except n [] = seq 0 n.
Proof. unfold axes_except. cbn. induction (seq 0 n) as [|k v IH]; cbn; congruence. Qed.
Lemma moveaxis_order_ok n src dst : NoDup src -> NoDup dst -> (forall a, In a src -> (a < n)%nat) -> (forall a, In a dst -> (a < n)%nat) -> length src = length dst ->
  exists p, moveaxis_order n src dst = Ok p /\ moved n src dst p /\ Permutation p (seq 0 n).
Proof. intros N1 N2 B1 B2 L. unfold moveaxis_order. fold (axes_except n src). set (ps := sort_by _ (combine dst src)).
  assert (P : Permutation (combine dst src) ps) by apply sort_perm.
  assert (Pf : Permutation dst (map fst ps)). { rewrite <- (combine_split_r dst src) at 1 by auto. now apply Permutation_map. }
  assert (Psn : Permutation src (map snd ps)). { rewrite <- (combine_snd dst src) at 1 by auto. now apply Permutation_map. }
  assert (I : increasing (map fst ps)).
  { apply inc_of_sorted; [|eapply Permutation_NoDup; eauto]. assert (S : StronglySorted (fun p q => (fst p <=? fst q)%nat = true) ps) by (apply sort_sorted; intros; rewrite ?Nat.leb_le in *; lia).
    clear - S. induction S as [|p ps S IH HF]; cbn; constructor; auto. rewrite Forall_forall in *. intros y Hy. apply in_map_iff in Hy as (q & <- & Hq). apply HF in Hq. now apply Nat.leb_le. }
  assert (Lp : length ps = length src). { rewrite <- (map_length snd ps). symmetry. now apply Permutation_length. }
  pose proof (except_length n src N1 B1) as Le.
  assert (B : forall a, In a (map fst ps) -> (a < length (axes_except n src) + length ps)%nat). { intros a Ha. rewrite Lp, Le. apply B2. eapply Permutation_in; [symmetry; exact Pf|auto]. }
  rewrite vec_insert_all by auto. exists (insert_all (axes_except n src) ps). split; auto.
  destruct (insert_all_ok 0%nat ps (axes_except n src) [] I B) as (E1 & _ & E3 & E4); [intros ? []|]. split.
  - split; [lia|]. split.
    + intros i Hi. apply E3. eapply Permutation_in; [exact P|]. apply (nth_error_In _ i). apply nth_error_pairs; apply nth_error_nth'; lia.
    + rewrite Lp, Le in E4. cbn [app] in E4. rewrite (axes_except_ext n dst (map fst ps)); [rewrite E4|].
      * rewrite except_nil. unfold pick. apply map_nth_seq.
      * intro k. split; apply Permutation_in; [|symmetry]; auto.
  - rewrite <- insert_all_perm, <- Psn. now apply except_perm. Qed.
Lemma moveaxis_ok l src dst vs vd s d : wf l -> lists_axes src vs -> lists_axes dst vd -> Forall2 (axis_denotes (ndim l)) vs s -> Forall2 (axis_denotes (ndim l)) vd d ->
  NoDup s -> NoDup d -> length s = length d -> exists p, moveaxis l src dst = Ok (permuted p l) /\ moved (ndim l) s d p /\ Permutation p (seq 0 (ndim l)).
Proof. intros W L1 L2 D1 D2 N1 N2 L. unfold moveaxis. rewrite (normalize_ok _ _ _ false false _ L1 D1 N1). cbn [bind]. rewrite (normalize_ok _ _ _ false false _ L2 D2 N2). cbn [bind].
  replace (length s =? length d)%nat with true by lia. cbn [check bind]. destruct (moveaxis_order_ok (ndim l) s d) as (p & E & M & P); auto; try (eapply denotes_lt; eauto).
  rewrite E. cbn [bind]. exists p. split; auto. now apply transpose_nat. Qed.

(** ** expand_dims *)
Lemma insert_valid ax : forall sh jx, increasing ax -> (forall a, In a ax -> (a < length sh + length ax)%nat) ->
  valid (insert_all sh (map (fun a => (a, 1%nat)) ax)) jx ->
  exists r, jx = insert_all r (map (fun a => (a, 0%nat)) ax) /\ valid sh r.
Proof. induction ax as [|a ax IH]; intros sh jx I B V; cbn [map insert_all] in *; [eauto|].
  assert (Ha : (a <= length sh)%nat). { pose proof (inc_bound _ I _ B a _ eq_refl) as X. cbn in X. lia. }
  apply IH in V as (r & -> & V); [|now inversion I|intros b Hb; rewrite insert_length by auto; specialize (B b ltac:(cbn; auto)); cbn in B; lia].
  assert (La : (a < length r)%nat). { apply valid_length in V. rewrite insert_length in V by auto. lia. }
  rewrite <- (insert_remove r a 0%nat La) in V. apply valid_insert in V as (L & H0 & V); auto. exists (remove_at r a). split; auto.
  pose proof (insert_remove r a 0%nat La) as E. assert (Z0 : nth a r 0%nat = 0%nat) by lia. rewrite Z0 in E. now rewrite E. Qed.
Lemma expand_fold ax : forall l, good l -> increasing ax -> (forall a, In a ax -> (a < ndim l + length ax)%nat) ->
  exists l', fold_res (fun l a => dim_insert l (Z.of_nat a)) ax l = Ok l' /\ good l' /\
    l_shape l' = insert_all (l_shape l) (map (fun a => (a, 1%nat)) ax) /\
    (forall ix, length ix = ndim l -> addr l' (insert_all ix (map (fun a => (a, 0%nat)) ax)) = addr l ix).
Proof. induction ax as [|a ax IH]; intros l G I B; cbn [fold_res map insert_all]; [eauto|].
  assert (Ha : (a <= ndim l)%nat). { pose proof (inc_bound _ I _ B a _ eq_refl) as X. cbn in X. lia. }
  destruct (insert_spec l (Z.of_nat a) a G) as (t & E & G'); [unfold insert_denotes; lia|]. rewrite E. cbn [bind].
  assert (Nd : ndim (inserted l a t) = S (ndim l)). { unfold ndim. cbn. rewrite insert_length; auto. }
  destruct (IH (inserted l a t) G') as (l' & E' & Gl & Sh & Ad); [now inversion I|intros b Hb; rewrite Nd; specialize (B b ltac:(cbn; auto)); cbn in B; lia|].
  exists l'. split; auto. split; auto. split; auto. intros ix Hi. rewrite Ad by (rewrite insert_length; lia). apply inserted_addr; auto. apply G. Qed.
Lemma insert_back {A} (d : A) x ax v : increasing ax -> (forall a, In a ax -> (a < length v + length ax)%nat) ->
  length (insert_all v (map (fun a => (a, x)) ax)) = (length v + length ax)%nat /\
  (forall a, In a ax -> nth a (insert_all v (map (fun a => (a, x)) ax)) d = x) /\
  pick (axes_except (length v + length ax) ax) d (insert_all v (map (fun a => (a, x)) ax)) = v.
Proof. intros I B. assert (M : map fst (map (fun a => (a, x)) ax) = ax) by (rewrite map_map; apply map_id).
  destruct (insert_all_ok d (map (fun a => (a, x)) ax) v []) as (E1 & _ & E3 & E4); [now rewrite M|rewrite M, map_length; auto|intros ? []|].
  rewrite map_length in *. split; auto. split.
  - intros a Ha. apply E3. apply in_map_iff. eauto.
  - rewrite M in E4. cbn [app] in E4. rewrite E4, except_nil. apply map_nth_seq. Qed.
Lemma expand_ok l axes v ax0 : good l -> lists_axes axes v -> Forall2 (axis_denotes (ndim l + length v)) v ax0 -> NoDup ax0 ->
  exists l', expand_dims l axes = Ok l' /\ good l' /\ ndim l' = (ndim l + length v)%nat /\
    (forall a, In a ax0 -> nth a (l_shape l') 0%nat = 1%nat) /\
    pick (axes_except (ndim l + length v) ax0) 0%nat (l_shape l') = l_shape l /\
    (forall jx, valid (l_shape l') jx -> valid (l_shape l) (pick (axes_except (ndim l + length v) ax0) 0%nat jx) /\
       addr l' jx = addr l (pick (axes_except (ndim l + length v) ax0) 0%nat jx)).
Proof. intros G L D N. unfold expand_dims. rewrite (as_ref_list _ _ L). cbn [bind]. rewrite (normalize_ok _ _ _ false true _ L D N). cbn [bind].
  assert (Lv : length v = length ax0) by (eapply Forall2_length; eauto). set (ax := sort_by Nat.leb ax0).
  assert (I : increasing ax) by now apply sort_inc.
  assert (La : length ax = length ax0) by apply sort_length.
  assert (B : forall a, In a ax -> (a < ndim l + length ax)%nat). { rewrite La, <- Lv. apply sort_bound. eapply denotes_lt; eauto. }
  assert (Ex : axes_except (ndim l + length v) ax0 = axes_except (length (l_shape l) + length ax) ax).
  { rewrite Lv, <- La. apply axes_except_ext. intro k. symmetry. apply sort_in. }
  destruct (expand_fold ax l G I B) as (l' & E & G' & Sh & Ad). exists l'. split; auto. split; auto.
  destruct (insert_back 0%nat 1%nat ax (l_shape l) I B) as (E1 & E2 & E3). rewrite Sh, Ex. split; [unfold ndim at 1; rewrite Sh, E1; unfold ndim; lia|].
  split; [intros a Ha; apply E2; now apply sort_in|]. split; auto. intros jx V. apply insert_valid in V as (r & -> & V); auto.
  pose proof (valid_length _ _ V) as Lr. destruct (insert_back 0%nat 0%nat ax r I) as (_ & _ & E4); [intros a Ha; unfold ndim in B; rewrite Lr; auto|].
  rewrite <- Lr at 1 2. rewrite E4. split; auto. Qed.

(** ** squeeze *)
Lemma insert_all_app {A} p1 : forall (v : list A) p2, insert_all v (p1 ++ p2) = insert_all (insert_all v p1) p2.
Proof. induction p1 as [|[a x] p1 IH]; intros v p2; cbn; auto. Qed.
Lemma inc_snoc ax a : increasing (ax ++ [a]) -> increasing ax /\ forall b, In b ax -> (b < a)%nat.
Proof. intro I. apply inc_app in I as (I1 & _ & I3). split; auto. intros b Hb. apply I3; cbn; auto. Qed.
Lemma squeeze_fold ax : forall l, good l -> increasing (rev ax) -> (forall a, In a ax -> (a < ndim l)%nat) -> (forall a, In a ax -> nth a (l_shape l) 0%nat = 1%nat) ->
  exists l', fold_res dim_eliminate (map Z.of_nat ax) l = Ok l' /\ good l' /\
    l_shape l = insert_all (l_shape l') (map (fun a => (a, 1%nat)) (rev ax)) /\ (ndim l' + length ax = ndim l)%nat /\
    (forall jx, length jx = ndim l' -> addr l (insert_all jx (map (fun a => (a, 0%nat)) (rev ax))) = addr l' jx).
Proof. induction ax as [|a ax IH]; intros l G I B U; cbn [fold_res map rev].
  - exists l. cbn. auto 10.
  - cbn [rev] in I. apply inc_snoc in I as [I1 I2]. assert (Ha : (a < ndim l)%nat) by (apply B; cbn; auto). pose proof (U a ltac:(cbn; auto)) as Ua.
    destruct (eliminate_spec l (Z.of_nat a) a G) as (E & G'); [unfold axis_denotes; lia|auto|]. rewrite E. cbn [bind].
    assert (Nd : S (ndim (chopped l a)) = ndim l). { unfold ndim, chopped in *. cbn [l_shape]. rewrite remove_length by auto. lia. }
    destruct (IH (chopped l a) G' I1) as (l' & E' & Gl & Sh & Nl & Ad).
    + intros b Hb. assert (b < a)%nat by (apply I2; rewrite <- in_rev; auto). lia.
    + intros b Hb. assert (b < a)%nat by (apply I2; rewrite <- in_rev; auto). cbn [chopped l_shape]. rewrite <- (U b) by (cbn; auto).
      unfold remove_at. rewrite app_nth1 by (rewrite firstn_length; unfold ndim in Ha; lia). now rewrite nth_firstn_lt.
    + exists l'. split; auto. split; auto. rewrite !map_app, insert_all_app, <- Sh. cbn [map insert_all chopped l_shape]. split; [|split; [cbn; lia|]].
      * rewrite <- Ua. symmetry. now apply insert_remove.
      * intros jx Hj. rewrite insert_all_app. cbn [insert_all]. rewrite <- Ad by auto. set (ix := insert_all jx _).
        assert (Li : length ix = ndim (chopped l a)). { unfold ix. destruct (insert_back 0%nat 0%nat (rev ax) jx I1) as (X & _); [|rewrite X, rev_length; lia].
          intros b Hb. assert (b < a)%nat by auto. rewrite rev_length. lia. }
        destruct G as [[W _] _]. unfold addr. cbn [chopped l_stride l_offset]. rewrite <- (insert_remove (l_stride l) a 0) at 1 by (unfold ndim in Ha; lia).
        unfold ndim in Li, Ha. cbn [chopped l_shape] in Li. rewrite remove_length in Li by auto. assert (Ls : length (remove_at (l_stride l) a) = (length (l_shape l) - 1)%nat) by (rewrite remove_length; lia).
        rewrite dot_insert; lia. Qed.
Lemma squeeze_fold_err ax : forall l, good l -> increasing (rev ax) -> (forall a, In a ax -> (a < ndim l)%nat) -> ~ (forall a, In a ax -> nth a (l_shape l) 0%nat = 1%nat) ->
  exists e, fold_res dim_eliminate (map Z.of_nat ax) l = Err e.
Proof. induction ax as [|a ax IH]; intros l G I B U; cbn [fold_res map]; [exfalso; apply U; intros ? []|].
  cbn [rev] in I. apply inc_snoc in I as [I1 I2]. assert (Ha : (a < ndim l)%nat) by (apply B; cbn; auto).
  destruct (Nat.eq_dec (nth a (l_shape l) 0%nat) 1) as [Ua|Ua].
  - destruct (eliminate_spec l (Z.of_nat a) a G) as (E & G'); [unfold axis_denotes; lia|auto|]. rewrite E. cbn [bind].
    assert (Nd : S (ndim (chopped l a)) = ndim l). { unfold ndim, chopped in *. cbn [l_shape]. rewrite remove_length by auto. lia. }
    assert (Sh : forall b, In b ax -> nth b (l_shape (chopped l a)) 0%nat = nth b (l_shape l) 0%nat).
    { intros b Hb. assert (b < a)%nat by (apply I2; rewrite <- in_rev; auto). cbn [chopped l_shape]. 
      unfold remove_at. rewrite app_nth1 by (rewrite firstn_length; unfold ndim in Ha; lia). now rewrite nth_firstn_lt. }
    apply IH; auto.
    + intros b Hb. assert (b < a)%nat by (apply I2; rewrite <- in_rev; auto). lia.
    + intro X. apply U. intros b [<-|Hb]; auto. rewrite <- Sh; auto.
  - destruct (eliminate_err l (Z.of_nat a)) as [e E]; [|rewrite E; cbn; eauto]. intros b Hb. assert (b = a) as ->; auto. unfold axis_denotes in Hb. lia. Qed.
Lemma sort_map {A B} (f : A -> B) le le' v : (forall x y, le' (f x) (f y) = le x y) -> sort_by le' (map f v) = map f (sort_by le v).
Proof. intro H. induction v as [|x v IH]; cbn; auto. unfold sort_by in IH. rewrite IH. clear IH. fold (sort_by le v). induction (sort_by le v) as [|y w IH]; cbn; auto. rewrite H. destruct (le x y); cbn; congruence. Qed.
Definition descending (ax : list nat) : list nat := sort_by (fun a b => (b <=? a)%nat) ax.
Lemma descending_sorted ax : StronglySorted (fun a b => (b <=? a)%nat = true) (descending ax).
Proof. apply sort_sorted; intros; rewrite ?Nat.leb_le in *; lia. Qed.
Lemma descending_inc ax : NoDup ax -> increasing (rev (descending ax)).
Proof. intro N. assert (N' : NoDup (descending ax)) by (eapply Permutation_NoDup; [apply sort_perm|auto]). pose proof (descending_sorted ax) as S.
  induction S as [|a d S IH HF]; cbn; [constructor|]. inversion N' as [|? ? Na Nd]; subst. apply inc_app. split; [now apply IH|]. split; [repeat constructor|].
  intros x y Hx [<-|[]]. rewrite <- in_rev in Hx. rewrite Forall_forall in HF. pose proof (HF _ Hx) as X. apply Nat.leb_le in X. assert (x <> a) by (intros ->; auto). lia. Qed.
Lemma adj_eq_nodup d : StronglySorted (fun a b => (b <=? a)%nat = true) d -> adj_eq_z (map Z.of_nat d) = false <-> NoDup d.
Proof. induction 1 as [|a d S IH HF]; [cbn; split; auto; constructor|]. destruct d as [|b d]; [cbn; split; auto; repeat constructor; auto|].
  change (adj_eq_z (map Z.of_nat (a :: b :: d))) with ((Z.of_nat a =? Z.of_nat b) || adj_eq_z (map Z.of_nat (b :: d))). rewrite orb_false_iff, IH. split.
  - intros [H1 H2]. constructor; auto. intros [<-|Ha]; [lia|]. inversion S as [|? ? _ HB]; subst. rewrite Forall_forall in *. specialize (HB _ Ha). specialize (HF b ltac:(cbn; auto)). apply Nat.leb_le in HB, HF. lia.
  - intro N. inversion N as [|? ? Na Nd]; subst. split; auto. apply Z.eqb_neq. intro E. apply Na. left. lia. Qed.
Lemma norm_axes n v ax : Forall2 (axis_denotes n) v ax -> map (fun v => if 0 <=? v then v else v + Z.of_nat n) v = map Z.of_nat ax.
Proof. induction 1 as [|a k v ax H D IH]; cbn; auto. rewrite IH. f_equal. unfold axis_denotes in H. destruct (Z.leb_spec 0 a); lia. Qed.
Lemma squeeze_list l axes v : lists_axes axes v -> squeeze l axes = squeeze l (AxVec v).
Proof. now intros []. Qed.
Lemma squeeze_axes_ok l v ax : Forall2 (axis_denotes (ndim l)) v ax ->
  squeeze_axes l (AxVec v) = if adj_eq_z (map Z.of_nat (descending ax)) then Err InvalidValue else Ok (map Z.of_nat (descending ax)).
Proof. intros D. unfold squeeze_axes. cbn [axes_as_ref bind]. rewrite (norm_axes _ _ _ D).
  rewrite (sort_map Z.of_nat (fun a b => (b <=? a)%nat)) by (intros; apply eq_iff_eq_true; lia). fold (descending ax).
  replace (match map Z.of_nat (descending ax) with [] => true | a :: _ => negb (a <? 0) end) with true by (destruct (descending ax); cbn; auto; lia).
  cbn [check bind]. now destruct (adj_eq_z _). Qed.
Lemma squeeze_ok_nat l ax : good l -> NoDup ax -> (forall a, In a ax -> (a < ndim l)%nat) -> (forall a, In a ax -> nth a (l_shape l) 0%nat = 1%nat) ->
  exists l', fold_res dim_eliminate (map Z.of_nat (descending ax)) l = Ok l' /\ good l' /\
    l_shape l' = pick (axes_except (ndim l) ax) 0%nat (l_shape l) /\
    (forall ix, valid (l_shape l) ix -> addr l' (pick (axes_except (ndim l) ax) 0%nat ix) = addr l ix).
Proof. intros G N B U. pose proof (descending_inc ax N) as I. destruct (squeeze_fold (descending ax) l G I) as (l' & E & G' & Sh & Nd & Ad).
  { intros a Ha. apply B. now apply sort_in in Ha. } { intros a Ha. apply U. now apply sort_in in Ha. }
  exists l'. split; auto. split; auto. set (r := rev (descending ax)) in *.
  assert (Lr : length r = length ax) by (unfold r, descending; now rewrite rev_length, sort_length).
  assert (Ld : length (descending ax) = length ax) by (unfold descending; now rewrite sort_length).
  assert (Br : forall a, In a r -> (a < ndim l' + length r)%nat). { intros a Ha. rewrite Lr, <- Ld, Nd. apply B. unfold r in Ha. rewrite <- in_rev in Ha. now apply sort_in in Ha. }
  assert (Ex : axes_except (ndim l) ax = axes_except (ndim l' + length r) r).
  { rewrite Lr, <- Ld, Nd. apply axes_except_ext. intro k. unfold r. rewrite <- in_rev. symmetry. apply sort_in. }
  rewrite Ex. split.
  - rewrite Sh. symmetry. now apply insert_back.
  - intros ix V. rewrite Sh in V. apply insert_valid in V as (jx & -> & V); auto. apply valid_length in V. rewrite Ad by auto.
    destruct (insert_back 0%nat 0%nat r jx I) as (_ & _ & X); [intros a Ha; rewrite V; auto|]. unfold ndim. rewrite <- V. now rewrite X. Qed.
Lemma squeeze_ok l axes v ax : good l -> lists_axes axes v -> Forall2 (axis_denotes (ndim l)) v ax -> NoDup ax -> (forall a, In a ax -> nth a (l_shape l) 0%nat = 1%nat) ->
  exists l', squeeze l axes = Ok l' /\ good l' /\
    l_shape l' = pick (axes_except (ndim l) ax) 0%nat (l_shape l) /\
    (forall ix, valid (l_shape l) ix -> addr l' (pick (axes_except (ndim l) ax) 0%nat ix) = addr l ix).
Proof. intros G L D N U. rewrite (squeeze_list _ _ _ L). unfold squeeze. rewrite (squeeze_axes_ok _ _ _ D).
  rewrite (proj2 (adj_eq_nodup _ (descending_sorted ax))) by (eapply Permutation_NoDup; [apply sort_perm|auto]). cbn [bind]. apply squeeze_ok_nat; auto. eapply denotes_lt; eauto. Qed.
Lemma inc_eq a : forall b, increasing a -> increasing b -> Permutation a b -> a = b.
Proof. induction a as [|x a IH]; intros b Ia Ib P; [now apply Permutation_nil in P|]. destruct b as [|y b]; [symmetry in P; now apply Permutation_nil in P|].
  inversion Ia as [|? ? Ia' Fa]; inversion Ib as [|? ? Ib' Fb]; subst. rewrite Forall_forall in *. assert (x = y) as ->.
  { assert (X : In x (y :: b)) by (eapply Permutation_in; [exact P|now left]). assert (Y : In y (x :: a)) by (eapply Permutation_in; [symmetry; exact P|now left]).
    destruct X as [X|X]; auto. destruct Y as [Y|Y]; auto. apply Fa in Y. apply Fb in X. lia. }
  f_equal. apply IH; auto. eapply Permutation_cons_inv; eauto. Qed.
Lemma squeeze_all_ok l : good l -> let ax := filter (fun a => (nth a (l_shape l) 0 =? 1)%nat) (seq 0 (ndim l)) in
  exists l', squeeze l AxNone = Ok l' /\ good l' /\
    l_shape l' = pick (axes_except (ndim l) ax) 0%nat (l_shape l) /\
    (forall ix, valid (l_shape l) ix -> addr l' (pick (axes_except (ndim l) ax) 0%nat ix) = addr l ix).
Proof. intros G ax. unfold squeeze, squeeze_axes. cbn [bind]. fold ax. assert (N : NoDup ax) by (apply NoDup_filter, seq_NoDup).
  replace (rev ax) with (descending ax); [apply squeeze_ok_nat; auto|].
  - intros a Ha. apply filter_In in Ha as [Ha _]. apply in_seq in Ha. lia.
  - intros a Ha. apply filter_In in Ha as [_ Ha]. lia.
  - rewrite <- (rev_involutive (descending ax)). f_equal. assert (I2 : increasing ax).
    { apply inc_of_sorted; auto. unfold ax. assert (S : forall m n, StronglySorted Nat.le (filter (fun a => (nth a (l_shape l) 0 =? 1)%nat) (seq m n))).
      { intros m n; revert m; induction n as [|n IH]; intro m; cbn; [constructor|]. destruct (_ =? 1)%nat; auto. constructor; auto. apply Forall_forall. intros y Hy. apply filter_In in Hy as [Hy _]. apply in_seq in Hy. lia. } auto. }
    apply inc_eq; auto. { now apply descending_inc. } rewrite <- Permutation_rev. symmetry. apply sort_perm. Qed.
