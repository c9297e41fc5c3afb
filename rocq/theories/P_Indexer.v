(** Proofs about M_Indexer. *)
From Verif Require Import Base Spec P_Index P_List M_Layout P_Layout P_Bounds P_Contig P_Strides M_Indexer.
Local Open Scope Z_scope.

(** ** positions inside lists *)
Lemma split_nth {A} (l : list A) a d : (a < length l)%nat -> l = firstn a l ++ nth a l d :: skipn (S a) l.
Proof. revert a; induction l as [|x l IH]; intros [|a] H; cbn in *; try lia; auto. f_equal. apply IH. lia. Qed.
Lemma upd_split {A} (l : list A) a v : (a < length l)%nat -> upd l a v = firstn a l ++ v :: skipn (S a) l.
Proof. revert a; induction l as [|x l IH]; intros [|a] H; cbn in *; try lia; auto. f_equal. apply IH. lia. Qed.
Lemma firstn_len {A} (l : list A) a : (a <= length l)%nat -> length (firstn a l) = a.
Proof. intro. rewrite firstn_length. lia. Qed.
Lemma combine_skipn {A B} (a : list A) (b : list B) n : skipn n (combine a b) = combine (skipn n a) (skipn n b).
Proof. revert a b; induction n; intros [|x a] [|y b]; cbn; auto. now destruct (skipn n a). Qed.
Lemma combine_upd {A B} (a : list A) (b : list B) k x y : length a = length b ->
  combine (upd a k x) (upd b k y) = upd (combine a b) k (x, y).
Proof. revert b k; induction a as [|u a IH]; intros [|v b] k H; try discriminate; [now destruct k|].
  destruct k; cbn; auto. f_equal. apply IH. cbn in H; lia. Qed.
Lemma upd_same {A} (l : list A) a d : upd l a (nth a l d) = l.
Proof. revert a; induction l as [|x l IH]; intros [|a]; cbn; auto. now rewrite IH. Qed.
Lemma nth_upd_same {A} (l : list A) a v d : (a < length l)%nat -> nth a (upd l a v) d = v.
Proof. intro H. rewrite nth_upd, Nat.eqb_refl. destruct (Nat.ltb_spec a (length l)); [auto|lia]. Qed.
Lemma upd_upd {A} (l : list A) a v w : upd (upd l a v) a w = upd l a w.
Proof. revert a; induction l as [|x l IH]; intros [|a]; cbn; auto. now rewrite IH. Qed.

Lemma dot_upd_l st ix a t : (a < length st)%nat -> length st = length ix ->
  dot (upd st a t) ix = dot st ix + (t - nth a st 0) * Z.of_nat (nth a ix 0%nat).
Proof. revert ix a; induction st as [|u st IH]; intros [|i ix] [|a] Ha Hl; cbn in *; try lia. rewrite IH by lia. lia. Qed.
Lemma dot_upd_r st ix a i : (a < length st)%nat -> length st = length ix ->
  dot st (upd ix a i) = dot st ix + nth a st 0 * (Z.of_nat i - Z.of_nat (nth a ix 0%nat)).
Proof. revert ix a; induction st as [|u st IH]; intros [|j ix] [|a] Ha Hl; cbn in *; try lia. rewrite IH by lia. lia. Qed.
Lemma valid_upd s ix a d i : (a < length s)%nat -> valid (upd s a d) ix -> (i < nth a s 0)%nat -> valid s (upd ix a i).
Proof. intros Ha Hv Hi. apply valid_nth in Hv. rewrite upd_length in Hv. destruct Hv as [Hl Hv]. apply valid_nth. rewrite upd_length.
  split; auto. intros k Hk. specialize (Hv k Hk). rewrite nth_upd in *. rewrite Hl.
  replace (k <? length s)%nat with true in * by lia. rewrite andb_true_r in *. destruct (Nat.eqb_spec a k); subst; auto. Qed.
Lemma valid_upd_inv s ix a d i : (a < length s)%nat -> valid s ix -> (i < d)%nat -> valid (upd s a d) (upd ix a i).
Proof. intros Ha Hv Hi. apply valid_nth in Hv. destruct Hv as [Hl Hv]. apply valid_nth. rewrite !upd_length.
  split; auto. intros k Hk. specialize (Hv k Hk). rewrite !nth_upd. rewrite Hl.
  replace (k <? length s)%nat with true in * by lia. rewrite andb_true_r in *. destruct (Nat.eqb_spec a k); subst; auto. Qed.
Lemma size_upd_zero s a : (a < length s)%nat -> size (upd s a 0%nat) = 0%nat.
Proof. intro H. apply size_in_zero. apply nth_error_In with (n := a). now apply nth_error_upd_eq. Qed.
Lemma size_upd_pos s a d : (a < length s)%nat -> size (upd s a d) <> 0%nat -> (nth a s 0 <> 0)%nat -> size s <> 0%nat.
Proof. intros Ha Hs Hd. apply size_pos_forall in Hs. apply size_pos_forall. rewrite Forall_forall in *. intros x Hx.
  apply In_nth with (d := 0%nat) in Hx. destruct Hx as (k & Hk & <-). destruct (Nat.eq_dec k a) as [->|Hne]; [lia|].
  specialize (Hs (nth k (upd s a d) 0%nat)). rewrite nth_upd in Hs. replace (a =? k)%nat with false in Hs by lia. apply Hs.
  assert (H0 : nth k s 0%nat = nth k (upd s a d) 0%nat) by (rewrite nth_upd; replace (a =? k)%nat with false by lia; auto).
  cbn [andb]. rewrite H0. apply nth_In. now rewrite upd_length. Qed.

(** ** narrowing, generic part *)
Definition narrowed (l : layout) (a n : nat) (start step : Z) : layout :=
  mkLayout (upd (l_shape l) a n) (upd (l_stride l) a (nth a (l_stride l) 0 * step)) (l_offset l + nth a (l_stride l) 0 * start).
Lemma narrowed_addr l a n start step jx : length (l_stride l) = length (l_shape l) -> (a < ndim l)%nat ->
  valid (upd (l_shape l) a n) jx ->
  let i := start + Z.of_nat (nth a jx 0%nat) * step in
  0 <= i -> addr (narrowed l a n start step) jx = addr l (upd jx a (Z.to_nat i)).
Proof. intros Hl Ha Hv i Hi. unfold addr, narrowed, ndim in *. cbn [l_offset l_stride]. apply valid_length in Hv. rewrite upd_length in Hv.
  rewrite dot_upd_l, dot_upd_r by congruence. rewrite Z2Nat.id by auto. unfold i. ring. Qed.
Lemma narrowed_good l a n start step : good l -> (a < ndim l)%nat ->
  (forall k, (k < n)%nat -> 0 <= start + Z.of_nat k * step < Z.of_nat (nth a (l_shape l) 0%nat)) -> step <> 0 ->
  good (narrowed l a n start step) /\ layout_new (l_shape (narrowed l a n start step)) (l_stride (narrowed l a n start step)) (l_offset (narrowed l a n start step)) = Ok (narrowed l a n start step).
Proof. intros Hg Ha Hk Hst. assert (G : good (narrowed l a n start step)).
  { pose proof Hg as [[Hl Ho] _]. apply good_intro; cbn [narrowed l_shape l_stride]; [now rewrite !upd_length|].
    intro Hs. unfold ndim in Ha.
    destruct (Nat.eq_dec n 0) as [->|Hn]; [rewrite size_upd_zero in Hs by auto; congruence|].
    assert (Hs0 : size (l_shape l) <> 0%nat). { eapply size_upd_pos; eauto. specialize (Hk 0%nat). lia. }
    destruct (good_elim l Hg Hs0) as (_ & Ho' & Hnn & Hc). split.
    - intros jx Hv. cbn [narrowed l_shape] in Hv. pose proof Hv as Hv'. apply valid_nth in Hv'. destruct Hv' as [_ Hv'].
      specialize (Hv' a). rewrite upd_length, nth_upd_same in Hv' by auto. specialize (Hv' Ha). 
      specialize (Hk _ Hv'). rewrite narrowed_addr; auto; [|lia]. apply Hnn. apply valid_upd with (d := n); auto. lia.
    - rewrite combine_upd by auto. rewrite upd_split by (rewrite combine_length; lia).
      set (t := nth a (l_stride l) 0) in *. set (d := nth a (l_shape l) 0%nat) in *.
      rewrite (split_nth (combine (l_shape l) (l_stride l)) a (0%nat, 0)) in Hc by (rewrite combine_length; lia).
      rewrite nth_combine in Hc by auto. fold t d in Hc. eapply chk_shrink; [|exact Hc].
      destruct (Nat.le_gt_cases n 1); [auto|]. right. destruct (Z.eq_dec t 0) as [Et|Et]; [left; rewrite Et; lia|]. right.
      pose proof (Hk 0%nat ltac:(lia)) as K0. pose proof (Hk (n - 1)%nat ltac:(lia)) as K1.
      assert (Hsp : (Z.of_nat n - 1) * Z.abs step <= Z.of_nat d - 1).
      { replace (Z.of_nat (n - 1)) with (Z.of_nat n - 1) in K1 by lia. destruct (Z.abs_spec step) as [[_ ->]|[_ ->]]; lia. }
      split; [lia|]. rewrite Z.abs_mul. split; [nia|]. split; [|auto].
      rewrite (Z.mul_comm (Z.abs t)), Z.mul_assoc. apply Z.mul_le_mono_nonneg_r; lia. }
  split; auto. apply layout_new_good. destruct (narrowed l a n start step); exact G. Qed.

(** ** Python slices *)
Lemma SS_unique {A} (R : A -> A -> Prop) p q : (forall x, ~ R x x) -> (forall x y, R x y -> R y x -> False) ->
  StronglySorted R p -> StronglySorted R q -> (forall x, In x p <-> In x q) -> p = q.
Proof. intros Hi Has Hp. revert q; induction Hp as [|x p Hp IH Hx]; intros q Hq E.
  - destruct q; auto. exfalso. apply (proj2 (E a)). now left.
  - destruct q as [|y q]; [exfalso; apply (proj1 (E x)); now left|]. inversion Hq; subst. rewrite Forall_forall in *.
    assert (x = y). { destruct (proj1 (E x) (or_introl eq_refl)) as [|I1]; auto. destruct (proj2 (E y) (or_introl eq_refl)) as [|I2]; auto.
      exfalso. eapply Has; [apply (Hx y I2)|apply (H2 x I1)]. }
    subst y. f_equal. apply IH; auto. intro z. specialize (E z). cbn in E. split; intro I.
    + destruct (proj1 E (or_intror I)) as [->|]; auto. exfalso. apply (Hi z), Hx, I.
    + destruct (proj2 E (or_intror I)) as [->|]; auto. exfalso. apply (Hi z), H2, I. Qed.
Lemma SS_seq_map (f : nat -> Z) (R : Z -> Z -> Prop) a n : (forall i j, (i < j)%nat -> R (f i) (f j)) -> StronglySorted R (map f (seq a n)).
Proof. intro H. revert a; induction n; intro a; cbn; constructor; auto. apply Forall_forall. intros x Hx.
  apply in_map_iff in Hx. destruct Hx as (k & <- & Hk). apply in_seq in Hk. apply H. lia. Qed.
Lemma SS_rev {A} (R : A -> A -> Prop) l : StronglySorted R l -> StronglySorted (fun x y => R y x) (rev l).
Proof. induction 1; cbn; [constructor|]. 
  assert (G : forall p, StronglySorted (fun x y => R y x) p -> Forall (fun y => R a y) p -> StronglySorted (fun x y => R y x) (p ++ [a])).
  { clear. induction 1; intro F; cbn; [repeat constructor|]. inversion F; subst. constructor; auto. apply Forall_app. split; auto. }
  apply G; auto. apply Forall_forall. intros y Hy. apply in_rev in Hy. rewrite Forall_forall in H0. auto. Qed.
Lemma in_positions i len : In i (map Z.of_nat (seq 0 len)) <-> 0 <= i < Z.of_nat len.
Proof. rewrite in_map_iff. split. - intros (k & <- & Hk). apply in_seq in Hk. lia.
  - intro H. exists (Z.to_nat i). rewrite in_seq. lia. Qed.
Lemma in_progression i b step n : In i (map (fun k => b + Z.of_nat k * step) (seq 0 n)) <-> exists k, (k < n)%nat /\ i = b + Z.of_nat k * step.
Proof. rewrite in_map_iff. split. - intros (k & <- & Hk). apply in_seq in Hk. exists k. lia.
  - intros (k & Hk & ->). exists k. rewrite in_seq. lia. Qed.

Lemma count_pos b e step (k : nat) : 0 < step -> b <= e ->
  (k < Z.to_nat (Z.max (Z.quot (e - b + step - 1) step) 0))%nat <-> b + Z.of_nat k * step < e.
Proof. intros Hs Hbe. rewrite Z.quot_div_nonneg by lia. set (q := (e - b + step - 1) / step).
  assert (Hq : step * q <= e - b + step - 1 < step * q + step).
  { unfold q. pose proof (Z.div_mod (e - b + step - 1) step ltac:(lia)). pose proof (Z.mod_pos_bound (e - b + step - 1) step Hs). lia. }
  clearbody q. rewrite <- Nat2Z.inj_lt || idtac. split; intro H.
  - assert (Z.of_nat k < q) by lia. nia.
  - assert (Z.of_nat k < q); [|lia]. nia. Qed.
Lemma count_neg b e step (k : nat) : step < 0 -> e <= b ->
  (k < Z.to_nat (Z.max (Z.quot (e - b + step + 1) step) 0))%nat <-> e < b + Z.of_nat k * step.
Proof. intros Hs Hbe. rewrite <- (Z.quot_opp_opp _ step) by lia.
  replace (- (e - b + step + 1)) with (b - e + (- step) - 1) by lia.
  rewrite (count_pos e b (- step) k) by lia. lia. Qed.

Lemma narrow_pos_spec len start stop step : 0 < step -> (0 < len)%nat ->
  let (b, e) := narrow_pos (Z.of_nat len) start stop in
  b <= e /\ 0 <= b /\ e <= Z.of_nat len /\
  py_slice start stop step len = map (fun k => b + Z.of_nat k * step) (seq 0 (Z.to_nat (Z.max (Z.quot (e - b + step - 1) step) 0))).
Proof. intros Hs Hlen. destruct (narrow_pos (Z.of_nat len) start stop) as [b e] eqn:E.
  assert (B : b <= e /\ 0 <= b /\ e <= Z.of_nat len).
  { unfold narrow_pos in E. set (s1 := unwrap_or start 0) in *. set (s2 := unwrap_or stop (Z.of_nat len)) in *.
    clearbody s1 s2. destruct (s1 <? 0) eqn:E1, (s2 <? 0) eqn:E2;
    match type of E with (if ?c then _ else _) = _ => destruct c eqn:E3 end;
    try (injection E as <- <-; lia);
    match type of E with (if ?c then _ else _) = _ => destruct c eqn:E4 end; injection E as <- <-; lia. }
  split; [apply B|]. split; [apply B|]. split; [apply B|].
  apply (SS_unique Z.lt); try (intros; lia).
  - unfold py_slice. replace (0 <? step) with true by lia. apply SS_filter. apply SS_seq_map. lia.
  - apply SS_seq_map. intros; nia.
  - intro i. rewrite in_progression. unfold py_slice. replace (0 <? step) with true by lia.
    rewrite filter_In, in_positions. rewrite !andb_true_iff.
    set (pb := match start with Some x => py_adjust x (Z.of_nat len) 0 (Z.of_nat len) | None => 0 end).
    set (pe := match stop with Some x => py_adjust x (Z.of_nat len) 0 (Z.of_nat len) | None => Z.of_nat len end).
    assert (C : (pb = b /\ pe = e) \/ (b = 0 /\ e = 0 /\ pe <= pb)).
    { unfold narrow_pos in E. unfold pb, pe, py_adjust. destruct start as [s1|], stop as [s2|]; cbn [unwrap_or] in E;
      repeat match goal with |- context [if ?c then _ else _] => destruct c eqn:? end; 
      repeat match type of E with context [if ?c then _ else _] => lazymatch c with context [if _ then _ else _] => fail | _ => destruct c eqn:? end end;
      injection E as <- <-; lia. }
    clearbody pb pe. clear E. split.
    + intros [Hi [[H1 H2] H3]]. assert (pb = b /\ pe = e) as [-> ->] by lia. apply Z.eqb_eq in H3.
      pose proof (Z.div_mod (i - b) step ltac:(lia)) as D. rewrite H3 in D. set (q := (i - b) / step) in *.
      assert (0 <= q) by nia. exists (Z.to_nat q). assert (i = b + Z.of_nat (Z.to_nat q) * step) by (rewrite Z2Nat.id by lia; lia).
      split; auto. apply count_pos; lia.
    + intros (k & Hk & ->). apply count_pos in Hk; try lia. assert (pb = b /\ pe = e) as [-> ->] by nia.
      split; [nia|]. split; [split; nia|]. apply Z.eqb_eq. replace (b + Z.of_nat k * step - b) with (Z.of_nat k * step) by lia. apply Z.mod_mul. lia. Qed.

Lemma narrow_neg_spec len start stop step : step < 0 -> (0 < len)%nat -> stop <> Some (-1) -> (forall b, start = Some b -> - Z.of_nat len <= b) ->
  let (b, e) := narrow_neg (Z.of_nat len) start stop in
  e <= b /\ b < Z.of_nat len /\ -1 <= e /\ 0 <= b /\
  py_slice start stop step len = map (fun k => b + Z.of_nat k * step) (seq 0 (Z.to_nat (Z.max (Z.quot (e - b + step + 1) step) 0))).
Proof. intros Hs Hlen Hstop Hstart. destruct (narrow_neg (Z.of_nat len) start stop) as [b e] eqn:E.
  assert (B : e <= b /\ b < Z.of_nat len /\ -1 <= e /\ 0 <= b).
  { unfold narrow_neg in E. set (s1 := unwrap_or start (Z.of_nat len - 1)) in *. set (s2 := unwrap_or stop (-1)) in *.
    clearbody s1 s2. destruct (s1 <? 0) eqn:E1, (s2 <? -1) eqn:E2;
    match type of E with (if ?c then _ else _) = _ => destruct c eqn:E3 end;
    try (injection E as <- <-; lia);
    match type of E with (if ?c then _ else _) = _ => destruct c eqn:E4 end; injection E as <- <-; lia. }
  split; [apply B|]. split; [apply B|]. split; [apply B|]. split; [apply B|].
  apply (SS_unique Z.gt); try (intros; lia).
  - unfold py_slice. replace (0 <? step) with false by lia. apply SS_filter.
    pose proof (SS_rev Z.lt (map Z.of_nat (seq 0 len)) ltac:(apply SS_seq_map; lia)) as H.
    clear - H. induction H; constructor; auto. eapply Forall_impl; [|exact H0]. cbn. intros; lia.
  - apply SS_seq_map. intros; nia.
  - intro i. rewrite in_progression. unfold py_slice. replace (0 <? step) with false by lia.
    rewrite filter_In, <- in_rev, in_positions. rewrite !andb_true_iff.
    set (pb := match start with Some x => py_adjust x (Z.of_nat len) (-1) (Z.of_nat len - 1) | None => Z.of_nat len - 1 end).
    set (pe := match stop with Some x => py_adjust x (Z.of_nat len) (-1) (Z.of_nat len - 1) | None => -1 end).
    assert (C : (pb = b /\ pe = e) \/ (b = 0 /\ e = 0 /\ pb <= pe)).
    { unfold narrow_neg in E. unfold pb, pe, py_adjust. destruct start as [s1|], stop as [s2|]; cbn [unwrap_or] in E;
      try (specialize (Hstart _ eq_refl)); try (assert (s2 <> -1) by congruence);
      repeat match goal with |- context [if ?c then _ else _] => destruct c eqn:? end; 
      repeat match type of E with context [if ?c then _ else _] => lazymatch c with context [if _ then _ else _] => fail | _ => destruct c eqn:? end end;
      injection E as <- <-; lia. }
    clearbody pb pe. clear E. split.
    + intros [Hi [[H1 H2] H3]]. assert (pb = b /\ pe = e) as [-> ->] by lia. apply Z.eqb_eq in H3.
      pose proof (Z.div_mod (b - i) (- step) ltac:(lia)) as D. rewrite H3 in D. set (q := (b - i) / (- step)) in *.
      assert (0 <= q) by nia. exists (Z.to_nat q). assert (i = b + Z.of_nat (Z.to_nat q) * step) by (rewrite Z2Nat.id by lia; lia).
      split; auto. apply count_neg; lia.
    + intros (k & Hk & ->). apply count_neg in Hk; try lia. assert (pb = b /\ pe = e) as [-> ->] by nia.
      split; [nia|]. split; [split; nia|]. apply Z.eqb_eq. replace (b - (b + Z.of_nat k * step)) with (Z.of_nat k * - step) by lia. apply Z.mod_mul. lia. Qed.

Lemma py_slice_range start stop step len i : In i (py_slice start stop step len) -> 0 <= i < Z.of_nat len.
Proof. unfold py_slice. destruct (0 <? step); rewrite filter_In, <- ?in_rev, in_positions; tauto. Qed.
Lemma filter_all {A} (f : A -> bool) l : (forall x, In x l -> f x = true) -> filter f l = l.
Proof. induction l as [|x l IH]; intro H; cbn; auto. rewrite H by now left. rewrite IH; auto. intros; apply H; now right. Qed.
Lemma py_slice_full len : py_slice None None 1 len = map Z.of_nat (seq 0 len).
Proof. unfold py_slice. change (0 <? 1) with true. cbv iota. apply filter_all. intros i Hi. apply in_positions in Hi. rewrite Z.mod_1_r. lia. Qed.
Lemma py_slice_zero start stop step : py_slice start stop step 0 = [].
Proof. unfold py_slice. now destruct (0 <? step). Qed.
Lemma slice_is_full_spec s : slice_is_full s = true <-> s = mkSlice None None None.
Proof. destruct s as [[] [] []]; cbn; split; congruence. Qed.

(** [dim_narrow] always yields a progression of in-range positions ... *)
Lemma narrow_any l axis a s : good l -> axis_denotes (ndim l) axis a -> unwrap_or (sl_step s) 1 <> 0 ->
  exists n b t, dim_narrow l axis s = Ok (narrowed l a n b t) /\ t <> 0 /\
    (forall k, (k < n)%nat -> 0 <= b + Z.of_nat k * t < Z.of_nat (nth a (l_shape l) 0%nat)) /\
    (plain_slice s (nth a (l_shape l) 0%nat) -> slice_positions s (nth a (l_shape l) 0%nat) = map (fun k => b + Z.of_nat k * t) (seq 0 n)).
Proof. intros Hg Hd Hst. pose proof Hd as Hd'. apply check_axis_spec in Hd. pose proof (proj1 Hd') as Ha. unfold dim_narrow. rewrite Hd. cbn [bind].
  assert (Same : forall l', l' = l -> exists n b t, Ok l' = Ok (narrowed l a n b t) /\ n = nth a (l_shape l) 0%nat /\ b = 0 /\ t = 1).
  { intros l' ->. exists (nth a (l_shape l) 0%nat), 0, 1. split; auto. f_equal. unfold narrowed. rewrite upd_same.
    replace (nth a (l_stride l) 0 * 1) with (nth a (l_stride l) 0) by lia. rewrite upd_same. destruct l; cbn. f_equal. lia. }
  destruct (slice_is_full s) eqn:Ef.
  - apply slice_is_full_spec in Ef. subst s. destruct (Same l eq_refl) as (n & b & t & E & -> & -> & ->). do 3 eexists. split; [exact E|].
    split; [lia|]. split; [intros; lia|]. intros _. unfold slice_positions. cbn [sl_start sl_stop sl_step unwrap_or]. rewrite py_slice_full.
    apply map_ext. intro; lia.
  - set (step := unwrap_or (sl_step s) 1) in *. set (len := nth a (l_shape l) 0%nat) in *.
    replace (step =? 0) with false by lia. destruct (Z.eqb_spec (Z.of_nat len) 0) as [E0|E0].
    + destruct (Same l eq_refl) as (n & b & t & E & -> & -> & ->). do 3 eexists. split; [exact E|]. fold len.
      split; [lia|]. split; [intros; lia|]. intros _. replace len with 0%nat by lia. cbn. apply py_slice_zero.
    + destruct (Z.gtb_spec step 0).
      * pose proof (narrow_pos_spec len (sl_start s) (sl_stop s) step ltac:(lia) ltac:(lia)) as N.
        destruct (narrow_pos (Z.of_nat len) (sl_start s) (sl_stop s)) as [b e]. destruct N as (N1 & N2 & N3 & N4).
        set (n := Z.to_nat (Z.max (Z.quot (e - b + step - 1) step) 0)) in *. exists n, b, step.
        assert (K : forall k, (k < n)%nat -> 0 <= b + Z.of_nat k * step < Z.of_nat len).
        { intros k Hk. apply count_pos in Hk; nia. }
        split; [|split; [auto|split; auto]]. apply (narrowed_good l a n b step Hg Ha K Hst).
      * assert (Hneg : step < 0) by lia.
        destruct (narrow_neg (Z.of_nat len) (sl_start s) (sl_stop s)) as [b e] eqn:E.
        assert (B : e <= b /\ b < Z.of_nat len /\ -1 <= e /\ 0 <= b).
        { clear - E E0. unfold narrow_neg in E. set (s1 := unwrap_or (sl_start s) (Z.of_nat len - 1)) in *. set (s2 := unwrap_or (sl_stop s) (-1)) in *.
          clearbody s1 s2. destruct (s1 <? 0) eqn:E1, (s2 <? -1) eqn:E2;
          match type of E with (if ?c then _ else _) = _ => destruct c eqn:E3 end;
          try (injection E as <- <-; lia);
          match type of E with (if ?c then _ else _) = _ => destruct c eqn:E4 end; injection E as <- <-; lia. }
        set (n := Z.to_nat (Z.max (Z.quot (e - b + step + 1) step) 0)) in *. exists n, b, step.
        assert (K : forall k, (k < n)%nat -> 0 <= b + Z.of_nat k * step < Z.of_nat len).
        { intros k Hk. apply count_neg in Hk; nia. }
        split; [|split; [auto|split; auto]]. { apply (narrowed_good l a n b step Hg Ha K Hst). }
        intro Hp. destruct (Hp Hneg) as [P1 P2]. pose proof (narrow_neg_spec len (sl_start s) (sl_stop s) step Hneg ltac:(lia) P1 P2) as N.
        rewrite E in N. apply N. Qed.
Lemma narrow_step0 l axis s : unwrap_or (sl_step s) 1 = 0 -> exists e, dim_narrow l axis s = Err e.
Proof. intro H. unfold dim_narrow. destruct (check_axis axis (ndim l)) as [a|e|] eqn:E; cbn [bind]; [|eauto|now apply check_axis_nopanic in E].
  destruct (slice_is_full s) eqn:F; [apply slice_is_full_spec in F; subst; discriminate|]. cbv zeta. rewrite H. cbn [Z.eqb]. eauto. Qed.
Lemma narrow_bad_axis l axis s : (forall a, ~ axis_denotes (ndim l) axis a) -> exists e, dim_narrow l axis s = Err e.
Proof. intro H. unfold dim_narrow. destruct (check_axis axis (ndim l)) as [a|e|] eqn:E; cbn [bind]; [|eauto|now apply check_axis_nopanic in E].
  apply check_axis_spec in E. now apply H in E. Qed.

(** ** single-position selection, elimination, insertion *)
Lemma remove_app {A} (a : list A) x b : remove_at (a ++ x :: b) (length a) = a ++ b.
Proof. unfold remove_at. induction a as [|y a IH]; [reflexivity|]. cbn [app length firstn skipn]. f_equal. exact IH. Qed.
Lemma remove_length {A} (l : list A) a : (a < length l)%nat -> length (remove_at l a) = (length l - 1)%nat.
Proof. intro. unfold remove_at. rewrite app_length, firstn_length, skipn_length. lia. Qed.
Lemma insert_length {A} (l : list A) a x : (a <= length l)%nat -> length (insert_at l a x) = S (length l).
Proof. intro. unfold insert_at. rewrite app_length. cbn. rewrite firstn_length, skipn_length. lia. Qed.
Lemma combine_remove {A B} (p : list A) (q : list B) a : combine (remove_at p a) (remove_at q a) = remove_at (combine p q) a \/ length p <> length q.
Proof. destruct (Nat.eq_dec (length p) (length q)); auto. left. unfold remove_at. rewrite combine_app, combine_firstn', combine_skipn; auto.
  rewrite !firstn_length. lia. Qed.
Lemma dot_insert st ix a t i : length st = length ix -> (a <= length st)%nat ->
  dot (insert_at st a t) (insert_at ix a i) = dot st ix + t * Z.of_nat i.
Proof. intros Hl Ha. unfold insert_at. rewrite dot_app by (rewrite !firstn_length; lia). cbn [dot].
  rewrite <- (firstn_skipn a st) at 3. rewrite <- (firstn_skipn a ix) at 3. rewrite dot_app by (rewrite !firstn_length; lia). lia. Qed.
Lemma insert_remove {A} (l : list A) a d : (a < length l)%nat -> insert_at (remove_at l a) a (nth a l d) = l.
Proof. unfold insert_at, remove_at. revert a; induction l as [|x l IH]; intros [|a] H; cbn in H; try lia; [reflexivity|].
  cbn [app firstn skipn nth] in *. f_equal. apply IH. lia. Qed.
Lemma remove_insert {A} (l : list A) a x : (a <= length l)%nat -> remove_at (insert_at l a x) a = l.
Proof. intro H. unfold insert_at. rewrite <- (firstn_len l a H) at 3. rewrite remove_app. apply firstn_skipn. Qed.
Lemma valid_insert sh ix a d i : (a <= length sh)%nat -> valid (insert_at sh a d) (insert_at ix a i) <-> length ix = length sh /\ (i < d)%nat /\ valid sh ix.
Proof. intro Ha. split.
  - intro H. assert (length ix = length sh).
    { pose proof H as Hl. apply valid_length in Hl. unfold insert_at in Hl. rewrite !app_length in Hl. cbn in Hl. rewrite !firstn_length, !skipn_length in Hl. lia. }
    split; auto. unfold insert_at in H. apply valid_app in H; [|rewrite !firstn_length; lia]. destruct H as [H1 H2].
    apply valid_cons in H2. destruct H2 as [H2 H3]. split; auto. rewrite <- (firstn_skipn a sh), <- (firstn_skipn a ix). apply valid_app; auto.
    rewrite !firstn_length; lia.
  - intros (Hl & Hi & Hv). unfold insert_at. rewrite <- (firstn_skipn a sh), <- (firstn_skipn a ix) in Hv. apply valid_app in Hv; [|rewrite !firstn_length; lia].
    apply valid_app; [rewrite !firstn_length; lia|]. split; [apply Hv|]. apply valid_cons. tauto. Qed.
Lemma size_remove sh a : (a < length sh)%nat -> size sh = (nth a sh 0%nat * size (remove_at sh a))%nat.
Proof. intro H. rewrite (split_nth sh a 0%nat H) at 1. unfold remove_at. rewrite !size_app, size_cons. lia. Qed.

Definition selected (l : layout) (a : nat) (k : Z) : layout :=
  mkLayout (remove_at (l_shape l) a) (remove_at (l_stride l) a) (l_offset l + nth a (l_stride l) 0 * k).
Lemma selected_addr l a k jx : length (l_stride l) = length (l_shape l) -> (a < ndim l)%nat -> 
  length jx = (ndim l - 1)%nat -> addr (selected l a (Z.of_nat k)) jx = addr l (insert_at jx a k).
Proof. intros Hl Ha Hj. unfold addr, selected, ndim in *. cbn [l_offset l_stride].
  rewrite <- (insert_remove (l_stride l) a 0) at 3 by lia. rewrite dot_insert; [lia| |]; rewrite remove_length by lia; lia. Qed.
Lemma selected_good l a k : good l -> (a < ndim l)%nat -> (k < nth a (l_shape l) 0)%nat -> good (selected l a (Z.of_nat k)).
Proof. intros Hg Ha Hk. pose proof Hg as [[Hl Ho] _]. unfold ndim in Ha.
  apply good_intro; cbn [selected l_shape l_stride]; [rewrite !remove_length; lia|].
  intro Hs. assert (Hs0 : size (l_shape l) <> 0%nat). { rewrite (size_remove _ a Ha). nia. }
  destruct (good_elim l Hg Hs0) as (_ & Ho' & Hnn & Hc). split.
  - intros jx Hv. cbn [selected l_shape] in Hv. pose proof (valid_length _ _ Hv) as Hj. rewrite remove_length in Hj by auto.
    rewrite selected_addr; auto. apply Hnn. rewrite <- (insert_remove (l_shape l) a 0%nat) by auto. apply valid_insert; [rewrite remove_length; lia|].
    rewrite remove_length by lia. split; auto.
  - destruct (combine_remove (l_shape l) (l_stride l) a) as [->|]; [|congruence].
    rewrite (split_nth (combine (l_shape l) (l_stride l)) a (0%nat,0)) in Hc by (rewrite combine_length; lia). eapply chk_remove; eauto. Qed.
Lemma layout_new_good' l : good l -> layout_new (l_shape l) (l_stride l) (l_offset l) = Ok l.
Proof. intro H. destruct l. now apply layout_new_good. Qed.

Lemma select_spec l axis a i k : good l -> axis_denotes (ndim l) axis a -> index_denotes i (nth a (l_shape l) 0%nat) k ->
  dim_select l axis i = Ok (selected l a (Z.of_nat k)) /\ good (selected l a (Z.of_nat k)).
Proof. intros Hg Hd [Hk Hi]. pose proof (proj1 Hd) as Ha. pose proof (selected_good l a k Hg Ha Hk) as G. split; auto.
  apply check_axis_spec in Hd. unfold dim_select. rewrite Hd. cbn [bind]. set (d := nth a (l_shape l) 0%nat) in *.
  assert (E : (if i <? 0 then Z.of_nat d + i else i) = Z.of_nat k) by (destruct (Z.ltb_spec i 0); lia). rewrite E.
  replace ((0 <=? Z.of_nat k) && (Z.of_nat k <? Z.of_nat d)) with true by lia. apply (layout_new_good' _ G). Qed.
Lemma select_err l axis i : (forall a k, axis_denotes (ndim l) axis a -> ~ index_denotes i (nth a (l_shape l) 0%nat) k) -> exists e, dim_select l axis i = Err e.
Proof. intro H. unfold dim_select. destruct (check_axis axis (ndim l)) as [a|e|] eqn:E; cbn [bind]; [|eauto|now apply check_axis_nopanic in E].
  apply check_axis_spec in E. set (d := nth a (l_shape l) 0%nat) in *. 
  destruct ((0 <=? (if i <? 0 then Z.of_nat d + i else i)) && ((if i <? 0 then Z.of_nat d + i else i) <? Z.of_nat d)) eqn:B; [|eauto].
  exfalso. apply (H a (Z.to_nat (if i <? 0 then Z.of_nat d + i else i)) E). unfold index_denotes, axis_denotes. fold d. destruct (i <? 0) eqn:?; lia. Qed.

Definition chopped (l : layout) (a : nat) : layout := mkLayout (remove_at (l_shape l) a) (remove_at (l_stride l) a) (l_offset l).
Lemma chopped_selected l a : chopped l a = selected l a (Z.of_nat 0).
Proof. unfold chopped, selected. f_equal. lia. Qed.
Lemma eliminate_spec l axis a : good l -> axis_denotes (ndim l) axis a -> nth a (l_shape l) 0%nat = 1%nat ->
  dim_eliminate l axis = Ok (chopped l a) /\ good (chopped l a).
Proof. intros Hg Hd H1. assert (G : good (chopped l a)). { rewrite chopped_selected. apply selected_good; auto. apply Hd. lia. }
  split; auto. apply check_axis_spec in Hd. unfold dim_eliminate. rewrite Hd. cbn [bind]. rewrite H1. cbn [Nat.eqb negb]. apply (layout_new_good' _ G). Qed.
Lemma eliminate_err l axis : (forall a, axis_denotes (ndim l) axis a -> nth a (l_shape l) 0%nat <> 1%nat) -> exists e, dim_eliminate l axis = Err e.
Proof. intro H. unfold dim_eliminate. destruct (check_axis axis (ndim l)) as [a|e|] eqn:E; cbn [bind]; [|eauto|now apply check_axis_nopanic in E].
  apply check_axis_spec in E. destruct (Nat.eqb_spec (nth a (l_shape l) 0%nat) 1); [now apply H in E|]. cbn. eauto. Qed.
Lemma chop_spec l axis a : good l -> axis_denotes (ndim l) axis a -> (nth a (l_shape l) 0 <> 0)%nat ->
  dim_chop l axis = Ok (chopped l a) /\ good (chopped l a).
Proof. intros Hg Hd H1. assert (G : good (chopped l a)). { rewrite chopped_selected. apply selected_good; auto. apply Hd. lia. }
  split; auto. apply check_axis_spec in Hd. unfold dim_chop. rewrite Hd. cbn [bind]. apply (layout_new_good' _ G). Qed.

Definition inserted (l : layout) (a : nat) (t : Z) : layout := mkLayout (insert_at (l_shape l) a 1%nat) (insert_at (l_stride l) a t) (l_offset l).
Lemma inserted_addr l a t jx : length (l_stride l) = length (l_shape l) -> (a <= ndim l)%nat -> length jx = ndim l ->
  addr (inserted l a t) (insert_at jx a 0%nat) = addr l jx.
Proof. intros Hl Ha Hj. unfold addr, inserted, ndim in *. cbn [l_offset l_stride]. rewrite dot_insert by lia. lia. Qed.
Lemma inserted_index l a t jx : (a <= ndim l)%nat -> valid (l_shape (inserted l a t)) jx ->
  exists r, jx = insert_at r a 0%nat /\ valid (l_shape l) r.
Proof. intros Ha Hv. unfold ndim in Ha. cbn [inserted l_shape] in Hv. assert (La : (a < length jx)%nat).
  { apply valid_length in Hv. rewrite insert_length in Hv by auto. lia. }
  rewrite <- (insert_remove jx a 0%nat La) in Hv. apply valid_insert in Hv; auto. exists (remove_at jx a). split; [|tauto].
  replace 0%nat with (nth a jx 0%nat) at 1 by lia. now rewrite insert_remove. Qed.
Lemma inserted_good l a t : good l -> (a <= ndim l)%nat -> good (inserted l a t).
Proof. intros Hg Ha. pose proof Hg as [[Hl Ho] _]. pose proof Ha as Ha'. unfold ndim in Ha.
  apply good_intro; cbn [inserted l_shape l_stride]; [rewrite !insert_length; lia|].
  intro Hs. assert (Hs0 : size (l_shape l) <> 0%nat). { unfold insert_at in Hs. rewrite size_app, size_cons in Hs. rewrite <- (firstn_skipn a (l_shape l)), size_app. nia. }
  destruct (good_elim l Hg Hs0) as (_ & Ho' & Hnn & Hc). split.
  - intros jx Hv. destruct (inserted_index l a t jx Ha' Hv) as (r & -> & Hr). rewrite inserted_addr; auto. now apply valid_length in Hr.
  - unfold insert_at. rewrite combine_app by (rewrite !firstn_length; lia). cbn [combine]. apply chk_insert; [lia|].
    rewrite <- combine_app by (rewrite !firstn_length; lia). now rewrite !firstn_skipn. Qed.

Lemma check_axis_insert_spec axis nd k : check_axis_insert axis nd = Ok k <-> insert_denotes nd axis k.
Proof. unfold check_axis_insert, insert_denotes. destruct (Z.ltb_spec axis 0);
  match goal with |- context [if ?c then _ else _] => destruct c eqn:E end; split; intro H0;
  try discriminate; try (injection H0 as <-); try lia; f_equal; lia. Qed.
Lemma check_axis_insert_nopanic axis nd : check_axis_insert axis nd <> Panic.
Proof. unfold check_axis_insert. destruct (axis <? 0); match goal with |- context [if ?c then _ else _] => destruct c end; discriminate. Qed.
Lemma insert_spec l axis a : good l -> insert_denotes (ndim l) axis a ->
  exists t, dim_insert l axis = Ok (inserted l a t) /\ good (inserted l a t).
Proof. intros Hg Hd. pose proof (proj1 Hd) as Ha. apply check_axis_insert_spec in Hd. unfold dim_insert. rewrite Hd. cbn [bind]. cbv zeta.
  match goal with |- context [insert_at (l_stride l) a ?t] => exists t end.
  match goal with |- context [good ?x] => assert (G : good x) by (now apply inserted_good) end. split; auto. now apply (layout_new_good' _ G). Qed.
Lemma insert_err l axis : (forall a, ~ insert_denotes (ndim l) axis a) -> exists e, dim_insert l axis = Err e.
Proof. intro H. unfold dim_insert. destruct (check_axis_insert axis (ndim l)) as [a|e|] eqn:E; cbn [bind]; [|eauto|now apply check_axis_insert_nopanic in E].
  apply check_axis_insert_spec in E. now apply H in E. Qed.

(** ** the loop *)
Fixpoint consumed (ixs : list indexer) : nat :=
  match ixs with [] => 0 | (ISlice _ | ISelect _) :: r => S (consumed r) | _ :: r => consumed r end.
Lemma narrowed_app l pre d sh n b t : l_shape l = pre ++ d :: sh -> l_shape (narrowed l (length pre) n b t) = pre ++ n :: sh.
Proof. intro H. cbn. rewrite H. rewrite upd_split by (rewrite app_length; cbn; lia). rewrite firstn_app, Nat.sub_diag, firstn_all. cbn [firstn]. rewrite app_nil_r.
  f_equal. f_equal. rewrite skipn_app, skipn_all2 by lia. replace (S (length pre) - length pre)%nat with 1%nat by lia. reflexivity. Qed.
Lemma nth_mid {A} (pre : list A) d sh x : nth (length pre) (pre ++ d :: sh) x = d.
Proof. rewrite app_nth2 by lia. now rewrite Nat.sub_diag. Qed.
Lemma upd_mid {A} (pre : list A) d sh x : upd (pre ++ d :: sh) (length pre) x = pre ++ x :: sh.
Proof. induction pre; cbn; congruence. Qed.
Lemma insert_mid {A} (pre sh : list A) x : insert_at (pre ++ sh) (length pre) x = pre ++ x :: sh.
Proof. unfold insert_at. rewrite firstn_app, skipn_app, firstn_all, skipn_all, Nat.sub_diag. cbn. now rewrite app_nil_r. Qed.

Lemma slice_loop_spec ixs : existsb is_ellipsis ixs = false ->
  forall l pre sh, good l -> l_shape l = pre ++ sh -> consumed ixs = length sh ->
  (exists l' newsh out, slice_loop ixs l (Z.of_nat (ndim l)) = Ok (l', Z.of_nat (length pre)) /\ good l' /\ l_shape l' = pre ++ newsh /\
     index_shape ixs sh out /\
     (plain_indexers ixs sh -> newsh = out /\
        forall p jx, valid pre p -> valid newsh jx -> exists ix, reads ixs sh jx ix /\ valid sh ix /\ addr l' (p ++ jx) = addr l (p ++ ix)))
  \/ ((exists e, slice_loop ixs l (Z.of_nat (ndim l)) = Err e) /\ forall out, ~ index_shape ixs sh out).
Proof. induction ixs as [|x r IH]; intros He l pre sh Hg Hsh Hc.
  - destruct sh; [|discriminate]. left. exists l, [], []. rewrite app_nil_r in Hsh. unfold ndim. rewrite Hsh, app_nil_r. cbn [slice_loop].
    split; auto. split; auto. split; auto. split; [constructor|]. intros _. split; auto. intros p jx Hp Hj. apply valid_nil in Hj. subst jx.
    exists []. split; [constructor|]. split; [constructor|]. auto.
  - cbn [existsb] in He. apply orb_false_iff in He. destruct He as [Hx He]. specialize (IH He).
    assert (NE : exists d sh', sh = d :: sh' /\ consumed r = length sh' \/ x = IInsert).
    { destruct x; try discriminate; cbn [consumed] in Hc; try (exists 0%nat, []; now right); (destruct sh as [|d sh']; [discriminate|]); exists d, sh'; left; split; auto. }
    destruct x as [s|k| |]; [| | |discriminate].
    + destruct NE as (d & sh' & [[-> Hc']|]); [|discriminate].
      specialize (IH l (pre ++ [d]) sh' Hg). rewrite <- app_assoc in IH. specialize (IH Hsh Hc').
      cbn [slice_loop]. destruct IH as [(l1 & ns & out & E & G1 & S1 & I1 & P1)|[[e E] N]].
      2:{ right. rewrite E. cbn [bind]. split; eauto. intros out Ho. inversion Ho; subst. eapply N; eauto. }
      rewrite E. cbn [bind]. rewrite app_length. cbn [length]. replace (Z.of_nat (length pre + 1) - 1) with (Z.of_nat (length pre)) by lia.
      destruct (Z.eq_dec (unwrap_or (sl_step s) 1) 0) as [E0|E0].
      { right. destruct (narrow_step0 l1 (Z.of_nat (length pre)) s E0) as [e' ->]. cbn [bind]. split; eauto. intros o Ho. inversion Ho; subst. congruence. }
      left. rewrite <- app_assoc in S1. cbn [app] in S1.
      assert (A1 : axis_denotes (ndim l1) (Z.of_nat (length pre)) (length pre)). { unfold axis_denotes, ndim. rewrite S1, app_length. cbn. lia. }
      destruct (narrow_any l1 _ _ s G1 A1 E0) as (n & b & t & En & Ht & K & Pp). rewrite S1, nth_mid in K, Pp.
      rewrite En. cbn [bind]. exists (narrowed l1 (length pre) n b t), (n :: ns), (length (slice_positions s d) :: out).
      split; auto. split. { apply narrowed_good; auto. apply A1. rewrite S1, nth_mid. auto. }
      split. { now rewrite (narrowed_app l1 pre d ns). } split. { now constructor. }
      intro Hp. inversion Hp as [|s0 r0 d0 sh0 Hps Hpr| | |]; subst. destruct (P1 Hpr) as [-> Q1]. specialize (Pp Hps).
      split. { rewrite Pp. now rewrite map_length, seq_length. }
      intros p jx Hvp Hvj. apply valid_cons_inv in Hvj. destruct Hvj as (j & jr & -> & Hj & Hjr).
      pose proof (K j Hj) as Kj. set (i := b + Z.of_nat j * t) in *. pose proof (valid_length _ _ Hvp) as Lp.
      destruct (Q1 (p ++ [Z.to_nat i]) jr) as (ix & R & V & A); auto. { apply valid_app; auto. split; auto. repeat constructor. lia. }
      rewrite <- !app_assoc in A. cbn [app] in A. exists (Z.to_nat i :: ix). split; [|split].
      * constructor; auto. rewrite Pp, nth_error_map, nth_error_seq by auto. cbn [option_map]. f_equal. unfold i. rewrite Z2Nat.id by (fold i; lia). reflexivity.
      * apply valid_cons. split; auto. lia.
      * rewrite <- A. rewrite narrowed_addr; [| apply G1 | apply A1 | | ].
        -- rewrite <- Lp, nth_mid, upd_mid. reflexivity.
        -- rewrite S1, upd_mid. apply valid_app; auto. split; auto. apply valid_cons. auto.
        -- rewrite <- Lp, nth_mid. fold i. lia.
    + destruct NE as (d & sh' & [[-> Hc']|]); [|discriminate].
      specialize (IH l (pre ++ [d]) sh' Hg). rewrite <- app_assoc in IH. specialize (IH Hsh Hc').
      cbn [slice_loop]. destruct IH as [(l1 & ns & out & E & G1 & S1 & I1 & P1)|[[e E] N]].
      2:{ right. rewrite E. cbn [bind]. split; eauto. intros out Ho. inversion Ho; subst. eapply N; eauto. }
      rewrite E. cbn [bind]. rewrite app_length. cbn [length]. replace (Z.of_nat (length pre + 1) - 1) with (Z.of_nat (length pre)) by lia.
      rewrite <- app_assoc in S1. cbn [app] in S1.
      assert (A1 : axis_denotes (ndim l1) (Z.of_nat (length pre)) (length pre)). { unfold axis_denotes, ndim. rewrite S1, app_length. cbn. lia. }
      assert (D : (exists i, index_denotes k d i) \/ forall i, ~ index_denotes k d i).
      { destruct (check_axis k d) as [i| |] eqn:Ek. - left. exists i. now apply check_axis_spec. - right. intros i Hi. apply check_axis_spec in Hi. congruence. - now apply check_axis_nopanic in Ek. }
      destruct D as [[i Hi]|D].
      2:{ right. destruct (select_err l1 (Z.of_nat (length pre)) k) as [e' ->].
          { intros a i Ha. rewrite (axis_denotes_fun _ _ _ _ Ha A1), S1, nth_mid. auto. }
          cbn [bind]. split; eauto. intros o Ho. inversion Ho; subst. eapply D; eauto. }
      left. destruct (select_spec l1 _ _ k i G1 A1) as [Es Gs]. { now rewrite S1, nth_mid. }
      rewrite Es. cbn [bind]. exists (selected l1 (length pre) (Z.of_nat i)), ns, out. split; auto. split; auto.
      split. { cbn. now rewrite S1, remove_app. } split. { econstructor; eauto. }
      intro Hp. inversion Hp as [| |k0 r0 d0 sh0 Hpr| |]; subst. destruct (P1 Hpr) as [-> Q1]. split; auto.
      intros p jx Hvp Hvj. pose proof (valid_length _ _ Hvp) as Lp. pose proof (valid_length _ _ Hvj) as Lj.
      destruct (Q1 (p ++ [i]) jx) as (ix & R & V & A); auto. { apply valid_app; auto. split; auto. repeat constructor. apply Hi. }
      rewrite <- !app_assoc in A. cbn [app] in A. exists (i :: ix). split; [econstructor; eauto|]. split; [apply valid_cons; split; auto; apply Hi|].
      rewrite <- A. rewrite selected_addr; [|apply G1|apply A1|].
      * now rewrite <- Lp, insert_mid.
      * unfold ndim. rewrite S1, !app_length. cbn. lia.
    + specialize (IH l pre sh Hg Hsh Hc). cbn [slice_loop]. destruct IH as [(l1 & ns & out & E & G1 & S1 & I1 & P1)|[[e E] N]].
      2:{ right. rewrite E. cbn [bind]. split; eauto. intros out Ho. inversion Ho; subst. eapply N; eauto. }
      rewrite E. cbn [bind]. left.
      assert (A1 : insert_denotes (ndim l1) (Z.of_nat (length pre)) (length pre)). { unfold insert_denotes, ndim. rewrite S1, app_length. lia. }
      destruct (insert_spec l1 _ _ G1 A1) as (t & Ei & Gi). rewrite Ei. cbn [bind]. exists (inserted l1 (length pre) t), (1%nat :: ns), (1%nat :: out).
      split; auto. split; auto. split. { cbn. now rewrite S1, insert_mid. } split. { now constructor. }
      intro Hp. inversion Hp as [| | |r0 sh0 Hpr|]; subst. destruct (P1 Hpr) as [-> Q1]. split; auto.
      intros p jx Hvp Hvj. apply valid_cons_inv in Hvj. destruct Hvj as (j & jr & -> & Hj & Hjr). assert (j = 0)%nat by lia. subst j.
      pose proof (valid_length _ _ Hvp) as Lp. pose proof (valid_length _ _ Hjr) as Lj.
      destruct (Q1 p jr Hvp Hjr) as (ix & R & V & A). exists ix. split; [now constructor|]. split; auto. rewrite <- A.
      rewrite <- (inserted_addr l1 (length pre) t (p ++ jr)); [now rewrite <- Lp, insert_mid|apply G1|apply A1|].
      unfold ndim. rewrite S1, !app_length. lia. Qed.

(** ** ellipsis *)
Lemma full_positions d : slice_positions (mkSlice None None None) d = map Z.of_nat (seq 0 d).
Proof. apply py_slice_full. Qed.
Lemma reads_noell_length ixs sh jx ix : existsb is_ellipsis ixs = false -> reads ixs sh jx ix -> length sh = consumed ixs.
Proof. intros He H. induction H; cbn in *; auto; try discriminate; rewrite IHreads; auto. Qed.
Lemma shape_noell_length ixs sh out : existsb is_ellipsis ixs = false -> index_shape ixs sh out -> length sh = consumed ixs.
Proof. intros He H. induction H; cbn in *; auto; try discriminate; rewrite IHindex_shape; auto. Qed.
Lemma plain_noell_length ixs sh : existsb is_ellipsis ixs = false -> plain_indexers ixs sh -> length sh = consumed ixs.
Proof. intros He H. induction H; cbn in *; auto; try discriminate; rewrite IHplain_indexers; auto. Qed.
Lemma noell_filter ixs : filter is_ellipsis ixs = [] <-> existsb is_ellipsis ixs = false.
Proof. induction ixs as [|x r IH]; cbn; [tauto|]. destruct (is_ellipsis x); cbn; [split; discriminate|auto]. Qed.
Lemma one_ellipsis_cons x r : one_ellipsis (x :: r) -> one_ellipsis r /\ (x = IEllipsis -> existsb is_ellipsis r = false).
Proof. unfold one_ellipsis. cbn. intro H. destruct (is_ellipsis x) eqn:E; cbn in H; split; try lia.
  - intros _. apply noell_filter. destruct (filter is_ellipsis r); auto. cbn in H; lia.
  - intros ->. discriminate. Qed.
Lemma nth_error_pos_range s d j i : nth_error (slice_positions s d) j = Some (Z.of_nat i) -> (i < d)%nat /\ (j < length (slice_positions s d))%nat.
Proof. intro H. split; [apply nth_error_In, py_slice_range in H; lia|]. apply nth_error_Some. congruence. Qed.
Lemma reads_valid ixs sh jx ix : one_ellipsis ixs -> reads ixs sh jx ix -> valid sh ix /\ forall out, index_shape ixs sh out -> valid out jx.
Proof. intros H1 H. induction H as [|s r d sh j jx i ix Hn R IH|k r d sh jx i ix Hi R IH|r sh jx ix R IH|r pre sh p jx ix Hv R IH];
  try (apply one_ellipsis_cons in H1; destruct H1 as [H1 H2]; specialize (IH H1); destruct IH as [IH1 IH2]).
  - split; [constructor|]. intros out Ho; inversion Ho; constructor.
  - apply nth_error_pos_range in Hn. split; [apply valid_cons; tauto|]. intros out Ho; inversion Ho; subst. apply valid_cons. split; auto. tauto.
  - split; [apply valid_cons; split; auto; apply Hi|]. intros out Ho; inversion Ho; subst. auto.
  - split; auto. intros out Ho; inversion Ho; subst. apply valid_cons. split; auto.
  - pose proof (valid_length _ _ Hv) as Lp. split; [apply valid_app; auto|]. intros out Ho. inversion Ho as [| | | |r' pre' sh' out' Ho' Er Es Eo]; subst.
    specialize (H2 eq_refl). pose proof (reads_noell_length _ _ _ _ H2 R). pose proof (shape_noell_length _ _ _ H2 Ho').
    apply app_inj_2 in Es; [|congruence]. destruct Es as [-> ->]. apply valid_app; auto. Qed.
Lemma reads_fun ixs sh jx ix ix' : one_ellipsis ixs -> reads ixs sh jx ix -> reads ixs sh jx ix' -> ix = ix'.
Proof. intros H1 H. revert ix'. induction H as [|s r d sh j jx i ix Hn R IH|k r d sh jx i ix Hi R IH|r sh jx ix R IH|r pre sh p jx ix Hv R IH]; intros ix' R';
  try (apply one_ellipsis_cons in H1; destruct H1 as [H1 H2]; specialize (IH H1)).
  - now inversion R'.
  - inversion R' as [|? ? ? ? ? ? i' ? Hn'| | |]; subst. f_equal; auto. assert (HS : Some (Z.of_nat i) = Some (Z.of_nat i')) by congruence. injection HS; lia.
  - inversion R' as [| |? ? ? ? ? i' ? Hi'| |]; subst. f_equal; auto. eapply axis_denotes_fun; eauto.
  - inversion R'; subst; auto.
  - inversion R' as [| | | |? pre' sh' p' jx' ix0 Hv' R0 E1 E2 E3]; subst.
    specialize (H2 eq_refl). pose proof (reads_noell_length _ _ _ _ H2 R). pose proof (reads_noell_length _ _ _ _ H2 R0).
    apply app_inj_2 in E2; [|congruence]. destruct E2 as [-> ->]. pose proof (valid_length _ _ Hv). pose proof (valid_length _ _ Hv').
    apply app_inj_1 in E3; [|congruence]. destruct E3 as [-> ->]. f_equal; auto. Qed.

Definition expanded (a b : list indexer) (n : nat) := a ++ repeat full_slice n ++ b.
Lemma reads_expand a b n sh jx ix : reads (expanded a b n) sh jx ix -> reads (a ++ IEllipsis :: b) sh jx ix.
Proof. unfold expanded. revert sh jx ix; induction a as [|x a IH]; intros sh jx ix; cbn [app].
  - intro H. assert (G : exists pre sh' p jx' ix', sh = pre ++ sh' /\ jx = p ++ jx' /\ ix = p ++ ix' /\ valid pre p /\ reads b sh' jx' ix').
    { revert sh jx ix H. induction n as [|n IHn]; intros sh jx ix H; cbn [repeat app] in H.
      - exists [], sh, [], jx, ix. repeat split; auto. constructor.
      - inversion H as [|? ? d sh0 j jx0 i ix0 Hn H0| | |]; subst. apply IHn in H0. destruct H0 as (pre & sh' & p & jx' & ix' & -> & -> & -> & V & R).
        unfold slice_positions in Hn. rewrite full_positions in Hn || rewrite py_slice_full in Hn.
        assert (j = i /\ j < d)%nat as [-> Hd].
        { destruct (Nat.lt_ge_cases j d). - rewrite nth_error_map, nth_error_seq in Hn by auto. cbn in Hn. injection Hn. lia.
          - rewrite (proj2 (nth_error_None _ _)) in Hn; [discriminate|]. rewrite map_length, seq_length. lia. }
        exists (d :: pre), sh', (i :: p), jx', ix'. repeat split; auto. apply valid_cons. auto. }
    destruct G as (pre & sh' & p & jx' & ix' & -> & -> & -> & V & R). now constructor.
  - intro H. destruct x; inversion H; subst; try (econstructor; eauto; fail). Qed.
Lemma shape_expand a b n sh out : existsb is_ellipsis a = false -> existsb is_ellipsis b = false ->
  length sh = (consumed a + n + consumed b)%nat -> index_shape (a ++ IEllipsis :: b) sh out <-> index_shape (expanded a b n) sh out.
Proof. unfold expanded. intro Ha. revert sh out; induction a as [|x a IH]; intros sh out Hb Hl; cbn [app].
  - split.
    + intro H. inversion H as [| | | |? pre sh' out' Ho E1 E2 E3]; subst. pose proof (shape_noell_length _ _ _ Hb Ho) as L.
      rewrite app_length in Hl. cbn in Hl. assert (n = length pre) by lia. subst n. clear - Ho. induction pre as [|d pre IH]; cbn [repeat length app]; auto.
      pose proof (shape_slice (mkSlice None None None) _ d _ _ ltac:(discriminate) IH) as R.
      rewrite full_positions, map_length, seq_length in R. exact R.
    + intro H. assert (G : exists pre sh' out', sh = pre ++ sh' /\ out = pre ++ out' /\ index_shape b sh' out').
      { clear Hl. revert sh out H. induction n as [|n IHn]; intros sh out H; cbn [repeat app] in H.
        - exists [], sh, out. auto.
        - inversion H as [|? ? d sh0 out0 Hn H0| | |]; subst. apply IHn in H0. destruct H0 as (pre & sh' & out' & -> & -> & R).
          exists (d :: pre), sh', out'. rewrite full_positions, map_length, seq_length. auto. }
      destruct G as (pre & sh' & out' & -> & -> & R). now constructor.
  - cbn in Ha. apply orb_false_iff in Ha. destruct Ha as [Hx Ha]. specialize (IH Ha).
    destruct x; try discriminate; cbn [consumed] in Hl; split; intro H; inversion H; subst; cbn [length] in Hl; econstructor; eauto; apply IH; auto; lia. Qed.
Lemma plain_expand a b n sh : existsb is_ellipsis a = false -> existsb is_ellipsis b = false ->
  length sh = (consumed a + n + consumed b)%nat -> plain_indexers (a ++ IEllipsis :: b) sh -> plain_indexers (expanded a b n) sh.
Proof. unfold expanded. intro Ha. revert sh; induction a as [|x a IH]; intros sh Hb Hl; cbn [app].
  - intro H. inversion H as [| | | |? pre sh' Ho E1 E2]; subst. pose proof (plain_noell_length _ _ Hb Ho) as L.
    rewrite app_length in Hl. cbn in Hl. assert (n = length pre) by lia. subst n. clear - Ho. induction pre as [|d pre IH]; cbn [repeat length app]; auto.
    constructor; auto. intro. cbn in *. lia.
  - cbn in Ha. apply orb_false_iff in Ha. destruct Ha as [Hx Ha]. specialize (IH Ha).
    destruct x; try discriminate; cbn [consumed] in Hl; intro H; inversion H; subst; cbn [length] in Hl; constructor; auto; apply IH; auto; lia. Qed.

Lemma count_indexers_some ixs n cnt p : (exists e, count_indexers ixs n cnt (Some p) = Err e) /\ existsb is_ellipsis ixs = true \/
  count_indexers ixs n cnt (Some p) = Ok (cnt + consumed ixs, Some p)%nat /\ existsb is_ellipsis ixs = false.
Proof. revert n cnt; induction ixs as [|x r IH]; intros n cnt; cbn [count_indexers consumed existsb is_ellipsis orb].
  - right. split; auto. f_equal. f_equal. lia.
  - destruct x; cbn [is_ellipsis orb]; [| | |left; eauto];
    match goal with |- context [count_indexers r ?a ?b (Some p)] => destruct (IH a b) as [?|[-> ->]] end; auto; right; split; auto; f_equal; f_equal; lia. Qed.
Lemma count_indexers_spec ixs n cnt :
  (exists e, count_indexers ixs n cnt None = Err e) /\ ~ one_ellipsis ixs \/
  count_indexers ixs n cnt None = Ok (cnt + consumed ixs, None)%nat /\ existsb is_ellipsis ixs = false \/
  exists a b, ixs = a ++ IEllipsis :: b /\ existsb is_ellipsis a = false /\ existsb is_ellipsis b = false /\
    count_indexers ixs n cnt None = Ok (cnt + consumed a + consumed b, Some (n + length a))%nat.
Proof. revert n cnt; induction ixs as [|x r IH]; intros n cnt; cbn [count_indexers].
  - right. left. split; auto. f_equal. f_equal. cbn. lia.
  - destruct x; cbn [consumed existsb is_ellipsis orb].
    4:{ destruct (count_indexers_some r (S n) cnt n) as [[He Hx]|[-> Hx]].
        - left. split; auto. intro Ho. apply one_ellipsis_cons in Ho. destruct Ho as [_ Ho]. rewrite Ho in Hx; congruence.
        - right. right. exists [], r. repeat split; auto. cbn. f_equal. f_equal; [|f_equal]; lia. }
    all: match goal with |- context [count_indexers ?r ?a ?b None] => destruct (IH a b) as [[He Hx]|[[-> Hx]|(p & q & -> & Hp & Hq & ->)]] end;
      [left; split; auto; intro Ho; apply one_ellipsis_cons in Ho; tauto | right; left; split; auto; f_equal; f_equal; lia |].
    all: right; right; match goal with |- context [?y :: ?p ++ IEllipsis :: ?q] => exists (y :: p), q end; repeat split; auto; cbn [consumed length]; f_equal; f_equal; try f_equal; lia. Qed.

Lemma with_ellipsis_some a b : existsb is_ellipsis (a ++ IEllipsis :: b) = true.
Proof. rewrite existsb_app. cbn. apply orb_true_r. Qed.
Lemma one_ellipsis_split a b : existsb is_ellipsis a = false -> existsb is_ellipsis b = false -> one_ellipsis (a ++ IEllipsis :: b).
Proof. intros Ha Hb. apply noell_filter in Ha, Hb. unfold one_ellipsis. rewrite filter_app. cbn. rewrite Ha, Hb. cbn. lia. Qed.
Lemma existsb_repeat_full n : existsb is_ellipsis (repeat full_slice n) = false.
Proof. induction n; cbn; auto. Qed.
Lemma consumed_app a b : consumed (a ++ b) = (consumed a + consumed b)%nat.
Proof. induction a as [|[]]; cbn; auto. Qed.
Lemma consumed_repeat n : consumed (repeat full_slice n) = n.
Proof. induction n; cbn; auto. Qed.
Lemma shape_consumed a b sh out : existsb is_ellipsis a = false -> existsb is_ellipsis b = false -> index_shape (a ++ IEllipsis :: b) sh out -> (consumed a + consumed b <= length sh)%nat.
Proof. intros Ha Hb. revert sh out; induction a as [|x a IH]; intros sh out H; cbn [app] in H.
  - inversion H; subst. rewrite app_length. rewrite (shape_noell_length b sh0 out0); auto. cbn. lia.
  - cbn in Ha. apply orb_false_iff in Ha. destruct Ha as [Hx Ha]. destruct x; try discriminate; inversion H; subst; cbn [consumed length]; eapply IH in Ha; eauto; lia. Qed.

Lemma dim_slice_spec l ixs : good l ->
  (exists l' out, dim_slice l ixs = Ok l' /\ good l' /\ one_ellipsis ixs /\ index_shape (with_ellipsis ixs) (l_shape l) out /\
     (plain_indexers (with_ellipsis ixs) (l_shape l) -> l_shape l' = out /\
        (forall jx, valid (l_shape l') jx -> exists ix, reads (with_ellipsis ixs) (l_shape l) jx ix /\ valid (l_shape l) ix /\ addr l' jx = addr l ix)))
  \/ (exists e, dim_slice l ixs = Err e) /\ ~ (one_ellipsis ixs /\ exists out, index_shape (with_ellipsis ixs) (l_shape l) out).
Proof. intro Hg. unfold dim_slice. rewrite (layout_new_good' _ Hg). cbn [bind].
  assert (Main : forall a b, existsb is_ellipsis a = false -> existsb is_ellipsis b = false -> (consumed a + consumed b <= ndim l)%nat ->
    with_ellipsis ixs = a ++ IEllipsis :: b -> one_ellipsis ixs ->
    let r := bind (slice_loop (expanded a b (ndim l - (consumed a + consumed b))) l (Z.of_nat (ndim l))) (fun p => let '(l', cur) := p in if cur =? 0 then Ok l' else Err Miscellaneous) in
    (exists l' out, r = Ok l' /\ good l' /\ one_ellipsis ixs /\ index_shape (with_ellipsis ixs) (l_shape l) out /\
     (plain_indexers (with_ellipsis ixs) (l_shape l) -> l_shape l' = out /\
        (forall jx, valid (l_shape l') jx -> exists ix, reads (with_ellipsis ixs) (l_shape l) jx ix /\ valid (l_shape l) ix /\ addr l' jx = addr l ix)))
    \/ (exists e, r = Err e) /\ ~ (one_ellipsis ixs /\ exists out, index_shape (with_ellipsis ixs) (l_shape l) out)).
  { intros a b Ha Hb Hle E One r. unfold r. set (n := (ndim l - (consumed a + consumed b))%nat).
    assert (Ln : length (l_shape l) = (consumed a + n + consumed b)%nat) by (unfold n, ndim in *; lia).
    assert (Hne : existsb is_ellipsis (expanded a b n) = false) by (unfold expanded; rewrite !existsb_app, Ha, Hb, existsb_repeat_full; auto).
    destruct (slice_loop_spec (expanded a b n) Hne l [] (l_shape l) Hg eq_refl) as [(l' & ns & out & El & G & S & I & P)|[[e El] N]].
    { unfold expanded. rewrite !consumed_app, consumed_repeat. lia. }
    - left. rewrite El. cbn [bind length Z.of_nat Z.eqb]. exists l', out. split; auto. split; auto. split; auto. rewrite E.
      split; [apply (shape_expand a b n); auto|]. intro Hp. apply (plain_expand a b n) in Hp; auto. destruct (P Hp) as [-> Q]. cbn [app] in S. split; auto.
      rewrite S. intros jx Hj. destruct (Q [] jx (Forall2_nil _) Hj) as (ix & R & V & A). exists ix. split; [eapply reads_expand; eauto|]. split; auto.
    - right. rewrite El. cbn [bind]. split; eauto. intros [_ [out Ho]]. rewrite E in Ho. apply (shape_expand a b n) in Ho; auto. eapply N; eauto. }
  destruct (count_indexers_spec ixs 0 0) as [[[e E] N]|[[E N]|(a & b & E & Ha & Hb & Ec)]].
  - right. rewrite E. cbn [bind]. split; [eauto|]. tauto.
  - rewrite E. cbn [bind]. assert (W : with_ellipsis ixs = ixs ++ IEllipsis :: []) by (unfold with_ellipsis; now rewrite N).
    assert (One : one_ellipsis ixs) by (unfold one_ellipsis; apply noell_filter in N; rewrite N; cbn; lia).
    destruct (Nat.ltb_spec (ndim l) (0 + consumed ixs)) as [Hlt|Hge].
    + right. split; [eauto|]. intros [_ [out Ho]]. rewrite W in Ho. apply shape_consumed in Ho; auto. unfold ndim in *. cbn in *. lia.
    + specialize (Main ixs [] N eq_refl ltac:(cbn; lia) W One). cbv zeta in Main. unfold expanded in Main. cbn [consumed] in Main. rewrite app_nil_r in Main.
      cbn [expand_indexers]. rewrite Nat.add_0_r in Main. exact Main.
  - rewrite Ec. cbn [bind]. assert (W : with_ellipsis ixs = ixs) by (unfold with_ellipsis; rewrite E, with_ellipsis_some; auto).
    assert (One : one_ellipsis ixs) by (rewrite E; now apply one_ellipsis_split).
    destruct (Nat.ltb_spec (ndim l) (0 + consumed a + consumed b)) as [Hlt|Hge].
    + right. split; [eauto|]. intros [_ [out Ho]]. rewrite W, E in Ho. apply shape_consumed in Ho; auto. unfold ndim in *. lia.
    + specialize (Main a b Ha Hb ltac:(lia) ltac:(congruence) One). cbv zeta in Main.
      replace (expand_indexers ixs (ndim l - (0 + consumed a + consumed b)) (Some (0 + length a)%nat)) with (expanded a b (ndim l - (consumed a + consumed b))); auto.
      unfold expand_indexers, expanded. rewrite E. cbn [Nat.add]. rewrite firstn_app, Nat.sub_diag, firstn_all. cbn [firstn]. rewrite app_nil_r. f_equal. f_equal.
      rewrite skipn_app, skipn_all2 by lia. replace (S (length a) - length a)%nat with 1%nat by lia. reflexivity. Qed.

(** ** splitting *)
Lemma except_perm n ax : NoDup ax -> (forall a, In a ax -> (a < n)%nat) -> Permutation (ax ++ axes_except n ax) (seq 0 n).
Proof. intros Hn Hb. apply NoDup_Permutation.
  - assert (G : forall p q : list nat, NoDup p -> NoDup q -> (forall x, In x p -> ~ In x q) -> NoDup (p ++ q)).
    { clear. induction p as [|x p IH]; intros q Hp Hq Hd; cbn; auto. inversion Hp; subst. constructor.
      - rewrite in_app_iff. intros [|H]; auto. apply (Hd x); auto. now left.
      - apply IH; auto. intros y Hy. apply Hd. now right. }
    apply G; auto. { apply NoDup_filter, seq_NoDup. }
    intros x Hx Hy. unfold axes_except in Hy. apply filter_In in Hy. destruct Hy as [_ Hy]. apply negb_true_iff in Hy.
    rewrite <- not_true_iff_false in Hy. apply Hy. apply existsb_exists. exists x. rewrite Nat.eqb_refl. auto.
  - apply seq_NoDup.
  - intro x. rewrite in_app_iff. unfold axes_except. rewrite filter_In, in_seq. split.
    + intros [H|H]; [specialize (Hb x H); lia|tauto].
    + intro H. destruct (existsb (Nat.eqb x) ax) eqn:E.
      * left. apply existsb_exists in E. destruct E as (y & Hy & Exy). apply Nat.eqb_eq in Exy. congruence.
      * right. auto. Qed.
Lemma pick_app {A} a b (d : A) l : pick (a ++ b) d l = pick a d l ++ pick b d l.
Proof. unfold pick. apply map_app. Qed.
Lemma combine_pick {A B} ax (da : A) (db : B) p q : length p = length q -> combine (pick ax da p) (pick ax db q) = pick ax (da, db) (combine p q).
Proof. intro H. unfold pick. induction ax; cbn; auto. rewrite IHax, nth_combine; auto. Qed.
Lemma dot_split_axes ax n st ix : length st = n -> length ix = n -> NoDup ax -> (forall a, In a ax -> (a < n)%nat) ->
  dot st ix = dot (pick ax 0 st) (pick ax 0%nat ix) + dot (pick (axes_except n ax) 0 st) (pick (axes_except n ax) 0%nat ix).
Proof. intros Hs Hi Hn Hb. pose proof (except_perm n ax Hn Hb) as P. rewrite <- (dot_pick (ax ++ axes_except n ax) st ix (eq_trans Hs (eq_sym Hi))).
  2:{ rewrite Hi. exact P. } rewrite !pick_app. apply dot_app. now rewrite !pick_length. Qed.
Lemma denotes_lt nd axes ax : Forall2 (axis_denotes nd) axes ax -> forall a, In a ax -> (a < nd)%nat.
Proof. induction 1; cbn; [easy|]. intros a [->|Ha]; auto. apply H. Qed.
Lemma split_axes_ok l axes la lr : wf l -> dim_split_axes l axes = Ok (la, lr) ->
  exists ax, Forall2 (axis_denotes (ndim l)) axes ax /\ NoDup ax /\
    la = mkLayout (pick ax 0%nat (l_shape l)) (pick ax 0 (l_stride l)) (l_offset l) /\
    lr = mkLayout (pick (axes_except (ndim l) ax) 0%nat (l_shape l)) (pick (axes_except (ndim l) ax) 0 (l_stride l)) (l_offset l) /\
    forall ix, length ix = ndim l -> addr l ix = addr la (pick ax 0%nat ix) + addr lr (pick (axes_except (ndim l) ax) 0%nat ix) - l_offset l.
Proof. intros Hw H. unfold dim_split_axes in H. apply bind_ok in H. destruct H as (ax & Hax & H). apply normalize_spec in Hax.
  destruct Hax as (ax0 & Hd & [Hx|Hn] & ->); [discriminate|]. apply bind_ok in H. destruct H as (la0 & H1 & H). apply bind_ok in H.
  destruct H as (lr0 & H2 & H). injection H as <- <-. apply layout_new_eq in H1, H2. exists ax0. split; auto. split; auto. split; [exact H1|]. split; [exact H2|].
  intros ix Hix. rewrite H1, H2. unfold addr. cbn [l_offset l_stride].
  rewrite (dot_split_axes ax0 (ndim l) (l_stride l) ix); auto; [unfold pick, axes_except; lia| apply Hw | eapply denotes_lt; eauto]. Qed.
Lemma pick_valid_sub sh ix ax : valid sh ix -> (forall a, In a ax -> (a < length sh)%nat) -> valid (pick ax 0%nat sh) (pick ax 0%nat ix).
Proof. intros Hv Hb. apply valid_nth in Hv. destruct Hv as [Hl Hv]. apply valid_nth. rewrite !pick_length. split; auto.
  intros k Hk. rewrite !nth_pick by auto. apply Hv, Hb, nth_In, Hk. Qed.
Lemma sub_axes_good l ax bx : good l -> size (l_shape l) <> 0%nat -> Permutation (ax ++ bx) (seq 0 (ndim l)) ->
  good (mkLayout (pick ax 0%nat (l_shape l)) (pick ax 0 (l_stride l)) (l_offset l)).
Proof. intros Hg Hs P. destruct (good_elim l Hg Hs) as (Hl & Ho & Hnn & Hc). unfold ndim in P.
  apply good_intro; cbn [l_shape l_stride]; [now rewrite !pick_length|]. intros Hs'. split.
  - intros jx Hj. cbn [l_shape] in Hj.
    assert (V : valid (pick (ax ++ bx) 0%nat (l_shape l)) (jx ++ repeat 0%nat (length bx))).
    { rewrite pick_app. pose proof (valid_length _ _ Hj) as Lj. apply valid_app; auto. split; auto. rewrite <- (pick_length bx 0%nat (l_shape l)).
      apply valid_zeros. pose proof (size_perm _ _ (pick_perm (ax ++ bx) 0%nat (l_shape l) P)) as Sz. rewrite pick_app, size_app in Sz. lia. }
    pose proof (valid_length _ _ Hj) as Lj. rewrite pick_length in Lj.
    destruct (valid_pick_inv _ _ _ P V) as (ix & Vi & E). pose proof (Hnn ix Vi) as N. unfold addr in *. cbn [l_offset l_stride].
    rewrite <- (dot_pick (ax ++ bx) (l_stride l) ix), <- E, pick_app, dot_app, dot_zeros in N; try lia.
    + now rewrite pick_length.
    + rewrite Hl. now apply valid_length in Vi.
    + rewrite (valid_length _ _ Vi). exact P.
  - rewrite combine_pick by auto. apply chk_app_l with (b := pick bx (0%nat, 0) (combine (l_shape l) (l_stride l))). rewrite <- pick_app.
    eapply chk_perm; [|exact Hc]. symmetry. apply pick_perm. rewrite combine_length, Hl, Nat.min_id. exact P. Qed.
Lemma split_axes_total l axes ax : good l -> size (l_shape l) <> 0%nat -> Forall2 (axis_denotes (ndim l)) axes ax -> NoDup ax ->
  exists la lr, dim_split_axes l axes = Ok (la, lr) /\ good la /\ good lr.
Proof. intros Hg Hs Hd Hn. unfold dim_split_axes. pose proof (denotes_lt _ _ _ Hd) as Hb. pose proof (except_perm _ _ Hn Hb) as P.
  assert (E : normalize_axes_index (AxVec axes) (ndim l) false false = Ok ax) by (apply normalize_spec; exists ax; auto). rewrite E. cbn [bind].
  pose proof (sub_axes_good l ax _ Hg Hs P) as G1. 
  pose proof (sub_axes_good l (axes_except (ndim l) ax) ax Hg Hs) as G2. rewrite Permutation_app_comm in G2. specialize (G2 P).
  pose proof (layout_new_good' _ G1) as E1. pose proof (layout_new_good' _ G2) as E2. cbn [l_shape l_stride l_offset] in E1, E2. unfold pick, axes_except in E1, E2.
  rewrite E1. cbn [bind]. rewrite E2. cbn [bind]. do 2 eexists. split; [reflexivity|]. split; auto. Qed.
