(** Proofs about M_Layout. *)
From Verif Require Import Base Spec P_Index P_List M_Layout.
Local Open Scope Z_scope.

(** ** axes *)
Lemma check_axis_spec a nd k : check_axis a nd = Ok k <-> axis_denotes nd a k.
Proof. unfold check_axis, axis_denotes. destruct (Z.ltb_spec a 0);
  match goal with |- context [if ?c then _ else _] => destruct c eqn:E end; split; intro H0;
  try discriminate; try (injection H0 as <-); try lia; f_equal; lia. Qed.
Lemma check_axis_nopanic a nd : check_axis a nd <> Panic.
Proof. unfold check_axis. destruct (a <? 0); match goal with |- context [if ?c then _ else _] => destruct c end; discriminate. Qed.
Lemma check_axis_err a nd e : check_axis a nd = Err e -> e = AxisError.
Proof. unfold check_axis. destruct (a <? 0); match goal with |- context [if ?c then _ else _] => destruct c end; congruence. Qed.
Lemma axis_denotes_fun nd a k1 k2 : axis_denotes nd a k1 -> axis_denotes nd a k2 -> k1 = k2.
Proof. unfold axis_denotes. lia. Qed.
Lemma map_check_axis v nd ax : map_res (fun a => check_axis a nd) v = Ok ax <-> Forall2 (axis_denotes nd) v ax.
Proof. rewrite map_res_ok. split; intro H; induction H; constructor; auto; now apply check_axis_spec. Qed.

Lemma sorted_adj_eq l : StronglySorted (fun a b => (a <=? b)%nat = true) l -> (adj_eq l = false <-> NoDup l).
Proof. induction l as [|x l IH]; intro H; [split; [constructor|reflexivity]|].
  inversion H; subst. destruct l as [|y l].
  - split; intro; [repeat constructor; auto|reflexivity].
  - cbn [adj_eq]. rewrite orb_false_iff, (IH H2). rewrite (NoDup_cons_iff x). split; intros [Ha Hb]; split; auto.
    + apply Nat.eqb_neq in Ha. intro Hin. cbn in Hin. destruct Hin as [Hin|Hin]; [congruence|]. inversion H2; subst.
      rewrite Forall_forall in *. specialize (H5 x Hin). specialize (H3 y (or_introl eq_refl)).
      apply Nat.leb_le in H5, H3. lia.
    + apply Nat.eqb_neq. intros ->. apply Ha. now left. Qed.
Lemma sort_nat_adj l : adj_eq (sort_by Nat.leb l) = false <-> NoDup l.
Proof. rewrite sorted_adj_eq.
  - split; apply Permutation_NoDup; [symmetry|]; apply sort_perm.
  - apply sort_sorted; intros; rewrite ?Nat.leb_le in *; lia. Qed.

Lemma normalize_spec v nd dup srt ax : normalize_axes_index (AxVec v) nd dup srt = Ok ax <->
  exists ax0, Forall2 (axis_denotes nd) v ax0 /\ (dup = true \/ NoDup ax0) /\
    ax = if srt then sort_by Nat.leb ax0 else ax0.
Proof. unfold normalize_axes_index. split.
  - intro H. apply bind_ok in H. destruct H as (vec & Hv & H).
    apply bind_ok in Hv. destruct Hv as (ax0 & Hax & Hv). injection Hv as <-.
    apply map_check_axis in Hax. exists ax0. split; auto.
    destruct dup; [injection H as <-; auto|].
    destruct (adj_eq _) eqn:E in H; [discriminate|]. injection H as <-. split; auto. right.
    destruct srt; apply sort_nat_adj; auto.
  - intros (ax0 & Hax & Hd & ->). apply map_check_axis in Hax. rewrite Hax. cbn.
    destruct dup; auto. destruct Hd as [Hd|Hd]; [discriminate|]. apply sort_nat_adj in Hd.
    destruct srt; rewrite Hd; reflexivity. Qed.
Lemma normalize_val a nd dup srt ax : normalize_axes_index (AxVal a) nd dup srt = Ok ax <->
  exists k, axis_denotes nd a k /\ ax = [k].
Proof. unfold normalize_axes_index. split.
  - intro H. apply bind_ok in H. destruct H as (vec & Hv & H).
    apply bind_ok in Hv. destruct Hv as (k & Hk & Hv). injection Hv as <-. apply check_axis_spec in Hk.
    exists k. split; auto. destruct dup; [congruence|]. destruct srt; cbn in H; congruence.
  - intros (k & Hk & ->). apply check_axis_spec in Hk. rewrite Hk. destruct dup, srt; reflexivity. Qed.
Lemma normalize_nopanic axes nd dup srt : normalize_axes_index axes nd dup srt <> Panic.
Proof. unfold normalize_axes_index. destruct axes as [|a|v]; cbn; try discriminate.
  - pose proof (check_axis_nopanic a nd). destruct (check_axis a nd); cbn; try congruence.
    destruct dup; try congruence. destruct srt; cbn; discriminate.
  - pose proof (map_res_not_panic (fun a => check_axis a nd) v (fun x _ => check_axis_nopanic x nd)).
    destruct (map_res _ _); cbn; try congruence.
    destruct dup; try congruence. destruct (adj_eq _); discriminate. Qed.

(** Sortedness facts in usable form. *)
Lemma sort_nat_sorted l : StronglySorted le (sort_by Nat.leb l).
Proof. pose proof (sort_sorted Nat.leb) as H. assert (StronglySorted (fun a b => (a <=? b)%nat = true) (sort_by Nat.leb l)).
  { apply H; intros; rewrite ?Nat.leb_le in *; lia. }
  clear H. revert H0. generalize (sort_by Nat.leb l). induction 1; constructor; auto.
  eapply Forall_impl; [|eauto]. cbn. intros. now apply Nat.leb_le. Qed.

(** ** dot products as sums over axes *)
Definition zsum (l : list Z) : Z := fold_right Z.add 0 l.
Lemma zsum_app a b : zsum (a ++ b) = zsum a + zsum b.
Proof. induction a; cbn; auto. unfold zsum in *. lia. Qed.
Lemma zsum_perm a b : Permutation a b -> zsum a = zsum b.
Proof. induction 1; cbn; unfold zsum in *; lia. Qed.
Lemma dot_sum st ix : length st = length ix ->
  dot st ix = zsum (map (fun k => nth k st 0 * Z.of_nat (nth k ix 0%nat)) (seq 0 (length ix))).
Proof. revert ix; induction st as [|t st IH]; intros [|i ix] H; cbn [length] in *; try lia; [reflexivity|].
  cbn [dot seq map zsum fold_right]. rewrite IH by lia. rewrite <- seq_shift, map_map. reflexivity. Qed.
Lemma dot_pick ax st ix : length st = length ix -> Permutation ax (seq 0 (length ix)) ->
  dot (pick ax 0 st) (pick ax 0%nat ix) = dot st ix.
Proof. intros Hl Hp. rewrite (dot_sum st ix Hl). unfold pick.
  rewrite <- (zsum_perm _ _ (Permutation_map _ Hp)).
  clear Hp. induction ax as [|a ax IH]; [reflexivity|]. cbn. rewrite IH. reflexivity. Qed.

Lemma pick_length {A} ax (d : A) l : length (pick ax d l) = length ax.
Proof. unfold pick. apply map_length. Qed.
Lemma nth_pick {A} ax (d : A) l k : (k < length ax)%nat -> nth k (pick ax d l) d = nth (nth k ax 0%nat) l d.
Proof. intro. unfold pick. now rewrite map_nth_in with (d := 0%nat). Qed.

Lemma perm_seq_iff ax n : Permutation ax (seq 0 n) <-> NoDup ax /\ length ax = n /\ (forall a, In a ax -> (a < n)%nat).
Proof. split.
  - intro H. repeat split.
    + eapply Permutation_NoDup; [symmetry; eauto|apply seq_NoDup].
    + rewrite (Permutation_length H). apply seq_length.
    + intros a Ha. apply (Permutation_in _ H) in Ha. apply in_seq in Ha. lia.
  - intros (Hn & Hl & Hb). apply NoDup_Permutation_bis; auto.
    + rewrite seq_length. lia. + intros a Ha. apply in_seq. specialize (Hb a Ha). lia. Qed.

(** inverse permutation *)
Lemma index_of_spec k l : In k l -> (index_of k l < length l)%nat /\ nth (index_of k l) l 0%nat = k.
Proof. induction l as [|x l IH]; [easy|]. intro H. cbn. destruct (Nat.eqb_spec x k); [cbn; lia|].
  destruct H; [congruence|]. specialize (IH H). cbn. lia. Qed.
Lemma index_of_nth k l : NoDup l -> (k < length l)%nat -> index_of (nth k l 0%nat) l = k.
Proof. intros Hn Hk. destruct (index_of_spec (nth k l 0%nat) l (nth_In _ _ Hk)) as [H1 H2].
  eapply NoDup_nth in H2; eauto. Qed.
Definition inv_perm (ax : list nat) : list nat := map (fun k => index_of k ax) (seq 0 (length ax)).
Lemma inv_perm_perm ax n : Permutation ax (seq 0 n) -> Permutation (inv_perm ax) (seq 0 n).
Proof. intro H. pose proof H as H0. apply perm_seq_iff in H0. destruct H0 as (Hn & Hl & Hb).
  apply perm_seq_iff. unfold inv_perm. rewrite map_length, seq_length. split; [|split; auto].
  - rewrite Hl. apply NoDup_map_inj_in. 2: apply seq_NoDup.
    intros x y Hx Hy E. apply (Permutation_in x (Permutation_sym H)) in Hx.
    apply (Permutation_in y (Permutation_sym H)) in Hy.
    destruct (index_of_spec x ax Hx) as [_ E1], (index_of_spec y ax Hy) as [_ E2]. congruence.
  - intros a Ha. apply in_map_iff in Ha. destruct Ha as (k & <- & Hk). rewrite Hl in Hk.
    apply (Permutation_in k (Permutation_sym H)) in Hk. apply index_of_spec in Hk. lia. Qed.
Lemma nth_inv_perm ax n k : Permutation ax (seq 0 n) -> (k < n)%nat ->
  (nth k (inv_perm ax) 0 < n)%nat /\ nth (nth k (inv_perm ax) 0%nat) ax 0%nat = k.
Proof. intros H Hk. pose proof (Permutation_length H) as Hl. rewrite seq_length in Hl. unfold inv_perm.
  rewrite map_nth_in with (d := 0%nat) by (rewrite seq_length; lia). rewrite seq_nth by lia.
  change (0 + k)%nat with k.
  assert (Hi : In k ax) by (apply (Permutation_in k (Permutation_sym H)), in_seq; lia).
  apply index_of_spec in Hi. lia. Qed.
Lemma pick_inv {A} ax n (d : A) l : Permutation ax (seq 0 n) -> length l = n ->
  pick (inv_perm ax) d (pick ax d l) = l.
Proof. intros H Hl. pose proof (Permutation_length (inv_perm_perm _ _ H)) as Hi. rewrite seq_length in Hi.
  pose proof (Permutation_length H) as Ha. rewrite seq_length in Ha.
  apply nth_eq_ext with (d := d); rewrite pick_length, Hi; [auto|]. intros k Hk.
  rewrite nth_pick by lia. destruct (nth_inv_perm ax n k H Hk) as [H1 H2]. rewrite nth_pick by lia. congruence. Qed.
Lemma pick_inv_r {A} ax n (d : A) l : Permutation ax (seq 0 n) -> length l = n ->
  pick ax d (pick (inv_perm ax) d l) = l.
Proof. intros H Hl. pose proof (Permutation_length (inv_perm_perm _ _ H)) as Hi. rewrite seq_length in Hi.
  pose proof (Permutation_length H) as Ha. rewrite seq_length in Ha. apply perm_seq_iff in H as H'. destruct H' as (Hn & _ & Hb).
  apply nth_eq_ext with (d := d); rewrite pick_length, Ha; [auto|]. intros k Hk.
  rewrite nth_pick by lia. assert (Hin : (nth k ax 0 < n)%nat) by (apply Hb, nth_In; lia).
  rewrite nth_pick by lia. f_equal.
  unfold inv_perm. rewrite map_nth_in with (d := 0%nat) by (rewrite seq_length; lia). rewrite seq_nth by lia.
  apply index_of_nth; auto. lia. Qed.
Lemma valid_pick ax s ix : Permutation ax (seq 0 (length s)) -> valid s ix -> valid (pick ax 0%nat s) (pick ax 0%nat ix).
Proof. intros Hp Hv. apply valid_nth in Hv. destruct Hv as [Hl Hv]. apply valid_nth.
  rewrite !pick_length. split; auto. intros k Hk. rewrite !nth_pick by auto.
  apply Hv. apply perm_seq_iff in Hp. apply Hp, nth_In. auto. Qed.
Lemma valid_pick_inv ax s jx : Permutation ax (seq 0 (length s)) -> valid (pick ax 0%nat s) jx ->
  exists ix, valid s ix /\ jx = pick ax 0%nat ix.
Proof. intros Hp Hv. exists (pick (inv_perm ax) 0%nat jx).
  pose proof (inv_perm_perm _ _ Hp) as Hq. pose proof (Permutation_length Hp) as Ha. rewrite seq_length in Ha.
  split.
  - rewrite <- (pick_inv ax (length s) 0%nat s) at 1; auto. apply valid_pick; auto. now rewrite pick_length, Ha.
  - symmetry. apply pick_inv_r with (n := length s); auto. apply valid_length in Hv. now rewrite pick_length, Ha in Hv. Qed.

Lemma pick_perm {A} ax (d : A) l : Permutation ax (seq 0 (length l)) -> Permutation (pick ax d l) l.
Proof. intro H. unfold pick. rewrite (Permutation_map _ H), map_nth_seq. reflexivity. Qed.

(** ** transpose *)
Lemma transpose_spec l axes l' : transpose l axes = Ok l' <->
  exists ax, Forall2 (axis_denotes (ndim l)) axes ax /\ Permutation ax (seq 0 (ndim l)) /\
    l' = mkLayout (pick ax 0%nat (l_shape l)) (pick ax 0 (l_stride l)) (l_offset l).
Proof. unfold transpose. split.
  - intro H. destruct (Nat.eqb_spec (length axes) (ndim l)) as [E|E]; cbn [negb] in H; [|discriminate].
    apply bind_ok in H. destruct H as (ax & Hax & H). injection H as <-.
    apply normalize_spec in Hax. destruct Hax as (ax0 & Hf & [Hd|Hd] & ->); [discriminate|].
    exists ax0. repeat split; auto. apply perm_seq_iff. apply Forall2_length in Hf as Hl. repeat split; auto; try lia.
    intros a Ha. clear - Hf Ha. induction Hf; [easy|]. destruct Ha as [->|Ha]; [apply H|auto].
  - intros (ax & Hf & Hp & ->). apply perm_seq_iff in Hp. destruct Hp as (Hn & Hl & Hb).
    apply Forall2_length in Hf as Hl'. replace (length axes) with (ndim l) by congruence. rewrite Nat.eqb_refl. cbn [negb].
    assert (E : normalize_axes_index (AxVec axes) (ndim l) false false = Ok ax).
    { apply normalize_spec. exists ax. auto. }
    rewrite E. reflexivity. Qed.

Lemma transpose_elems l axes l' : wf l -> transpose l axes = Ok l' ->
  wf l' /\ exists ax, Forall2 (axis_denotes (ndim l)) axes ax /\ Permutation ax (seq 0 (ndim l)) /\
  l_shape l' = pick ax 0%nat (l_shape l) /\
  (forall ix, valid (l_shape l) ix ->
     valid (l_shape l') (pick ax 0%nat ix) /\ addr l' (pick ax 0%nat ix) = addr l ix) /\
  (forall jx, valid (l_shape l') jx -> exists ix, valid (l_shape l) ix /\ jx = pick ax 0%nat ix).
Proof. intros [Hw Ho] H. apply transpose_spec in H. destruct H as (ax & Hf & Hp & ->). cbn [l_shape].
  split; [split; cbn [l_shape l_stride l_offset]; [now rewrite !pick_length|now rewrite (size_perm _ _ (pick_perm ax 0%nat (l_shape l) Hp))]|].
  exists ax. repeat split; auto.
  - now apply valid_pick.
  - unfold addr. cbn. f_equal. apply dot_pick. rewrite Hw. symmetry. now apply valid_length.
    apply valid_length in H. now rewrite H.
  - intros jx Hj. now apply valid_pick_inv. Qed.

Lemma transpose_inverse l ax : wf l -> Permutation ax (seq 0 (ndim l)) ->
  let z := map Z.of_nat in
  exists l', transpose l (z ax) = Ok l' /\ transpose l' (z (inv_perm ax)) = Ok l.
Proof. intros [Hw Ho] Hp z.
  assert (D : forall bx n, Permutation bx (seq 0 n) -> Forall2 (axis_denotes n) (z bx) bx).
  { intros bx n Hb. apply perm_seq_iff in Hb. destruct Hb as (_ & _ & Hb). unfold z. clear - Hb.
    induction bx; constructor. split; [apply Hb; now left|now left]. apply IHbx. intros; apply Hb; now right. }
  exists (mkLayout (pick ax 0%nat (l_shape l)) (pick ax 0 (l_stride l)) (l_offset l)). split.
  - apply transpose_spec. exists ax. repeat split; auto.
  - assert (En : ndim (mkLayout (pick ax 0%nat (l_shape l)) (pick ax 0 (l_stride l)) (l_offset l)) = ndim l).
    { unfold ndim. cbn. rewrite pick_length, (Permutation_length Hp), seq_length. reflexivity. }
    apply transpose_spec. rewrite En. exists (inv_perm ax). repeat split.
    + apply D, inv_perm_perm; auto. + now apply inv_perm_perm.
    + cbn. rewrite !pick_inv with (n := ndim l); auto. now destruct l. Qed.

(** ** reverse_axes and swapaxes as permutations *)
Lemma reverse_axes_elems l ix : wf l -> valid (l_shape l) ix ->
  valid (l_shape (reverse_axes l)) (rev ix) /\ addr (reverse_axes l) (rev ix) = addr l ix.
Proof. intros [Hw _] Hv. split; [now apply valid_rev|]. unfold addr; cbn. f_equal. apply dot_rev.
  apply valid_length in Hv. congruence. Qed.
Lemma reverse_axes_involutive l : reverse_axes (reverse_axes l) = l.
Proof. destruct l; unfold reverse_axes; cbn. now rewrite !rev_involutive. Qed.

Definition swap_perm (n a b : nat) : list nat := map (fun k => if (k =? a)%nat then b else if (k =? b)%nat then a else k) (seq 0 n).
Lemma swap_perm_perm n a b : (a < n)%nat -> (b < n)%nat -> Permutation (swap_perm n a b) (seq 0 n).
Proof. intros Ha Hb. apply perm_seq_iff. unfold swap_perm. rewrite map_length, seq_length. split; [|split; auto].
  - apply NoDup_map_inj_in; [|apply seq_NoDup]. intros x y _ _.
    destruct (Nat.eqb_spec x a), (Nat.eqb_spec y a), (Nat.eqb_spec x b), (Nat.eqb_spec y b); lia.
  - intros k Hk. apply in_map_iff in Hk. destruct Hk as (j & <- & Hj). apply in_seq in Hj.
    destruct (j =? a)%nat, (j =? b)%nat; lia. Qed.
Lemma swap_at_pick {A} (l : list A) a b d : (a < length l)%nat -> (b < length l)%nat ->
  swap_at l a b = pick (swap_perm (length l) a b) d l.
Proof. intros Ha Hb. unfold swap_at.
  rewrite (nth_error_nth' l d Ha), (nth_error_nth' l d Hb).
  apply nth_eq_ext with (d := d).
  - rewrite !upd_length, pick_length. unfold swap_perm. now rewrite map_length, seq_length.
  - rewrite !upd_length. intros k Hk. rewrite nth_pick by (unfold swap_perm; rewrite map_length, seq_length; auto).
    unfold swap_perm. rewrite map_nth_in with (d := 0%nat) by (rewrite seq_length; auto). rewrite seq_nth by auto.
    change (0 + k)%nat with k. rewrite !nth_upd, upd_length.
    destruct (Nat.ltb_spec k (length l)); [|lia]. rewrite !andb_true_r.
    rewrite (Nat.eqb_sym b k), (Nat.eqb_sym a k).
    destruct (Nat.eqb_spec k b), (Nat.eqb_spec k a); subst; auto. Qed.
Lemma swapaxes_spec l a b l' : wf l -> swapaxes l a b = Ok l' <->
  exists i j, axis_denotes (ndim l) a i /\ axis_denotes (ndim l) b j /\
    l' = mkLayout (pick (swap_perm (ndim l) i j) 0%nat (l_shape l)) (pick (swap_perm (ndim l) i j) 0 (l_stride l)) (l_offset l).
Proof. intros [Hw _]. unfold swapaxes, ndim. split.
  - intro H. apply bind_ok in H. destruct H as (i & Hi & H). apply bind_ok in H. destruct H as (j & Hj & H).
    injection H as <-. apply check_axis_spec in Hi, Hj. exists i, j. repeat split; try apply Hi; try apply Hj.
    destruct Hi, Hj. f_equal; rewrite swap_at_pick with (d := 0%nat) || rewrite swap_at_pick with (d := 0); try lia; auto.
    now rewrite Hw.
  - intros (i & j & Hi & Hj & ->). pose proof Hi as [? _]. pose proof Hj as [? _].
    apply check_axis_spec in Hi, Hj. rewrite Hi. cbn [bind]. rewrite Hj. cbn [bind].
    do 2 f_equal; rewrite swap_at_pick with (d := 0%nat) || rewrite swap_at_pick with (d := 0); try lia; auto.
    now rewrite Hw. Qed.
