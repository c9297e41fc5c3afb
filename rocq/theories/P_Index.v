(** Facts about index tuples, enumerations and addresses. *)
From Verif Require Import Base Spec.

Lemma Forall2_length {A B} (R : A -> B -> Prop) l1 l2 : Forall2 R l1 l2 -> length l1 = length l2.
Proof. induction 1; cbn; auto. Qed.
Lemma nth_error_ext {A} (l1 l2 : list A) : (forall k, nth_error l1 k = nth_error l2 k) -> l1 = l2.
Proof. revert l2; induction l1 as [|x l1 IH]; intros [|y l2] H; auto.
  - discriminate (H 0). - discriminate (H 0).
  - pose proof (H 0) as H0. cbn in H0. injection H0 as ->. f_equal. apply IH. intro k. apply (H (S k)). Qed.

(** ** size *)
Lemma size_cons n s : size (n :: s) = n * size s.
Proof. reflexivity. Qed.
Lemma size_app s t : size (s ++ t) = size s * size t.
Proof. induction s as [|n s IH]; cbn [app]; [change (size []) with 1; lia|].
  rewrite !size_cons, IH. lia. Qed.
Lemma size_rev s : size (rev s) = size s.
Proof. induction s as [|n s IH]; cbn [rev]; [reflexivity|]. rewrite size_app, IH, !size_cons. change (size []) with 1. lia. Qed.
Lemma size_pos_forall s : size s <> 0 <-> Forall (fun n => 0 < n) s.
Proof. induction s as [|n s IH]; split; intro H.
  - constructor. - cbn; lia.
  - rewrite size_cons in H. constructor; [lia|]. apply IH. nia.
  - inversion H; subst. rewrite size_cons. apply IH in H3. nia. Qed.
Lemma size_perm s t : Permutation s t -> size s = size t.
Proof. induction 1; rewrite ?size_cons in *; cbn in *; try lia. Qed.
Lemma size_firstn_skipn k s : size (firstn k s) * size (skipn k s) = size s.
Proof. rewrite <- size_app, firstn_skipn. reflexivity. Qed.
Lemma size_in_zero s : In 0 s -> size s = 0.
Proof. induction s as [|n s IH]; [easy|]. intros [->|H]; rewrite size_cons; [lia|rewrite IH by auto; lia]. Qed.

(** ** valid *)
Lemma valid_length s ix : valid s ix -> length ix = length s.
Proof. apply Forall2_length. Qed.
Lemma valid_nil ix : valid [] ix <-> ix = [].
Proof. split; intro H; [inversion H; auto|subst; constructor]. Qed.
Lemma valid_cons n s i ix : valid (n :: s) (i :: ix) <-> i < n /\ valid s ix.
Proof. split; intro H; [inversion H; auto|constructor; tauto]. Qed.
Lemma valid_cons_inv n s ix : valid (n :: s) ix -> exists i r, ix = i :: r /\ i < n /\ valid s r.
Proof. intro H; inversion H; subst; eauto. Qed.
Lemma valid_app s t ix jx : length ix = length s ->
  valid (s ++ t) (ix ++ jx) <-> valid s ix /\ valid t jx.
Proof. revert ix; induction s as [|n s IH]; intros [|i ix] Hl; cbn in *; try lia.
  - split; [intro; split; [constructor|auto]|tauto].
  - rewrite !valid_cons, IH by lia. tauto. Qed.
Lemma valid_app_inv s t ix : valid (s ++ t) ix ->
  exists a b, ix = a ++ b /\ valid s a /\ valid t b.
Proof. intro H. apply Forall2_app_inv_r in H. destruct H as (a & b & Ha & Hb & ->). eauto. Qed.
Lemma valid_rev s ix : valid s ix -> valid (rev s) (rev ix).
Proof. induction 1; cbn [rev]; [constructor|]. apply valid_app. rewrite !rev_length. eapply Forall2_length; eauto.
  split; [auto|repeat constructor; auto]. Qed.
Lemma valid_rev_iff s ix : valid (rev s) (rev ix) <-> valid s ix.
Proof. split; [|apply valid_rev]. intro H. apply valid_rev in H. now rewrite !rev_involutive in H. Qed.
Lemma valid_nth s ix : valid s ix <->
  length ix = length s /\ forall k, k < length s -> nth k ix 0 < nth k s 0.
Proof. revert ix; induction s as [|n s IH]; intros [|i ix]; split.
  - intros _; split; [reflexivity|]; cbn; lia. - constructor. - inversion 1. - intros [H _]; cbn in H; lia.
  - inversion 1. - intros [H _]; cbn in H; lia.
  - rewrite valid_cons, IH. intros (H1 & H2 & H3). split; [cbn; lia|].
    intros [|k] Hk; cbn in *; [lia|]. apply H3; lia.
  - intros [H1 H2]. rewrite valid_cons, IH. split; [apply (H2 0); cbn; lia|]. split; [cbn in H1; lia|].
    intros k Hk. apply (H2 (S k)); cbn; lia. Qed.
Lemma valid_size_pos s ix : valid s ix -> size s <> 0.
Proof. intro H. apply size_pos_forall. induction H; constructor; auto; lia. Qed.
Lemma valid_zeros s : size s <> 0 -> valid s (repeat 0 (length s)).
Proof. intro H. apply size_pos_forall in H. induction H; cbn; constructor; auto. Qed.
Definition last_ix (s : list nat) : list nat := map (fun n => n - 1) s.
Lemma valid_last s : size s <> 0 -> valid s (last_ix s).
Proof. intro H. apply size_pos_forall in H. induction H; cbn; constructor; auto; lia. Qed.

(** ** dot *)
Lemma dot_nil_r st : dot st [] = 0%Z. Proof. destruct st; reflexivity. Qed.
Lemma dot_nil_l ix : dot [] ix = 0%Z. Proof. reflexivity. Qed.
Lemma dot_app st1 st2 i1 i2 : length st1 = length i1 ->
  dot (st1 ++ st2) (i1 ++ i2) = (dot st1 i1 + dot st2 i2)%Z.
Proof. revert i1; induction st1 as [|t st1 IH]; intros [|i i1] H; cbn in *; try lia.
  rewrite IH by lia. lia. Qed.
Lemma dot_rev st ix : length st = length ix -> dot (rev st) (rev ix) = dot st ix.
Proof. revert ix; induction st as [|t st IH]; intros [|i ix] H; cbn [rev] in *; try discriminate; [reflexivity|].
  cbn in H. rewrite dot_app by (rewrite !rev_length; lia). rewrite IH by lia. cbn. lia. Qed.
Lemma dot_zeros st n : dot st (repeat 0 n) = 0%Z.
Proof. revert n; induction st as [|t st IH]; intros [|n]; cbn; auto. rewrite IH. lia. Qed.

(** ** enumerations *)
Lemma in_row_major s ix : In ix (row_major s) <-> valid s ix.
Proof. revert ix; induction s as [|n s IH]; intro ix; cbn [row_major].
  - rewrite valid_nil. cbn. split; [intros [H|[]]; auto|auto].
  - rewrite in_flat_map. split.
    + intros (i & Hi & H). apply in_map_iff in H. destruct H as (r & <- & Hr).
      apply in_seq in Hi. apply valid_cons. split; [lia|]. now apply IH.
    + intro H. apply valid_cons_inv in H. destruct H as (i & r & -> & Hi & Hr).
      exists i. split; [apply in_seq; lia|]. apply in_map. now apply IH. Qed.
Lemma in_col_major s ix : In ix (col_major s) <-> valid s ix.
Proof. revert ix; induction s as [|n s IH]; intro ix; cbn [col_major].
  - rewrite valid_nil. cbn. split; [intros [H|[]]; auto|auto].
  - rewrite in_flat_map. split.
    + intros (r & Hr & H). apply in_map_iff in H. destruct H as (i & <- & Hi).
      apply in_seq in Hi. apply valid_cons. split; [lia|]. now apply IH.
    + intro H. apply valid_cons_inv in H. destruct H as (i & r & -> & Hi & Hr).
      exists r. split; [now apply IH|]. apply in_map_iff. exists i. split; [auto|apply in_seq; lia]. Qed.
Lemma flat_map_length_const {A B} (f : A -> list B) l k :
  (forall x, In x l -> length (f x) = k) -> length (flat_map f l) = length l * k.
Proof. induction l as [|x l IH]; intro H; cbn; [auto|]. rewrite app_length, H, IH; cbn; auto. intros; apply H; cbn; auto. Qed.
Lemma length_row_major s : length (row_major s) = size s.
Proof. induction s as [|n s IH]; cbn [row_major]; [reflexivity|].
  rewrite flat_map_length_const with (k := size s). rewrite seq_length. reflexivity.
  intros; rewrite map_length; auto. Qed.
Lemma length_col_major s : length (col_major s) = size s.
Proof. induction s as [|n s IH]; cbn [col_major]; [reflexivity|].
  rewrite flat_map_length_const with (k := n). rewrite size_cons, IH; lia.
  intros; now rewrite map_length, seq_length. Qed.
Lemma NoDup_flat_map {A B} (f : A -> list B) l :
  NoDup l -> (forall x, In x l -> NoDup (f x)) ->
  (forall x y b, In x l -> In y l -> In b (f x) -> In b (f y) -> x = y) -> NoDup (flat_map f l).
Proof. induction l as [|x l IH]; intros Hl Hf Hd; cbn; [constructor|]. inversion Hl; subst.
  assert (Happ : forall (a b : list B), NoDup a -> NoDup b -> (forall z, In z a -> ~ In z b) -> NoDup (a ++ b)).
  { clear. induction a as [|z a IH]; intros b Ha Hb Hab; cbn; auto. inversion Ha; subst.
    constructor. rewrite in_app_iff. intros [H|H]; [auto|]. apply (Hab z); cbn; auto.
    apply IH; auto. intros w Hw. apply Hab; cbn; auto. }
  apply Happ.
  - apply Hf; cbn; auto.
  - apply IH; auto. intros; apply Hf; cbn; auto. intros; eapply Hd; cbn; eauto.
  - intros z Hz Hz'. apply in_flat_map in Hz'. destruct Hz' as (y & Hy & Hzy).
    assert (x = y) by (eapply Hd; cbn; eauto). subst. auto. Qed.
Lemma NoDup_row_major s : NoDup (row_major s).
Proof. induction s as [|n s IH]; cbn [row_major]; [repeat constructor; cbn; tauto|].
  apply NoDup_flat_map. apply seq_NoDup.
  - intros. apply FinFun.Injective_map_NoDup; auto. intros a b H0. now inversion H0.
  - intros x y b _ _ H1 H2. apply in_map_iff in H1, H2. destruct H1 as (? & <- & _), H2 as (? & H2 & _). congruence. Qed.
Lemma NoDup_col_major s : NoDup (col_major s).
Proof. induction s as [|n s IH]; cbn [col_major]; [repeat constructor; cbn; tauto|].
  apply NoDup_flat_map. auto.
  - intros. apply FinFun.Injective_map_NoDup. intros a b H0. now inversion H0. apply seq_NoDup.
  - intros x y b _ _ H1 H2. apply in_map_iff in H1, H2. destruct H1 as (? & <- & _), H2 as (? & H2 & _). congruence. Qed.
Lemma row_col_perm s : Permutation (row_major s) (col_major s).
Proof. apply NoDup_Permutation; auto using NoDup_row_major, NoDup_col_major.
  intro. rewrite in_row_major, in_col_major. tauto. Qed.

Lemma flat_map_map {A B C} (f : B -> list C) (g : A -> B) l : flat_map f (map g l) = flat_map (fun x => f (g x)) l.
Proof. induction l; cbn; congruence. Qed.
Lemma map_flat_map {A B C} (f : B -> C) (g : A -> list B) l : map f (flat_map g l) = flat_map (fun x => map f (g x)) l.
Proof. induction l; cbn; auto. rewrite map_app. congruence. Qed.
Lemma flat_map_flat_map {A B C} (f : B -> list C) (g : A -> list B) l :
  flat_map f (flat_map g l) = flat_map (fun x => flat_map f (g x)) l.
Proof. induction l; cbn; auto. rewrite flat_map_app. congruence. Qed.
Lemma flat_map_ext_in {A B} (f g : A -> list B) l : (forall x, In x l -> f x = g x) -> flat_map f l = flat_map g l.
Proof. induction l as [|x l IH]; intro H; cbn; auto. rewrite H, IH; cbn; auto. intros; apply H; cbn; auto. Qed.
Lemma flat_map_singleton {A B} (f : A -> B) l : flat_map (fun x => [f x]) l = map f l.
Proof. induction l; cbn; congruence. Qed.

Lemma row_major_app s t :
  row_major (s ++ t) = flat_map (fun a => map (fun b => a ++ b) (row_major t)) (row_major s).
Proof. induction s as [|n s IH]; cbn [app row_major flat_map].
  - rewrite app_nil_r. now rewrite map_id.
  - rewrite flat_map_flat_map. apply flat_map_ext_in. intros i _. rewrite IH, map_flat_map, flat_map_map.
    apply flat_map_ext_in. intros a _. now rewrite map_map. Qed.
Lemma col_major_app s t :
  col_major (s ++ t) = flat_map (fun b => map (fun a => a ++ b) (col_major s)) (col_major t).
Proof. induction s as [|n s IH]; cbn [app col_major].
  - cbn. now rewrite flat_map_singleton, map_id.
  - rewrite IH, flat_map_flat_map. apply flat_map_ext_in. intros b _.
    rewrite flat_map_map, map_flat_map. apply flat_map_ext_in. intros a _. now rewrite map_map. Qed.
Lemma col_major_rev s : col_major s = map (@rev nat) (row_major (rev s)).
Proof. induction s as [|n s IH]; cbn [col_major rev]; [reflexivity|].
  rewrite row_major_app, map_flat_map, IH, flat_map_map. apply flat_map_ext_in. intros r _.
  cbn. rewrite map_map, map_flat_map, <- flat_map_singleton. apply flat_map_ext_in. intros i _.
  cbn. now rewrite rev_app_distr. Qed.
Lemma row_major_rev s : row_major s = map (@rev nat) (col_major (rev s)).
Proof. rewrite col_major_rev, rev_involutive, map_map. rewrite <- map_id at 1. apply map_ext. intro; now rewrite rev_involutive. Qed.

(** ** positions in the enumerations *)
Fixpoint unrav_f (s : list nat) (k : nat) : list nat :=
  match s with
  | [] => []
  | [_] => [k]
  | d :: s' => k mod d :: unrav_f s' (k / d)
  end.
Fixpoint rav_f (s ix : list nat) : nat :=
  match s, ix with d :: s', i :: ix' => i + d * rav_f s' ix' | _, _ => 0 end.
Fixpoint rav_c (s ix : list nat) : nat :=
  match s, ix with d :: s', i :: ix' => i * size s' + rav_c s' ix' | _, _ => 0 end.

Lemma rav_f_cons d s i ix : rav_f (d :: s) (i :: ix) = i + d * rav_f s ix.
Proof. reflexivity. Qed.
Lemma rav_c_cons d s i ix : rav_c (d :: s) (i :: ix) = i * size s + rav_c s ix.
Proof. reflexivity. Qed.
Lemma rav_f_bound s ix : valid s ix -> rav_f s ix < size s.
Proof. induction 1; cbn [rav_f]; [cbn; lia|]. rewrite size_cons. nia. Qed.
Lemma rav_c_bound s ix : valid s ix -> rav_c s ix < size s.
Proof. induction 1; cbn [rav_c]; [cbn; lia|]. rewrite size_cons. nia. Qed.

Lemma nth_error_flat_map_const {A B} (f : A -> list B) l m k x :
  (forall a, In a l -> length (f a) = m) -> 0 < m -> nth_error l (k / m) = Some x ->
  nth_error (flat_map f l) k = nth_error (f x) (k mod m).
Proof. revert k. induction l as [|a l IH]; intros k Hf Hm Hx.
  - destruct (k / m); discriminate.
  - cbn [flat_map]. destruct (Nat.lt_ge_cases k m) as [Hk|Hk].
    + rewrite Nat.div_small in Hx by auto. cbn in Hx. injection Hx as <-.
      rewrite nth_error_app1 by (rewrite Hf; cbn; auto). now rewrite Nat.mod_small.
    + rewrite nth_error_app2 by (rewrite Hf; cbn; auto). rewrite Hf by (cbn; auto).
      replace k with ((k - m) + 1 * m) in Hx at 1 by lia. rewrite Nat.div_add in Hx by lia.
      rewrite Nat.add_1_r in Hx. cbn in Hx. rewrite IH; auto. 2: intros; apply Hf; cbn; auto.
      f_equal. replace k with ((k - m) + 1 * m) at 2 by lia. now rewrite Nat.mod_add by lia. Qed.

Lemma nth_error_seq n a k : k < n -> nth_error (seq a n) k = Some (a + k).
Proof. intro H. rewrite nth_error_nth' with (d := 0) by (rewrite seq_length; auto). now rewrite seq_nth. Qed.

Lemma unrav_f_cons d s k : s <> [] -> unrav_f (d :: s) k = k mod d :: unrav_f s (k / d).
Proof. destruct s; [congruence|reflexivity]. Qed.

Lemma nth_col_major s k : k < size s -> nth_error (col_major s) k = Some (unrav_f s k).
Proof. revert k; induction s as [|d s IH]; intros k Hk.
  - cbn in *. replace k with 0 by lia. reflexivity.
  - destruct s as [|e s].
    + cbn in *. rewrite app_nil_r. rewrite nth_error_map, nth_error_seq by lia. reflexivity.
    + rewrite size_cons in Hk. rewrite unrav_f_cons by discriminate.
      change (col_major (d :: e :: s)) with
        (flat_map (fun r => map (fun i => i :: r) (seq 0 d)) (col_major (e :: s))).
      rewrite nth_error_flat_map_const with (m := d) (x := unrav_f (e :: s) (k / d)).
      * rewrite nth_error_map, nth_error_seq by (apply Nat.mod_upper_bound; nia). reflexivity.
      * intros. now rewrite map_length, seq_length.
      * nia.
      * apply IH. apply Nat.div_lt_upper_bound; nia. Qed.
Lemma unrav_f_valid s k : k < size s -> valid s (unrav_f s k).
Proof. intro H. apply in_col_major. eapply nth_error_In. now apply nth_col_major. Qed.
Lemma rav_unrav_f s k : k < size s -> rav_f s (unrav_f s k) = k.
Proof. revert k; induction s as [|d s IH]; intros k Hk; [cbn in *; lia|].
  destruct s as [|e s]; [cbn in *; lia|]. rewrite unrav_f_cons by discriminate. rewrite size_cons in Hk.
  rewrite rav_f_cons, IH.
  pose proof (Nat.div_mod k d). nia. apply Nat.div_lt_upper_bound; nia. Qed.
Lemma unrav_rav_f s ix : valid s ix -> unrav_f s (rav_f s ix) = ix.
Proof. induction 1 as [|i d ix s Hi Hv IH]; [reflexivity|]. destruct s as [|e s].
  - inversion Hv; subst. cbn. f_equal. lia.
  - rewrite unrav_f_cons by discriminate. rewrite rav_f_cons.
    replace (i + d * rav_f (e :: s) ix) with (i + rav_f (e :: s) ix * d) by lia.
    rewrite Nat.mod_add, Nat.div_add by lia. rewrite Nat.mod_small, Nat.div_small by lia. cbn [Nat.add].
    now rewrite IH. Qed.
Lemma nth_row_major s k : k < size s -> nth_error (row_major s) k = Some (rev (unrav_f (rev s) k)).
Proof. intro H. rewrite row_major_rev, nth_error_map, nth_col_major by now rewrite size_rev. reflexivity. Qed.

Lemma rav_f_app s t ix jx : length ix = length s -> rav_f (s ++ t) (ix ++ jx) = rav_f s ix + size s * rav_f t jx.
Proof. revert ix; induction s as [|d s IH]; intros [|i ix] H; try discriminate.
  - cbn. lia. - cbn in H; cbn [app rav_f]. rewrite IH, size_cons by lia. nia. Qed.
Lemma rav_c_rev s ix : length ix = length s -> rav_c s ix = rav_f (rev s) (rev ix).
Proof. revert ix; induction s as [|d s IH]; intros [|i ix] H; try discriminate; [reflexivity|]; cbn in H.
  cbn [rev rav_c]. rewrite rav_f_app by (rewrite !rev_length; lia). rewrite IH, size_rev by lia. cbn. lia. Qed.
Lemma rav_f_rev s ix : length ix = length s -> rav_f s ix = rav_c (rev s) (rev ix).
Proof. intro. rewrite rav_c_rev, !rev_involutive; auto. rewrite !rev_length; auto. Qed.

Lemma map_rav_f_col_major s : map (rav_f s) (col_major s) = seq 0 (size s).
Proof. apply nth_error_ext. intro k. rewrite nth_error_map.
  destruct (Nat.lt_ge_cases k (size s)) as [H|H].
  - rewrite nth_col_major, nth_error_seq by auto. cbn. now rewrite rav_unrav_f.
  - rewrite (proj2 (nth_error_None (col_major s) k)) by (rewrite length_col_major; auto).
    cbn. symmetry. apply nth_error_None. now rewrite seq_length. Qed.
Lemma map_rav_c_row_major s : map (rav_c s) (row_major s) = seq 0 (size s).
Proof. rewrite row_major_rev, map_map. rewrite <- size_rev, <- map_rav_f_col_major. apply map_ext_in.
  intros ix H. apply in_col_major, valid_length in H. rewrite rav_c_rev by (now rewrite rev_length, H, rev_length).
  now rewrite rev_involutive. Qed.
