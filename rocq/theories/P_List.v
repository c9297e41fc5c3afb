(** List facts: sorting, outcome monad, updates. *)
From Verif Require Import Base.

(** ** outcome monad *)
Lemma bind_ok {A B} (m : res A) (f : A -> res B) b :
  bind m f = Ok b <-> exists a, m = Ok a /\ f a = Ok b.
Proof. destruct m; cbn; split; intro H; try discriminate; try (destruct H as (? & ? & ?); discriminate); eauto.
  destruct H as (x & H & Hf). injection H as ->. auto. Qed.
Lemma check_ok b e u : check b e = Ok u <-> b = true.
Proof. unfold check. destruct b, u; split; intro H; congruence. Qed.
Lemma map_res_ok {A B} (f : A -> res B) l r :
  map_res f l = Ok r <-> Forall2 (fun x y => f x = Ok y) l r.
Proof. revert r; induction l as [|x l IH]; intro r; cbn.
  - split; intro H; [injection H as <-; constructor|inversion H; auto].
  - split; intro H.
    + apply bind_ok in H. destruct H as (y & Hy & H). apply bind_ok in H. destruct H as (ys & Hys & H).
      injection H as <-. constructor; auto. now apply IH.
    + inversion H; subst. rewrite H2. cbn. apply IH in H4. rewrite H4. reflexivity. Qed.
Lemma map_res_not_panic {A B} (f : A -> res B) l : (forall x, In x l -> f x <> Panic) -> map_res f l <> Panic.
Proof. induction l as [|x l IH]; cbn; intro H; [discriminate|].
  pose proof (H x (or_introl eq_refl)). destruct (f x); cbn; try congruence.
  assert (map_res f l <> Panic) by (apply IH; intros; apply H; auto).
  destruct (map_res f l); cbn; congruence. Qed.

(** ** sort_by *)
Section Sort.
  Context {A : Type} (le : A -> A -> bool).
  Lemma insert_perm x l : Permutation (x :: l) (insert_sorted le x l).
  Proof. induction l as [|y l IH]; cbn; auto. destruct (le x y); auto.
    rewrite perm_swap. now constructor. Qed.
  Lemma sort_perm l : Permutation l (sort_by le l).
  Proof. induction l as [|x l IH]; cbn; auto. rewrite <- insert_perm. now constructor. Qed.
  Hypothesis le_total : forall x y, le x y = true \/ le y x = true.
  Hypothesis le_trans : forall x y z, le x y = true -> le y z = true -> le x z = true.
  Lemma insert_sorted_ok x l : StronglySorted (fun a b => le a b = true) l ->
    StronglySorted (fun a b => le a b = true) (insert_sorted le x l).
  Proof. induction l as [|y l IH]; cbn; intro H; [repeat constructor|].
    inversion H; subst. destruct (le x y) eqn:E.
    - constructor; auto. constructor; auto. rewrite Forall_forall in *. eauto.
    - constructor; auto. rewrite Forall_forall in *. intros z Hz.
      apply (Permutation_in z (Permutation_sym (insert_perm x l))) in Hz. destruct Hz as [<-|Hz]; auto.
      destruct (le_total x y); congruence. Qed.
  Lemma sort_sorted l : StronglySorted (fun a b => le a b = true) (sort_by le l).
  Proof. induction l; cbn; [constructor|]. now apply insert_sorted_ok. Qed.
End Sort.

Lemma sort_in {A} (le : A -> A -> bool) x l : In x (sort_by le l) <-> In x l.
Proof. split; apply Permutation_in; [symmetry|]; apply sort_perm. Qed.
Lemma sort_length {A} (le : A -> A -> bool) l : length (sort_by le l) = length l.
Proof. symmetry. apply Permutation_length, sort_perm. Qed.

(** ** upd *)
Lemma upd_length {A} (l : list A) i v : length (upd l i v) = length l.
Proof. revert i; induction l as [|x l IH]; intros [|i]; cbn; auto. Qed.
Lemma nth_error_upd_eq {A} (l : list A) i v : i < length l -> nth_error (upd l i v) i = Some v.
Proof. revert i; induction l as [|x l IH]; intros [|i] H; cbn in *; try lia; auto. apply IH; lia. Qed.
Lemma nth_error_upd_neq {A} (l : list A) i j v : i <> j -> nth_error (upd l i v) j = nth_error l j.
Proof. revert i j; induction l as [|x l IH]; intros [|i] [|j] H; cbn; auto; try lia. Qed.
Lemma nth_error_upd {A} (l : list A) i j v :
  nth_error (upd l i v) j = if (i =? j) && (j <? length l) then Some v else nth_error l j.
Proof. destruct (Nat.eqb_spec i j) as [->|H]; rewrite ?andb_true_l, ?andb_false_l.
  - destruct (Nat.ltb_spec j (length l)). now apply nth_error_upd_eq.
    rewrite !(proj2 (nth_error_None _ _)); auto. now rewrite upd_length.
  - now apply nth_error_upd_neq. Qed.

Lemma nth_upd {A} (l : list A) i j v d :
  nth j (upd l i v) d = if (i =? j) && (j <? length l) then v else nth j l d.
Proof. revert i j; induction l as [|x l IH]; intros [|i] [|j]; cbn; auto; try lia.
  - rewrite andb_false_r; reflexivity.
  - rewrite IH. reflexivity. Qed.

(** ** nth and lists *)
Lemma nth_eq_ext {A} (d : A) l1 l2 : length l1 = length l2 ->
  (forall k, k < length l1 -> nth k l1 d = nth k l2 d) -> l1 = l2.
Proof. revert l2; induction l1 as [|x l1 IH]; intros [|y l2] Hl H; cbn in *; try lia; auto.
  f_equal. apply (H 0); lia. apply IH; [lia|]. intros k Hk. apply (H (S k)); lia. Qed.
Lemma map_nth_seq {A} (d : A) l : map (fun k => nth k l d) (seq 0 (length l)) = l.
Proof. apply nth_eq_ext with (d := d). now rewrite map_length, seq_length.
  rewrite map_length, seq_length. intros k Hk.
  rewrite nth_indep with (d' := nth 0 l d) by (rewrite map_length, seq_length; auto).
  change (nth 0 l d) with ((fun k => nth k l d) 0). rewrite map_nth, seq_nth; auto. Qed.
Lemma map_nth_in {A B} (f : A -> B) l k d d' : k < length l -> nth k (map f l) d' = f (nth k l d).
Proof. intro. rewrite nth_indep with (d' := f d) by (now rewrite map_length). apply map_nth. Qed.
Lemma combine_split_r {A B} (l1 : list A) (l2 : list B) : length l1 = length l2 -> map fst (combine l1 l2) = l1.
Proof. revert l2; induction l1; intros [|y l2] H; cbn in *; auto; try lia. f_equal. apply IHl1; lia. Qed.
Lemma combine_snd {A B} (l1 : list A) (l2 : list B) : length l1 = length l2 -> map snd (combine l1 l2) = l2.
Proof. revert l2; induction l1; intros [|y l2] H; cbn in *; auto; try lia. f_equal. apply IHl1; lia. Qed.
Lemma combine_app {A B} (a1 a2 : list A) (b1 b2 : list B) : length a1 = length b1 ->
  combine (a1 ++ a2) (b1 ++ b2) = combine a1 b1 ++ combine a2 b2.
Proof. revert b1; induction a1; intros [|y b1] H; cbn in *; auto; try lia. f_equal. apply IHa1; lia. Qed.
Lemma combine_rev {A B} (a : list A) (b : list B) : length a = length b ->
  combine (rev a) (rev b) = rev (combine a b).
Proof. revert b; induction a; intros [|y b] H; cbn in *; auto; try lia.
  rewrite combine_app by (rewrite !rev_length; lia). rewrite IHa by lia. reflexivity. Qed.
Lemma nth_combine {A B} (a : list A) (b : list B) k da db : length a = length b ->
  nth k (combine a b) (da, db) = (nth k a da, nth k b db).
Proof. intro. now apply combine_nth. Qed.
Lemma Forall2_nth {A B} (R : A -> B -> Prop) l1 l2 da db : Forall2 R l1 l2 ->
  forall k, k < length l1 -> R (nth k l1 da) (nth k l2 db).
Proof. induction 1; cbn; intros k Hk; [lia|]. destruct k; auto. apply IHForall2; lia. Qed.
Lemma Forall2_intro_nth {A B} (R : A -> B -> Prop) l1 l2 da db : length l1 = length l2 ->
  (forall k, k < length l1 -> R (nth k l1 da) (nth k l2 db)) -> Forall2 R l1 l2.
Proof. revert l2; induction l1 as [|x l1 IH]; intros [|y l2] Hl H; cbn in *; try lia; constructor.
  apply (H 0); lia. apply IH; [lia|]. intros k Hk. apply (H (S k)); lia. Qed.
Lemma Forall2_fun {A B} (R : A -> B -> Prop) l r1 r2 :
  (forall x y z, R x y -> R x z -> y = z) -> Forall2 R l r1 -> Forall2 R l r2 -> r1 = r2.
Proof. intro HR. revert r1 r2; induction l; intros r1 r2 H1 H2; inversion H1; inversion H2; subst; auto. f_equal; eauto. Qed.

Lemma NoDup_map_inj_in {A B} (f : A -> B) l :
  (forall x y, In x l -> In y l -> f x = f y -> x = y) -> NoDup l -> NoDup (map f l).
Proof. intros Hi Hn. induction Hn as [|x l Hx Hn IH]; cbn; constructor.
  - intro H. apply in_map_iff in H. destruct H as (y & E & Hy). apply Hx.
    replace x with y; auto. apply Hi; cbn; auto.
  - apply IH. intros; apply Hi; cbn; auto. Qed.
Lemma app_inj_1 {A} (a b c d : list A) : length a = length c -> a ++ b = c ++ d -> a = c /\ b = d.
Proof. revert c; induction a as [|x a IH]; intros [|y c] Hl H; cbn in *; try discriminate; auto.
  injection H as -> H. destruct (IH c) as [-> ->]; auto. Qed.
Lemma app_inj_2 {A} (a b c d : list A) : length b = length d -> a ++ b = c ++ d -> a = c /\ b = d.
Proof. intros Hl H. apply app_inj_1; auto. apply (f_equal (@length A)) in H. rewrite !app_length in H. lia. Qed.
