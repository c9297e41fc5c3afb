(** Proofs about concat, stack and friends: whole functions. *)
From Verif Require Import Base Spec P_Index P_List M_Layout P_Layout P_Bounds P_Contig P_Strides M_Indexer P_Indexer Q_Indexer M_Broadcast P_Broadcast M_Reshape M_Rearr M_Iter P_Iter P_Rearr P_BinOp Q_Rearr M_Kernel P_Kernel Q_Kernel M_Tensor P_Tensor Q_Tensor Q_Copy P_Axes M_Manip Spec_Views P_Manip Q_Manip M_Matmul P_Matmul P_Matmul2 P_Tri P_Tri2 P_Tri3 M_Concat Spec_Concat P_Concat.
Local Open Scope Z_scope.

(** ** shapes *)
Lemma alike_refl a s : alike a s s.
Proof. split; auto. Qed.
Lemma alike_sym a s t : alike a s t -> alike a t s.
Proof. intros [L H]. split; auto. intros. symmetry. auto. Qed.
Lemma alike_trans a s t u : alike a s t -> alike a t u -> alike a s u.
Proof. intros [L H] [L' H']. split; [congruence|]. intros. rewrite H; auto. Qed.
Lemma nth_remove {A} (l : list A) a k d : (a < length l)%nat -> nth k (remove_at l a) d = if (k <? a)%nat then nth k l d else nth (S k) l d.
Proof. intro Ha. unfold remove_at. destruct (Nat.ltb_spec k a).
  - rewrite app_nth1 by (rewrite firstn_length; lia). now rewrite nth_firstn_lt.
  - rewrite app_nth2 by (rewrite firstn_length; lia). rewrite firstn_length, Nat.min_l by lia. rewrite nth_skipn_gen. f_equal. lia. Qed.
Lemma alike_remove a s t : (a < length s)%nat -> length s = length t -> (alike a s t <-> remove_at s a = remove_at t a).
Proof. intros Ha L. split.
  - intros [_ H]. apply nth_ext with (d := 0%nat) (d' := 0%nat); [rewrite !remove_length; lia|]. intros k _. rewrite !nth_remove by lia. destruct (Nat.ltb_spec k a); apply H; lia.
  - intro E. split; auto. intros k Hk. destruct (Nat.lt_ge_cases k a).
    + pose proof (f_equal (fun v => nth k v 0%nat) E) as X. cbn beta in X. rewrite !nth_remove in X by lia. replace (k <? a)%nat with true in X by lia. auto.
    + pose proof (f_equal (fun v => nth (k - 1) v 0%nat) E) as X. cbn beta in X. rewrite !nth_remove in X by lia. replace (k - 1 <? a)%nat with false in X by lia. replace (S (k - 1)) with k in X by lia. auto. Qed.
Lemma alike_upd a s t : (a < length s)%nat -> alike a s t -> s = upd t a (nth a s 0%nat).
Proof. intros Ha [L H]. apply nth_ext with (d := 0%nat) (d' := 0%nat); [now rewrite upd_length|]. intros k Hk. rewrite nth_upd. destruct (Nat.eqb_spec a k) as [->|Ne].
  - replace (k <? length t)%nat with true by lia. reflexivity.
  - cbn. apply H. auto. Qed.
Lemma alike_insert a s n : (a < length s)%nat -> alike a s (insert_at (remove_at s a) a n) /\ nth a (insert_at (remove_at s a) a n) 0%nat = n.
Proof. intros Ha. assert (Lr := remove_length s a Ha). split; [split|].
  - rewrite insert_length; lia.
  - intros k Hk. rewrite nth_insert by lia. destruct (Nat.ltb_spec k a); [rewrite nth_remove by lia; now replace (k <? a)%nat with true by lia|]. replace (k =? a)%nat with false by lia. rewrite nth_remove by lia. replace (k - 1 <? a)%nat with false by lia. f_equal. lia.
  - rewrite nth_insert by lia. rewrite Nat.ltb_irrefl, Nat.eqb_refl. reflexivity. Qed.

Lemma same_shape_spec s t : same_shape s t = true <-> s = t.
Proof. unfold same_shape. destruct (list_eq_dec _ _ _); split; congruence. Qed.
Lemma map_check {A} (f : A -> bool) e l : (Forall (fun x => f x = true) l -> exists us, map_res (fun x => check (f x) e) l = Ok us) /\ (~ Forall (fun x => f x = true) l -> map_res (fun x => check (f x) e) l = Err e).
Proof. induction l as [|x l [IH1 IH2]]; cbn; split; intro H; [eauto|exfalso; apply H; constructor| |].
  - inversion H as [|? ? Hx Hl]; subst. rewrite Hx. cbn. destruct (IH1 Hl) as (us & ->). cbn. eauto.
  - destruct (f x) eqn:E; cbn; auto. rewrite IH2; auto. Qed.
Lemma shape_sum {T} a other (ts : list (tensor T)) : forall m,
  (Forall (fun t => remove_at (t_shape t) a = other) ts -> fold_res (fun n t => let* _ := check (same_shape (remove_at (t_shape t) a) other) InvalidLayout in Ok (n + extent (t_layout t) a)%nat) ts m = Ok (m + start a ts (length ts))%nat) /\
  (~ Forall (fun t => remove_at (t_shape t) a = other) ts -> fold_res (fun n t => let* _ := check (same_shape (remove_at (t_shape t) a) other) InvalidLayout in Ok (n + extent (t_layout t) a)%nat) ts m = Err InvalidLayout).
Proof. induction ts as [|t ts IH]; intros m; split; intro H.
  - cbn. now rewrite Nat.add_0_r.
  - exfalso. apply H. constructor.
  - inversion H as [|? ? Hx Hl]; subst. cbn [fold_res]. rewrite (proj2 (same_shape_spec _ _) eq_refl). cbn [check bind]. rewrite (proj1 (IH _)) by auto. cbn [length]. rewrite start_S. change (extent (t_layout t) a) with (along a t). f_equal. lia.
  - cbn [fold_res]. destruct (same_shape (remove_at (t_shape t) a) other) eqn:E; cbn [check bind]; auto. apply same_shape_spec in E. apply IH. intro X. apply H. constructor; auto. Qed.
Lemma concat_shape_ok {T} (ts : list (tensor T)) axis a : can_concat (map t_shape ts) axis a ->
  exists t0 rest, ts = t0 :: rest /\ (a < length (t_shape t0))%nat /\ Forall (fun t => alike a (t_shape t0) (t_shape t)) ts /\ concat_shape ts axis = Ok (a, remove_at (t_shape t0) a, start a ts (length ts)).
Proof. intros (s0 & rest & E & D & F). destruct ts as [|t0 ts]; [discriminate|]. cbn [map] in E. injection E as <- <-. exists t0, ts. split; auto. pose proof (proj1 D) as Ha. split; auto. change (t_shape t0 :: map t_shape ts) with (map t_shape (t0 :: ts)) in F. rewrite Forall_map in F. split; auto.
  unfold concat_shape. replace (0 <? ndim (t_layout t0))%nat with true by (symmetry; apply Nat.ltb_lt; unfold ndim; fold (t_shape t0); lia). cbn [check bind].
  destruct (proj1 (map_check (fun t : tensor T => ndim (t_layout t) =? ndim (t_layout t0))%nat InvalidLayout (t0 :: ts))) as (us & ->).
  { eapply Forall_impl; [|exact F]. intros t [L _]. apply Nat.eqb_eq. unfold ndim. symmetry. exact L. }
  cbn [bind]. rewrite (proj2 (check_axis_spec axis (ndim (t_layout t0)) a) D). cbn [bind]. rewrite (proj1 (shape_sum a (remove_at (t_shape t0) a) (t0 :: ts) 0%nat)).
  - reflexivity.
  - eapply Forall_impl; [|exact F]. intros t X. symmetry. apply alike_remove; auto. apply X. Qed.
Lemma concat_shape_err {T} (ts : list (tensor T)) axis : (~ exists a, can_concat (map t_shape ts) axis a) -> exists e, concat_shape ts axis = Err e.
Proof. intro H. destruct ts as [|t0 ts]; [cbn; eauto|]. unfold concat_shape. destruct (0 <? ndim (t_layout t0))%nat eqn:E0; cbn [check bind]; [|eauto].
  destruct (map_check (fun t : tensor T => ndim (t_layout t) =? ndim (t_layout t0))%nat InvalidLayout (t0 :: ts)) as [M1 M2].
  destruct (Forall_dec (fun t : tensor T => (ndim (t_layout t) =? ndim (t_layout t0))%nat = true) ltac:(intro; apply Bool.bool_dec) (t0 :: ts)) as [Fn|Fn]; [|rewrite M2 by auto; cbn; eauto].
  destruct (M1 Fn) as (us & ->). cbn [bind]. destruct (check_axis axis (ndim (t_layout t0))) as [a|e|] eqn:Ea; cbn [bind]; [|eauto|unfold check_axis in Ea; destruct (_ && _) in Ea; discriminate].
  destruct (shape_sum a (remove_at (t_shape t0) a) (t0 :: ts) 0%nat) as [_ S2].
  destruct (Forall_dec (fun t : tensor T => remove_at (t_shape t) a = remove_at (t_shape t0) a) ltac:(intro; apply list_eq_dec, Nat.eq_dec) (t0 :: ts)) as [Fr|Fr]; [|rewrite S2 by auto; cbn; eauto].
  exfalso. apply H. exists a, (t_shape t0), (map t_shape ts). split; auto. apply check_axis_spec in Ea. split; auto. change (t_shape t0 :: map t_shape ts) with (map t_shape (t0 :: ts)). rewrite Forall_map. apply Forall_forall. intros t Ht.
  rewrite Forall_forall in Fn, Fr. specialize (Fn t Ht). specialize (Fr t Ht). apply Nat.eqb_eq in Fn. apply alike_remove; auto. apply (proj1 Ea). Qed.

(** ** the result *)
Lemma joined {T} o (ts : list (tensor T)) (t0 : tensor T) a (c' : list (option T)) : Forall tensor_ok ts -> In t0 ts -> (a < length (t_shape t0))%nat -> Forall (fun t => alike a (t_shape t0) (t_shape t)) ts ->
  let l := new_contig Dyn (insert_at (remove_at (t_shape t0) a) a (start a ts (length ts))) 0 o in
  filled l a ts (uninit T (Z.of_nat (size (l_shape l)))) 0 c' ->
  exists d, assume_init c' = Ok d /\ tensor_ok (mkTensor d l) /\ side_by_side a ts (mkTensor d l).
Proof. intros F In0 Ha A l (L & _ & Q). destruct (alike_insert a (t_shape t0) (start a ts (length ts)) Ha) as [Al Nl]. set (sh := insert_at _ _ _) in *. destruct (contig_facts Dyn sh o) as (G & J & Cv & Sl & O). fold l in G, J, Cv, Sl, O.
  assert (LU : length (uninit T (Z.of_nat (size (l_shape l)))) = size sh) by (rewrite uninit_length by lia; rewrite Sl; lia).
  set (P := fun jx (v : T) => exists i t, nth_error ts i = Some t /\ (start a ts i <= nth a jx 0%nat < start a ts i + along a t)%nat /\ let ix := upd jx a (nth a jx 0 - start a ts i)%nat in valid (t_shape t) ix /\ at_ t ix = Some v).
  destruct (fresh_result l c' P) as (d & E1 & E2 & Ld & Id & Qd); auto. { now rewrite L, LU. }
  { intros jx V. pose proof V as V'. apply valid_nth in V' as [Lj V']. rewrite Sl in V', Lj. assert (La : (a < length sh)%nat) by (destruct Al; lia). specialize (V' a La). rewrite Nl in V'.
    destruct (locate a ts _ V') as (i & t & Ei & R). pose proof (nth_error_In _ _ Ei) as Hi. rewrite Forall_forall in A. specialize (A t Hi).
    assert (St : t_shape t = upd sh a (along a t)). { apply alike_upd; [destruct A; lia|]. eapply alike_trans; [apply alike_sym; exact A|exact Al]. }
    set (ix := upd jx a (nth a jx 0 - start a ts i)%nat) in *. assert (Vx : valid (t_shape t) ix). { rewrite St. apply valid_upd_inv; auto; [now rewrite Sl in V|lia]. }
    destruct (Q i t ix Ei Vx) as (v & Hv & Hc). exists v. split; [|exists i, t; auto].
    rewrite <- Hc. f_equal. unfold ix. rewrite nth_upd_same by lia. rewrite P_Indexer.upd_upd. replace (0 + start a ts i + (nth a jx 0 - start a ts i))%nat with (nth a jx 0%nat) by lia. now rewrite upd_same. }
  exists d. split; auto. split; [apply tensor_ok_good; auto|]. split; [|split].
  - eapply Forall_impl; [|exact A]. intros t X. unfold t_shape at 2. cbn [t_layout]. rewrite Sl. eapply alike_trans; [apply alike_sym; exact X|exact Al].
  - unfold along, t_shape. cbn [t_layout]. rewrite Sl. exact Nl.
  - intros jx V. destruct (Qd jx V) as (v & Hv & i & t & Ei & R & Vx & Hx). exists i, t, v. auto. Qed.
Lemma parts {T} o (ts : list (tensor T)) (t0 : tensor T) a n : Forall tensor_ok ts -> (a < length (t_shape t0))%nat -> Forall (fun t => alike a (t_shape t0) (t_shape t)) ts ->
  Forall (part_of (new_contig Dyn (insert_at (remove_at (t_shape t0) a) a n) 0 o) a) ts.
Proof. intros F Ha A. destruct (alike_insert a (t_shape t0) n Ha) as [Al Nl]. rewrite Forall_forall in *. intros t Ht. split; auto. destruct (contig_facts Dyn (insert_at (remove_at (t_shape t0) a) a n) o) as (_ & _ & _ & -> & _). pose proof (proj1 (A t Ht)).
  apply alike_upd; [lia|]. eapply alike_trans; [apply alike_sym, A; auto|exact Al]. Qed.
Lemma concat_ok {T} o (ts : list (tensor T)) axis a : Forall tensor_ok ts -> can_concat (map t_shape ts) axis a ->
  exists r, concat_f o ts axis = Ok r /\ tensor_ok r /\ side_by_side a ts r /\ t_layout r = new_contig Dyn (t_shape r) 0 o.
Proof. intros F C. destruct (concat_shape_ok ts axis a C) as (t0 & rest & E & Ha & A & Es). unfold concat_f. rewrite Es. cbn [bind].
  pose proof (parts o ts t0 a (start a ts (length ts)) F Ha A) as Pt. set (sh := insert_at (remove_at (t_shape t0) a) a (start a ts (length ts))) in *. set (l := new_contig Dyn sh 0 o) in *.
  destruct (contig_facts Dyn sh o) as (G & J & Cv & Sl & O). fold l in G, J, Cv, Sl, O. destruct (alike_insert a (t_shape t0) (start a ts (length ts)) Ha) as [Al Nl]. fold sh in Al, Nl.
  destruct (bounds_covers l _ (proj1 G) O Cv) as (lo & ->). cbn [bind snd]. assert (LU : length (uninit T (Z.of_nat (size sh))) = size sh) by (rewrite uninit_length by lia; lia).
  destruct (concat_fold l a ts G J) with (c := uninit T (Z.of_nat (size sh))) (off := 0%nat) as (c' & Ec & Fc); auto.
  { unfold ndim. rewrite Sl. destruct Al; lia. } { rewrite LU. now apply covers_inside. } { rewrite Sl, Nl. lia. }
  rewrite Ec. cbn [bind fst]. destruct (joined o ts t0 a c' F) as (d & Ed & Td & Sd); auto. { rewrite E. now left. } { fold sh l. now rewrite Sl. }
  rewrite Ed. cbn [bind]. fold sh l in Td, Sd. exists (mkTensor d l). split; auto. split; auto. split; auto. unfold t_shape. cbn [t_layout]. now rewrite Sl. Qed.
