(** concat, stack, unstack, hstack, vstack, atleast_nd: statements (C37). *)
From Verif Require Import Base Spec P_Index P_List M_Layout P_Layout P_Bounds P_Contig P_Strides M_Indexer P_Indexer Q_Indexer M_Broadcast P_Broadcast M_Reshape M_Rearr M_Iter P_Iter P_Rearr P_BinOp Q_Rearr M_Kernel P_Kernel Q_Kernel M_Tensor P_Tensor Q_Tensor Q_Copy P_Axes M_Manip Spec_Views P_Manip Q_Manip M_Matmul P_Matmul P_Matmul2 P_Tri P_Tri2 P_Tri3 M_Concat Spec_Concat P_Concat P_Concat2.
Local Open Scope Z_scope.

Lemma l_concat : forall (T : Type) o (ts : list (tensor T)) axis, Forall tensor_ok ts ->
  (forall a, can_concat (map t_shape ts) axis a -> exists r, concat_f o ts axis = Ok r /\ tensor_ok r /\ side_by_side a ts r) /\
  ((~ exists a, can_concat (map t_shape ts) axis a) -> exists e, concat_f o ts axis = Err e).
Proof. intros T o ts axis F. split.
  - intros a C. destruct (concat_ok o ts axis a F C) as (r & E & K & S & _). eauto.
  - intro H. destruct (concat_shape_err ts axis H) as [e E]. unfold concat_f. rewrite E. cbn. eauto. Qed.

(** [side_by_side] determines every element of the result, in both directions *)
Lemma l_concat_element : forall (T : Type) a (ts : list (tensor T)) r i t ix, side_by_side a ts r -> nth_error ts i = Some t -> (a < length (t_shape t))%nat -> valid (t_shape t) ix ->
  let jx := upd ix a (start a ts i + nth a ix 0)%nat in valid (t_shape r) jx /\ at_ r jx = at_ t ix.
Proof. intros T a ts r i t ix (A & N & Q) Ei Ha V jx. rewrite Forall_forall in A. pose proof (A t (nth_error_In _ _ Ei)) as At. pose proof V as V'. apply valid_nth in V' as [Lx V']. pose proof (V' a Ha) as Va.
  assert (B : forall i j u w, nth_error ts i = Some u -> nth_error ts j = Some w -> (i < j)%nat -> (start a ts i + along a u <= start a ts j)%nat).
  { clear. intros i j u w. revert i j. induction ts as [|x ts IH]; intros i j Hi Hj L; [destruct i; discriminate|]. destruct j as [|j]; [lia|]. rewrite start_S. destruct i as [|i]; cbn in Hi, Hj; [injection Hi as ->; rewrite start_0; lia|]. rewrite start_S. specialize (IH i j Hi Hj ltac:(lia)). lia. }
  assert (B2 : (start a ts i + along a t <= start a ts (length ts))%nat).
  { clear - Ei. revert i Ei. induction ts as [|x ts IH]; intros i Hi; [destruct i; discriminate|]. cbn [length]. rewrite start_S. destruct i as [|i]; cbn in Hi; [injection Hi as ->; rewrite start_0; lia|]. rewrite start_S. specialize (IH i Hi). lia. }
  change (nth a (t_shape t) 0%nat) with (along a t) in Va.
  assert (Vj : valid (t_shape r) jx).
  { apply valid_nth. unfold jx. rewrite upd_length. destruct At as [L At]. split; [lia|]. intros k Hk. rewrite nth_upd. destruct (Nat.eqb_spec a k) as [<-|Ne]; cbn [andb].
    - replace (a <? length ix)%nat with true by lia. change (nth a (t_shape r) 0%nat) with (along a r). lia.
    - rewrite <- At by auto. apply V'. lia. }
  split; auto. destruct (Q jx Vj) as (i' & t' & v & Ei' & R & Vx & Et & Er). rewrite Er, <- Et. unfold jx in R, Vx, Et. rewrite nth_upd_same in * by lia. rewrite P_Indexer.upd_upd in *.
  assert (i' = i) as ->. { destruct (Nat.lt_trichotomy i' i) as [L|[L|L]]; auto; [pose proof (B _ _ _ _ Ei' Ei L)|pose proof (B _ _ _ _ Ei Ei' L)]; lia. }
  rewrite Ei in Ei'. injection Ei' as <-. unfold jx. rewrite P_Indexer.upd_upd, nth_upd_same by lia. f_equal. replace (start a ts i + nth a ix 0 - start a ts i)%nat with (nth a ix 0%nat) by lia. now rewrite upd_same. Qed.

(** ** rayon *)
Lemma loop_rayon {T} pool l a (ts : list (tensor T)) : good l -> injective l -> (a < ndim l)%nat -> Forall (part_of l a) ts -> forall c off r, inside l (length c) -> (off + start a ts (length ts) <= nth a (l_shape l) 0)%nat ->
  concat_loop_rayon pool l a ts (c, off) r -> r = fold_res (concat_step l a) ts (c, off).
Proof. intros G J Ha F. induction F as [|t ts P F IH]; intros c off r I B H; [exact H|]. cbn [length] in B. rewrite start_S in B. cbn [concat_loop_rayon fold_res] in *. unfold concat_step at 1. cbn [fst snd] in *. change (extent (t_layout t) a) with (along a t) in *.
  destruct (part_ok l a off (along a t) G Ha) as [Ep Gp]; [lia|]. rewrite Ep in *. cbn [bind]. pose proof P as [Ht S]. apply tensor_ok_good in Ht as [Gt It].
  destruct H as (rc & Hr & H). apply l_rayon_assign in Hr; auto; try (now apply good_accepted).
  2:{ apply part_inside; auto; lia. } 2:{ apply part_inj; auto; lia. }
  destruct (op2_kernel Dyn c (narrowed l a (along a t) (Z.of_nat off) 1) (t_data t) (t_layout t) (fun _ y => Some y) (t_shape t)) as (c1 & E & U); auto.
  { apply part_inside; auto; lia. } { apply part_inj; auto; lia. }
  change (assign Dyn Some c (narrowed l a (along a t) (Z.of_nat off) 1) (t_data t) (t_layout t) = Ok c1) in E. rewrite E in *. subst rc. cbn [bind].
  apply IH; auto; [|lia]. destruct U as [[-> _] _]. auto. Qed.
Lemma l_concat_rayon : forall (T : Type) pool o (ts : list (tensor T)) axis r, Forall tensor_ok ts -> concat_rayon pool o ts axis r -> r = concat_f o ts axis.
Proof. intros T pool o ts axis r F H. unfold concat_rayon in H. unfold concat_f. destruct (concat_shape ts axis) as [[[a other] n]|e|] eqn:Es; auto. cbn [bind].
  assert (C : can_concat (map t_shape ts) axis a).
  { destruct ts as [|t0 ts]; [discriminate|]. unfold concat_shape in Es. destruct (0 <? ndim (t_layout t0))%nat; [|discriminate]. cbn [check bind] in Es.
    destruct (map_check (fun t : tensor T => ndim (t_layout t) =? ndim (t_layout t0))%nat InvalidLayout (t0 :: ts)) as [_ M2].
    destruct (Forall_dec (fun t : tensor T => (ndim (t_layout t) =? ndim (t_layout t0))%nat = true) ltac:(intro; apply Bool.bool_dec) (t0 :: ts)) as [Fn|Fn]; [|rewrite M2 in Es by auto; discriminate].
    apply bind_ok in Es as (? & _ & Es). apply bind_ok in Es as (a' & Ea & Es). apply bind_ok in Es as (m & Em & Es). injection Es as -> <- ->.
    destruct (shape_sum a (remove_at (t_shape t0) a) (t0 :: ts) 0%nat) as [_ S2].
    destruct (Forall_dec (fun t : tensor T => remove_at (t_shape t) a = remove_at (t_shape t0) a) ltac:(intro; apply list_eq_dec, Nat.eq_dec) (t0 :: ts)) as [Fr|Fr]; [|rewrite S2 in Em by auto; discriminate].
    exists (t_shape t0), (map t_shape ts). split; auto. apply check_axis_spec in Ea. split; auto. change (t_shape t0 :: map t_shape ts) with (map t_shape (t0 :: ts)). rewrite Forall_map. apply Forall_forall. intros t Ht.
    rewrite Forall_forall in Fn, Fr. specialize (Fn t Ht). specialize (Fr t Ht). apply Nat.eqb_eq in Fn. apply alike_remove; auto. apply (proj1 Ea). }
  destruct (concat_shape_ok ts axis a C) as (t0 & rest & E & Ha & A & Es'). rewrite Es in Es'. injection Es' as -> ->.
  pose proof (parts o ts t0 a (start a ts (length ts)) F Ha A) as Pt. set (sh := insert_at (remove_at (t_shape t0) a) a (start a ts (length ts))) in *. set (l := new_contig Dyn sh 0 o) in *.
  destruct (contig_facts Dyn sh o) as (G & J & Cv & Sl & O). fold l in G, J, Cv, Sl, O. destruct (alike_insert a (t_shape t0) (start a ts (length ts)) Ha) as [Al Nl]. fold sh in Al, Nl.
  destruct (bounds_covers l _ (proj1 G) O Cv) as (lo & Eb). rewrite Eb in *. cbn [bind snd] in *. assert (LU : length (uninit T (Z.of_nat (size sh))) = size sh) by (rewrite uninit_length by lia; lia).
  destruct H as (rs & Hs & ->). apply loop_rayon in Hs; auto.
  - now rewrite Hs.
  - unfold ndim. rewrite Sl. destruct Al; lia.
  - rewrite LU. now apply covers_inside.
  - rewrite Sl, Nl. lia. Qed.

(** ** stack *)
Lemma map_res_rel {A B} (f : A -> res B) (R : A -> B -> Prop) l : Forall (fun x => exists y, f x = Ok y /\ R x y) l -> exists ys, map_res f l = Ok ys /\ Forall2 R l ys.
Proof. induction 1 as [|x l (y & E & Hr) F (ys & Es & H2)]; cbn; [eauto|]. rewrite E. cbn. rewrite Es. cbn. eauto. Qed.
Lemma expand_one {T} (t : tensor T) a : tensor_ok t -> (a <= length (t_shape t))%nat ->
  exists u, expand_dims_f t (AxVal (Z.of_nat a)) = Ok u /\ tensor_ok u /\ t_shape u = insert_at (t_shape t) a 1%nat /\ forall ix, length ix = length (t_shape t) -> at_ u (insert_at ix a 0%nat) = at_ t ix.
Proof. intros K Ha. apply tensor_ok_good in K as [G I]. destruct (insert_spec (t_layout t) (Z.of_nat a) a G) as (s & E & Gs); [split; auto|].
  unfold expand_dims_f, expand_dims. cbn [axes_as_ref bind length]. rewrite (normalize_ok (AxVal (Z.of_nat a)) [Z.of_nat a] (ndim (t_layout t) + 1) false true [a]); [|constructor| |repeat constructor; auto].
  2:{ constructor; [|constructor]. split; [|auto]. unfold ndim. fold (t_shape t). lia. }
  cbn [sort_by fold_right insert_sorted bind fold_res]. rewrite E. cbn [bind]. exists (mkTensor (t_data t) (inserted (t_layout t) a s)). split; auto. split; [|split].
  - apply tensor_ok_good. split; auto. intros jx V. cbn [t_layout t_data] in *. destruct (inserted_index (t_layout t) a s jx Ha V) as (r & -> & Vr). rewrite inserted_addr; auto; [apply G|now apply valid_length in Vr].
  - reflexivity.
  - intros ix L. unfold at_, elem. cbn [t_layout t_data]. rewrite inserted_addr; auto. apply G. Qed.
Lemma upd_insert {A} (v : list A) a x y : (a <= length v)%nat -> upd (insert_at v a x) a y = insert_at v a y.
Proof. unfold insert_at. revert a; induction v as [|z v IH]; intros [|a] H; cbn in H; try lia; [reflexivity|reflexivity|]. cbn [firstn skipn app upd]. f_equal. apply IH. lia. Qed.
Lemma start_units {T} a (us : list (tensor T)) : Forall (fun u => along a u = 1%nat) us -> forall i, (i <= length us)%nat -> start a us i = i.
Proof. induction 1 as [|u us E F IH]; intros i Hi; [cbn in Hi; replace i with 0%nat by lia; reflexivity|]. destruct i as [|i]; [reflexivity|]. rewrite start_S, E, IH; cbn in Hi; lia. Qed.
Lemma Forall2_nth_error {A B} (R : A -> B -> Prop) l1 l2 : Forall2 R l1 l2 -> forall i x, nth_error l1 i = Some x -> exists y, nth_error l2 i = Some y /\ R x y.
Proof. induction 1; intros [|i] z H'; cbn in *; try discriminate; [injection H' as <-; eauto|]. eauto. Qed.
Lemma l_stack : forall (T : Type) o (ts : list (tensor T)) axis, Forall tensor_ok ts ->
  (forall s a, ts <> [] -> Forall (fun t => t_shape t = s) ts -> insert_denotes (length s) axis a ->
     exists r, stack_f o ts axis = Ok r /\ tensor_ok r /\ stacked a ts r) /\
  ((~ exists s a, ts <> [] /\ Forall (fun t => t_shape t = s) ts /\ insert_denotes (length s) axis a) -> exists e, stack_f o ts axis = Err e).
Proof. intros T o ts axis F. split.
  - intros s a Ne Hs D. destruct ts as [|t0 ts0]; [congruence|]. unfold stack_f. set (ts := t0 :: ts0) in *. assert (S0 : t_shape t0 = s) by (inversion Hs; auto).
    destruct (proj1 (map_check (fun t : tensor T => same_shape (t_shape t) (t_shape t0)) InvalidLayout ts)) as (us0 & ->).
    { eapply Forall_impl; [|exact Hs]. intros t Ht. apply same_shape_spec. congruence. }
    cbn [bind]. rewrite (proj2 (check_axis_insert_spec axis (ndim (t_layout t0)) a)). 2:{ unfold ndim. fold (t_shape t0). now rewrite S0. }
    cbn [bind]. pose proof (proj1 D) as Ha.
    destruct (map_res_rel (fun t => expand_dims_f t (AxVal (Z.of_nat a))) (fun t u => tensor_ok u /\ t_shape u = insert_at s a 1%nat /\ forall ix, length ix = length s -> at_ u (insert_at ix a 0%nat) = at_ t ix) ts) as (us & -> & R).
    { rewrite Forall_forall in *. intros t Ht. pose proof (Hs t Ht) as St. destruct (expand_one t a) as (u & E & K & Su & Q); [auto|rewrite St; auto|]. rewrite St in Su, Q. eauto. }
    cbn [bind]. assert (Fu : Forall tensor_ok us) by (clear - R; induction R; constructor; [tauto|auto]).
    assert (Su : Forall (fun u => t_shape u = insert_at s a 1%nat) us) by (clear - R; induction R; constructor; [tauto|auto]).
    assert (Lu : length us = length ts) by (symmetry; eapply Forall2_length; eauto).
    assert (A1 : Forall (fun u => along a u = 1%nat) us). { eapply Forall_impl; [|exact Su]. intros u E. cbn beta in E. unfold along. rewrite E, nth_insert by auto. now rewrite Nat.ltb_irrefl, Nat.eqb_refl. }
    destruct (concat_ok o us (Z.of_nat a) a) as (r & E & K & S & _); auto.
    { destruct us as [|u0 us]; [discriminate|]. cbn [map]. exists (t_shape u0), (map t_shape us). split; auto. assert (E0 : t_shape u0 = insert_at s a 1%nat) by (inversion Su; auto). split.
      - rewrite E0, insert_length by auto. split; [lia|auto].
      - change (t_shape u0 :: map t_shape us) with (map t_shape (u0 :: us)). rewrite Forall_map. eapply Forall_impl; [|exact Su]. intros u Eu. cbn beta in Eu. rewrite Eu, E0. apply alike_refl. }
    exists r. split; auto. split; auto. assert (Sr : t_shape r = insert_at s a (length ts)).
    { destruct S as (Al & N & _). destruct us as [|u0 us]; [discriminate|]. inversion Al as [|? ? A0 _]; subst. inversion Su as [|? ? E0 _]; subst. rewrite E0 in A0. rewrite (start_units a (u0 :: us) A1) in N by auto. rewrite Lu in N.
      assert (La : (a < length (t_shape r))%nat) by (destruct A0 as [A0 _]; rewrite insert_length in A0 by auto; lia).
      rewrite (alike_upd a _ _ La (alike_sym _ _ _ A0)). change (nth a (t_shape r) 0%nat) with (along a r). rewrite N. now apply upd_insert. }
    split. { eapply Forall_impl; [|exact Hs]. intros t E'. cbn beta in E'. now rewrite E'. }
    intros i t ix Ei V. destruct (Forall2_nth_error _ _ _ R i t Ei) as (u & Eu & Ku & Shu & Q). rewrite Forall_forall in Hs, F. pose proof (nth_error_In _ _ Ei) as Ht. rewrite (Hs t Ht) in V. pose proof (valid_length _ _ V) as Lx.
    assert (Hi : (i < length us)%nat) by (apply nth_error_Some; congruence).
    destruct (l_concat_element T a us r i u (insert_at ix a 0%nat) S Eu) as [Vj Ej].
    { rewrite Shu, insert_length by auto. lia. } { rewrite Shu. apply valid_insert; auto. }
    rewrite Q in Ej by auto. destruct (elem_inside (t_data t) (t_layout t) ix) as (v & Hv); [apply (proj2 (proj1 (tensor_ok_good t) (F t Ht)))|fold (t_shape t); now rewrite (Hs t Ht)|].
    exists v. split; auto. change (at_ t ix = Some v) in Hv. rewrite <- Hv, <- Ej. f_equal. rewrite start_units by (auto; lia). rewrite nth_insert, Nat.ltb_irrefl, Nat.eqb_refl by lia. rewrite Nat.add_0_r.
    symmetry. apply upd_insert. lia.
  - intro H. destruct ts as [|t0 ts0]; [cbn; eauto|]. unfold stack_f. set (ts := t0 :: ts0) in *.
    destruct (map_check (fun t : tensor T => same_shape (t_shape t) (t_shape t0)) InvalidLayout ts) as [M1 M2].
    destruct (Forall_dec (fun t : tensor T => same_shape (t_shape t) (t_shape t0) = true) ltac:(intro; apply Bool.bool_dec) ts) as [Fn|Fn]; [|rewrite M2 by auto; cbn; eauto].
    destruct (M1 Fn) as (us & ->). cbn [bind]. destruct (check_axis_insert axis (ndim (t_layout t0))) as [a|e|] eqn:Ea; cbn [bind]; [|eauto|unfold check_axis_insert in Ea; destruct (_ && _) in Ea; discriminate].
    exfalso. apply H. exists (t_shape t0), a. split; [discriminate|]. split; [|now apply check_axis_insert_spec in Ea]. eapply Forall_impl; [|exact Fn]. intros t E. now apply same_shape_spec in E. Qed.

(** ** unstack *)
Lemma unstack_eq {T} (t : tensor T) axis a : tensor_ok t -> axis_denotes (length (t_shape t)) axis a ->
  unstack_f t axis = Ok (map (fun i => mkTensor (t_data t) (selected (t_layout t) a (Z.of_nat i))) (seq 0 (along a t))) /\ forall i, (i < along a t)%nat -> good (selected (t_layout t) a (Z.of_nat i)).
Proof. intros K D. apply tensor_ok_good in K as [G I]. pose proof (proj1 D) as Ha. assert (X : forall i, (i < along a t)%nat -> dim_select (t_layout t) (Z.of_nat a) (Z.of_nat i) = Ok (selected (t_layout t) a (Z.of_nat i)) /\ good (selected (t_layout t) a (Z.of_nat i))).
  { intros i Hi. apply select_spec; auto; split; auto. }
  split; [|intros; now apply X]. unfold unstack_f. replace (0 <? ndim (t_layout t))%nat with true by (symmetry; apply Nat.ltb_lt; unfold ndim; fold (t_shape t); lia). cbn [check bind]. unfold ndim. fold (t_shape t). rewrite (proj2 (check_axis_spec _ _ _) D). cbn [bind].
  apply map_res_all. intros i Hi. apply in_seq in Hi. destruct (X i) as [-> _]; [unfold along, t_shape, extent in *; lia|reflexivity]. Qed.
Lemma l_unstack : forall (T : Type) (t : tensor T) axis, tensor_ok t ->
  (forall a, axis_denotes (length (t_shape t)) axis a ->
     exists vs, unstack_f t axis = Ok vs /\ length vs = along a t /\
       forall i v, nth_error vs i = Some v -> tensor_ok v /\ t_data v = t_data t /\ t_shape v = remove_at (t_shape t) a /\ forall ix, valid (t_shape v) ix -> valid (t_shape t) (insert_at ix a i) /\ at_ v ix = at_ t (insert_at ix a i)) /\
  ((~ exists a, axis_denotes (length (t_shape t)) axis a) -> exists e, unstack_f t axis = Err e).
Proof. intros T t axis K. split.
  - intros a D. destruct (unstack_eq t axis a K D) as [E Gs]. pose proof (proj1 D) as Ha. apply tensor_ok_good in K as [G I]. eexists. split; [exact E|]. rewrite map_length, seq_length. split; auto.
    intros i v Hv. rewrite nth_error_map in Hv. destruct (Nat.lt_ge_cases i (along a t)) as [Hi|Hi]. 2:{ rewrite (proj2 (nth_error_None _ _)) in Hv by (rewrite seq_length; lia). discriminate. }
    rewrite nth_error_seq in Hv by auto. cbn in Hv. injection Hv as <-. assert (X : forall ix, valid (remove_at (t_shape t) a) ix -> valid (t_shape t) (insert_at ix a i) /\ addr (selected (t_layout t) a (Z.of_nat i)) ix = addr (t_layout t) (insert_at ix a i)).
    { intros ix V. pose proof (valid_length _ _ V) as Lx. rewrite remove_length in Lx by auto. split.
      - rewrite <- (insert_remove (t_shape t) a 0%nat) by auto. apply valid_insert; [rewrite remove_length; lia|]. rewrite remove_length by auto. auto.
      - apply selected_addr; auto. apply G. }
    split; [|split; [auto|split; [reflexivity|]]].
    + apply tensor_ok_good. split; [now apply Gs|]. intros ix V. cbn [t_layout t_data] in *. destruct (X ix V) as [V' ->]. now apply I.
    + intros ix V. destruct (X ix V) as [V' E']. split; auto. unfold at_, elem. cbn [t_layout t_data]. now rewrite E'.
  - intro H. unfold unstack_f. destruct (0 <? ndim (t_layout t))%nat; cbn [check bind]; [|eauto]. destruct (check_axis axis (ndim (t_layout t))) as [a|e|] eqn:Ea; cbn [bind]; [|eauto|unfold check_axis in Ea; destruct (_ && _) in Ea; discriminate].
    exfalso. apply H. exists a. now apply check_axis_spec in Ea. Qed.

(** unstack and stack along the same axis undo each other *)
Lemma l_unstack_stack : forall (T : Type) o (t : tensor T) axis a, tensor_ok t -> axis_denotes (length (t_shape t)) axis a -> along a t <> 0%nat ->
  exists vs r, unstack_f t axis = Ok vs /\ stack_f o vs axis = Ok r /\ t_shape r = t_shape t /\ forall ix, valid (t_shape t) ix -> at_ r ix = at_ t ix.
Proof. intros T o t axis a K D N. destruct (proj1 (l_unstack T t axis K) a D) as (vs & E & L & Q). pose proof (proj1 D) as Ha.
  assert (Fv : Forall tensor_ok vs). { apply Forall_forall. intros v Hv. apply In_nth_error in Hv as (i & Hi). apply (Q i v Hi). }
  assert (Fs : Forall (fun v => t_shape v = remove_at (t_shape t) a) vs). { apply Forall_forall. intros v Hv. apply In_nth_error in Hv as (i & Hi). apply (Q i v Hi). }
  destruct (proj1 (l_stack T o vs axis Fv) (remove_at (t_shape t) a) a) as (r & Er & Kr & S1 & S2); auto.
  { intro X. rewrite X in L. cbn in L. lia. } { rewrite remove_length by auto. destruct D as [_ D]. split; [lia|]. lia. }
  exists vs, r. split; auto. split; auto. assert (Sr : t_shape r = t_shape t).
  { destruct vs as [|v vs]; [cbn in L; lia|]. inversion S1 as [|? ? E1 _]; subst. inversion Fs as [|? ? E2 _]; subst. rewrite E1, E2, L. apply insert_remove. auto. }
  split; auto. intros ix V. pose proof (valid_length _ _ V) as Lx. pose proof V as V'. apply valid_nth in V' as [_ V']. specialize (V' a Ha). fold (along a t) in V'. change (nth a (t_shape t) 0%nat) with (along a t) in V'. rewrite <- L in V'. apply nth_error_Some in V'. destruct (nth_error vs (nth a ix 0%nat)) as [v|] eqn:Ev; [|congruence].
  destruct (Q _ _ Ev) as (Kv & _ & Sv & Qv). assert (Vr : valid (t_shape v) (remove_at ix a)). { rewrite Sv. rewrite <- (insert_remove ix a 0%nat) in V by lia. rewrite <- (insert_remove (t_shape t) a 0%nat) in V by auto. apply valid_insert in V; [tauto|rewrite remove_length; lia]. }
  destruct (S2 _ _ _ Ev Vr) as (x & E1 & E2). destruct (Qv _ Vr) as [_ E3]. rewrite insert_remove in E2, E3 by lia. congruence. Qed.
Lemma l_stack_unstack : forall (T : Type) o (ts : list (tensor T)) axis s a, Forall tensor_ok ts -> ts <> [] -> Forall (fun t => t_shape t = s) ts -> insert_denotes (length s) axis a ->
  exists r vs, stack_f o ts axis = Ok r /\ unstack_f r axis = Ok vs /\ Forall2 (fun t v => t_shape v = t_shape t /\ forall ix, valid (t_shape t) ix -> at_ v ix = at_ t ix) ts vs.
Proof. intros T o ts axis s a F Ne Fs D. destruct (proj1 (l_stack T o ts axis F) s a Ne Fs D) as (r & Er & Kr & S1 & S2). pose proof (proj1 D) as Ha.
  assert (Sr : t_shape r = insert_at s a (length ts)). { destruct ts as [|t ts]; [congruence|]. inversion S1 as [|? ? E1 _]; subst. inversion Fs as [|? ? E2 _]; subst. exact E1. }
  assert (Dr : axis_denotes (length (t_shape r)) axis a). { rewrite Sr, insert_length by auto. destruct D as [_ D]. split; lia. }
  destruct (proj1 (l_unstack T r axis Kr) a Dr) as (vs & E & L & Q). exists r, vs. split; auto. split; auto.
  assert (La : length vs = length ts). { rewrite L. unfold along. rewrite Sr, nth_insert by auto. now rewrite Nat.ltb_irrefl, Nat.eqb_refl. }
  assert (X : forall i t v, nth_error ts i = Some t -> nth_error vs i = Some v -> t_shape v = t_shape t /\ forall ix, valid (t_shape t) ix -> at_ v ix = at_ t ix).
  { intros i t v Ht Hv. destruct (Q i v Hv) as (_ & _ & Sv & Qv). rewrite Forall_forall in Fs. pose proof (Fs t (nth_error_In _ _ Ht)) as St. rewrite Sr, remove_insert in Sv by auto. split; [congruence|]. intros ix V. destruct (S2 i t ix Ht V) as (x & E1 & E2). destruct (Qv ix) as [_ E3]; [now rewrite Sv, <- St|]. congruence. }
  clear - La X. revert vs La X. induction ts as [|t ts IH]; intros [|v vs] La X; try discriminate; constructor; [apply (X 0%nat); reflexivity|]. apply IH; [cbn in La; lia|]. intros i. exact (X (S i)). Qed.

(** ** atleast_nd, hstack, vstack *)
Lemma unit_none {T} (t : tensor T) : with_unit_axes [] t t.
Proof. unfold with_unit_axes. cbn [length In]. rewrite except_nil. split; [lia|]. split; [tauto|]. assert (P : forall v : list nat, length v = length (t_shape t) -> pick (seq 0 (length (t_shape t))) 0%nat v = v) by (intros v L; rewrite <- L; apply map_nth_seq). split; [now apply P|].
  intros jx V. rewrite P by (now apply valid_length in V). auto. Qed.
Lemma unit_expand {T} (t : tensor T) v ax : tensor_ok t -> Forall2 (axis_denotes (length (t_shape t) + length v)) v ax -> NoDup ax -> exists u, expand_dims_f t (AxVec v) = Ok u /\ tensor_ok u /\ with_unit_axes ax t u.
Proof. intros K D N. apply tensor_ok_good in K as [G I]. destruct (expand_ok (t_layout t) (AxVec v) v ax G) as (l & E & Gl & Nd & U & P & Q); auto; [constructor|]. unfold expand_dims_f. rewrite E. cbn [bind]. exists (mkTensor (t_data t) l). split; auto.
  assert (Lv : length v = length ax) by (eapply Forall2_length; eauto). unfold ndim in *. fold (t_shape t) in *. set (u := mkTensor (t_data t) l). change (l_shape l) with (t_shape u) in *. split; [|split; [|split; [|split]]].
  - apply tensor_ok_good. split; auto. intros jx V. destruct (Q jx V) as [V' E']. cbn [t_layout t_data u] in *. rewrite E'. now apply I.
  - lia.
  - exact U.
  - rewrite Nd. exact P.
  - intros jx V. rewrite Nd. destruct (Q jx V) as [V' E']. split; auto. unfold at_, elem. cbn [t_layout t_data u]. now rewrite E'. Qed.
Ltac denote := cbn [length]; repeat (constructor; [split; [lia|lia]|]); constructor.
Ltac nodup_ax := repeat constructor; cbn; intuition lia.
Lemma l_atleast : forall (T : Type) (t : tensor T), tensor_ok t -> let n := length (t_shape t) in
  (exists u, atleast_1d t = Ok u /\ tensor_ok u /\ with_unit_axes (match n with 0 => [0] | _ => [] end)%nat t u) /\
  (exists u, atleast_2d t = Ok u /\ tensor_ok u /\ with_unit_axes (match n with 0 => [0; 1] | 1 => [0] | _ => [] end)%nat t u) /\
  (exists u, atleast_3d t = Ok u /\ tensor_ok u /\ with_unit_axes (match n with 0 => [0; 1; 2] | 1 => [0; 2] | 2 => [2] | _ => [] end)%nat t u).
Proof. intros T t K n. unfold atleast_1d, atleast_2d, atleast_3d, ndim. fold (t_shape t). fold n. pose proof (unit_none t). split; [|split].
  - destruct n as [|n'] eqn:En; [|eauto]. apply unit_expand; auto; [fold n; rewrite En; denote|nodup_ax].
  - destruct n as [|[|n']] eqn:En; [| |eauto]; (apply unit_expand; auto; [fold n; rewrite En; cbn [length]; denote|nodup_ax]).
  - destruct n as [|[|[|n']]] eqn:En; [| | |eauto]; (apply unit_expand; auto; [fold n; rewrite En; cbn [length]; denote|nodup_ax]). Qed.
Lemma unit_rank {T} ax (t u : tensor T) : with_unit_axes ax t u -> length (t_shape u) = (length (t_shape t) + length ax)%nat.
Proof. now intros [H _]. Qed.
Lemma l_hstack : forall (T : Type) o (t0 : tensor T) rest, let ts := t0 :: rest in Forall tensor_ok ts ->
  exists us, Forall2 (fun t u => with_unit_axes (match length (t_shape t) with 0 => [0] | _ => [] end)%nat t u) ts us /\
    let a := match length (t_shape t0) with 0 | 1 => 0 | _ => 1 end%nat in
    (can_concat (map t_shape us) (Z.of_nat a) a -> exists r, hstack_f o ts = Ok r /\ tensor_ok r /\ side_by_side a us r) /\
    (~ can_concat (map t_shape us) (Z.of_nat a) a -> exists e, hstack_f o ts = Err e).
Proof. intros T o t0 rest ts F. destruct (map_res_rel atleast_1d (fun t u => tensor_ok u /\ with_unit_axes (match length (t_shape t) with 0 => [0] | _ => [] end)%nat t u) ts) as (us & E & R).
  { eapply Forall_impl; [|exact F]. intros t K. destruct (l_atleast T t K) as [(u & Eu & Ku & Wu) _]. eauto. }
  exists us. split. { clear - R. induction R; constructor; tauto. }
  intro a. assert (Fu : Forall tensor_ok us) by (clear - R; induction R; constructor; tauto).
  assert (Eh : hstack_f o ts = concat_f o us (Z.of_nat a)).
  { unfold hstack_f, ts. fold ts. rewrite E. cbn [bind]. inversion R as [|? u0 ? us' [_ W] _]; subst. apply unit_rank in W. unfold ndim. fold (t_shape u0). rewrite W. subst a. destruct (length (t_shape t0)) as [|[|n]]; reflexivity. }
  rewrite Eh. destruct (l_concat T o us (Z.of_nat a) Fu) as [C1 C2]. split; [apply C1|]. intro H. apply C2. intros (a' & H'). apply H. destruct H' as (s0 & r & Es & D & A). assert (a' = a) as -> by (destruct D as [D1 [D2|D2]]; lia). exists s0, r. auto. Qed.
Lemma l_vstack : forall (T : Type) o (t0 : tensor T) rest, let ts := t0 :: rest in Forall tensor_ok ts ->
  exists us, Forall2 (fun t u => with_unit_axes (match length (t_shape t) with 0 => [0; 1] | 1 => [0] | _ => [] end)%nat t u) ts us /\
    (can_concat (map t_shape us) 0 0 -> exists r, vstack_f o ts = Ok r /\ tensor_ok r /\ side_by_side 0 us r) /\
    (~ can_concat (map t_shape us) 0 0 -> exists e, vstack_f o ts = Err e).
Proof. intros T o t0 rest ts F. destruct (map_res_rel atleast_2d (fun t u => tensor_ok u /\ with_unit_axes (match length (t_shape t) with 0 => [0; 1] | 1 => [0] | _ => [] end)%nat t u) ts) as (us & E & R).
  { eapply Forall_impl; [|exact F]. intros t K. destruct (l_atleast T t K) as (_ & (u & Eu & Ku & Wu) & _). eauto. }
  exists us. split. { clear - R. induction R; constructor; tauto. }
  assert (Fu : Forall tensor_ok us) by (clear - R; induction R; constructor; tauto).
  assert (Eh : vstack_f o ts = concat_f o us 0) by (unfold vstack_f, ts; fold ts; now rewrite E).
  rewrite Eh. destruct (l_concat T o us 0 Fu) as [C1 C2]. split; [apply C1|]. intro H. apply C2. intros (a' & H'). apply H. destruct H' as (s0 & r & Es & D & A). assert (a' = 0%nat) as -> by (destruct D as [D1 [D2|D2]]; lia). exists s0, r. auto. Qed.
Lemma l_stack_empty : forall (T : Type) o axis, (exists e, concat_f (T := T) o [] axis = Err e) /\ (exists e, stack_f (T := T) o [] axis = Err e) /\ (exists e, hstack_f (T := T) o [] = Err e) /\ (exists e, vstack_f (T := T) o [] = Err e).
Proof. intros. repeat split; eexists; reflexivity. Qed.
