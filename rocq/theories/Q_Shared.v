(** Property lemmas about owned and shared tensors (C63). *)
From Verif Require Import Base Spec P_Index P_List M_Layout P_Layout P_Bounds P_Contig P_Strides M_Indexer P_Indexer M_Broadcast P_Broadcast Q_Broadcast M_Reshape P_Reshape Q_Reshape M_Rearr M_Iter P_Iter P_Rearr P_BinOp Q_Rearr M_Kernel P_Kernel Q_Kernel M_Tensor P_Tensor P_Reshape2 Q_Tensor Q_Copy M_Shared Spec_Shared P_Shared.
Local Open Scope nat_scope.

Lemma l_private : forall (T : Type) k dflt (ops : list (op T)) s o s' j, run k dflt ops = Ok s -> step k dflt s o = Ok s' ->
  (j < length (s_vars s))%nat -> acts_on o <> Some j -> value s' j = value s j.
Proof. intros T k dflt ops s o s' j R E L N. apply run_counted in R. destruct (step_ok k dflt s o s' R E) as (_ & _ & H). now apply H. Qed.

Lemma l_mutate : forall (T : Type) k dflt (ops : list (op T)) s i t f, run k dflt ops = Ok s -> value s i = Some t ->
  exists s', step k dflt s (Mutate i f) = Ok s' /\ value s' i = Some (mkTensor (f t) (t_layout t)).
Proof. intros T k dflt ops s i [v l] f R V. apply run_counted in R. apply value_lookup in V as (d & Hd & Ht). cbn [t_layout t_data] in *. cbn [step]. rewrite Hd.
  destruct (write_moved (s_heap s) d (fun v => f (mkTensor v l)) (counted_owns s i _ _ R Hd)) as [M W]. destruct (data_write _ _ _) as [h' d']. cbn [fst snd] in M, W. eexists. split; [reflexivity|].
  destruct (put_ok s i d l h' d' l R Hd M) as (_ & _ & H & _). now rewrite H, W, <- Ht. Qed.

Lemma keeps_total {T} (t : tensor T) : tensor_ok t -> exists b, keeps_layout t = Ok b /\ (b = true -> length (t_data t) = size (t_shape t)).
Proof. intro Ha. apply tensor_ok_good in Ha as [(W & N & _) Ia]. unfold keeps_layout. destruct (proj2 (bounds_index_ok_iff _ W) N) as (b & ->). cbn [unwrap bind]. eexists. split; [reflexivity|]. unfold t_shape, l_size. intro H. lia. Qed.
Lemma keeps_into_owned {T} k dflt (t : tensor T) : into_owned k dflt t = let* b := keeps_layout t in if b then Ok t else unwrap (asarray k dflt t OK).
Proof. unfold into_owned, keeps_layout. destruct (unwrap _); reflexivity. Qed.
Lemma copy_ok {T} k dflt (t : tensor T) : tensor_ok t -> exists c, asarray k dflt t OK = Ok c /\ same_tensor c t /\ length (t_data c) = size (t_shape t) /\ keeps_layout c = Ok true.
Proof. intro Ha. pose proof Ha as Ha'. apply tensor_ok_good in Ha' as [G I]. destruct (asarray_ok k dflt t OK Ha) as (c & E & Tc & El & Sc & Lc & H); auto. exists c. split; auto. split; [split; auto|]. split; auto.
  destruct (copy_layout_good k dflt (t_layout t) OK G) as (l' & El' & Gl & O & Sl & _ & Cv); auto. rewrite El in El'. injection El' as <-.
  unfold keeps_layout. destruct Gl as [W _]. destruct (bounds_covers (t_layout c) _ W O Cv) as (lo & Eb). rewrite Eb. cbn [unwrap bind fst snd]. unfold l_size. rewrite Lc, Sl. unfold t_shape. rewrite Z.eqb_refl, !andb_true_r. f_equal.
  destruct (Nat.eq_dec (size (l_shape (t_layout c))) 0) as [Z0|Z0].
  - rewrite bounds_index_eq, Z0, O in Eb by apply W. cbn in Eb. injection Eb as <- _. reflexivity.
  - pose proof (bounds_index_sound _ _ _ W Eb) as (B0 & B1 & _). specialize (B0 Z0). destruct (proj1 (Cv 0%Z)) as (ix & V & Ex); [rewrite <- Sl; lia|]. apply B1 in V. lia. Qed.
Lemma same_refl {T} (t : tensor T) : tensor_ok t -> same_tensor t t.
Proof. intro H. split; auto. Qed.
Lemma handle_put {T} (s : store T) h' i d' l' : i < length (s_vars s) -> handle (put h' (s_vars s) i d' l') i = match d' with DArc p => Some p | DOwned _ => None end.
Proof. intro L. unfold handle, put. cbn [s_vars]. now rewrite nth_error_upd_eq. Qed.
Lemma counted_shares {T} (s : store T) i p l : counted s -> nth_error (s_vars s) i = Some (Some (DArc p, l)) -> arc_count (s_heap s) p <> 1 <-> exists j, j <> i /\ shares s i j.
Proof. intros C H. assert (P : points p (Some (DArc (T := T) p, l)) = true) by (cbn; apply Nat.eqb_refl). pose proof (handles_one _ _ p _ H P) as H1. rewrite C. split.
  - intro N. destruct (handles_other (s_vars s) i p _ H P) as (j & y & Nj & Hy & Py); [lia|]. exists j. split; auto. exists p. unfold handle. rewrite H, Hy. split; auto. destruct y as [[[w|q] ly]|]; try discriminate Py. cbn in Py. apply Nat.eqb_eq in Py. now subst.
  - intros (j & N & q & Hi & Hj). unfold handle in Hi, Hj. rewrite H in Hi. injection Hi as <-. destruct (nth_error (s_vars s) j) as [[[[w|q] ly]|]|] eqn:E; try discriminate Hj. injection Hj as ->.
    assert (2 <= handles (s_vars s) p); [|lia]. eapply handles_two; [exact H|exact E|congruence|exact P|]. cbn. apply Nat.eqb_refl. Qed.

Lemma l_into_owned_arc : forall (T : Type) k dflt (ops : list (op T)) s i t, run k dflt ops = Ok s -> value s i = Some t -> tensor_ok t ->
  match step k dflt s (IntoOwned i) with
  | Ok s' => exists c, value s' i = Some c /\ same_tensor c t /\ length (t_data c) = size (t_shape t) /\ handle s' i = None
  | Err _ => False
  | Panic => exists j, j <> i /\ shares s i j
  end.
Proof. intros T k dflt ops s i [v l] R V Ht. apply run_counted in R. apply value_lookup in V as (d & Hd & Ev). cbn [t_layout t_data] in *. assert (L : i < length (s_vars s)) by (apply nth_error_Some; congruence). cbn [step]. rewrite Hd. unfold step_into_owned. rewrite <- Ev.
  destruct (keeps_total _ Ht) as (b & -> & Lb). cbn [bind]. destruct b.
  - destruct (data_into_owned (s_heap s) d) as [[h' d']|e|] eqn:Ed; cbn [bind].
    + pose proof Ed as Ed'. apply into_owned_moved in Ed' as [M W]. destruct (put_ok s i d l h' d' l R Hd M) as (_ & _ & H & _). rewrite W, <- Ev in H. rewrite H, (handle_put s h' i d' l L). eexists. split; [reflexivity|]. split; [now apply same_refl|]. split; [now apply Lb|].
      destruct d as [w|q]; cbn [data_into_owned] in Ed; [injection Ed as _ <-; reflexivity|]. unfold arc_try_unwrap in Ed. destruct (_ =? 1); [|discriminate]. injection Ed as _ <-. reflexivity.
    + now apply into_owned_no_err in Ed.
    + destruct d as [w|q]; [discriminate|]. apply (counted_shares s i q l R Hd). intro E. apply (proj2 (into_owned_panic (s_heap s) (DArc q))); auto.
  - destruct (copy_ok k dflt _ Ht) as (c & -> & Sc & Lc & _). cbn [unwrap bind]. destruct (put_ok s i d l _ _ (t_layout c) R Hd (owned_drop_moved _ _ (t_data c) (counted_owns s i _ _ R Hd))) as (_ & _ & H & _).
    rewrite H, (handle_put s _ i _ _ L). cbn [data_raw]. exists c. split; [now destruct c|]. auto. Qed.

Lemma l_into_owned_unshared : forall (T : Type) k dflt (ops : list (op T)) s i t, run k dflt ops = Ok s -> value s i = Some t -> tensor_ok t ->
  (forall j, shares s i j -> j = i) -> exists s' c, step k dflt s (IntoOwned i) = Ok s' /\ value s' i = Some c /\ same_tensor c t /\ handle s' i = None.
Proof. intros T k dflt ops s i t R V Ht N. pose proof (l_into_owned_arc T k dflt ops s i t R V Ht) as H. destruct (step k dflt s (IntoOwned i)) as [s'|e|]; [|contradiction|destruct H as (j & Nj & Sj); exfalso; auto]. destruct H as (c & H1 & H2 & _ & H3). exists s', c. auto. Qed.

Lemma l_into_owned_shared_refuted : forall (T : Type) k dflt (ops : list (op T)) s i j t, run k dflt ops = Ok s -> value s i = Some t -> tensor_ok t ->
  i <> j -> shares s i j -> addrs RowMajor (t_layout t) = consecutive 0 (length (t_data t)) -> l_offset (t_layout t) = 0%Z -> step k dflt s (IntoOwned i) = Panic.
Proof. intros T k dflt ops s i j [v l] R V Ht N S A O. apply run_counted in R. apply value_lookup in V as (d & Hd & Ev). cbn [t_layout t_data] in *. pose proof S as (p & Hp & _). unfold handle in Hp. rewrite Hd in Hp. destruct d as [w|q]; [discriminate|]. injection Hp as ->.
  cbn [step]. rewrite Hd. unfold step_into_owned. rewrite <- Ev. pose proof Ht as Ht'. apply tensor_ok_good in Ht' as [(W & Nn & _) I]. cbn [t_layout t_data] in *.
  assert (Sz : size (l_shape l) = length v). { apply (f_equal (@length Z)) in A. rewrite addrs_length in A. unfold consecutive in A. now rewrite map_length, seq_length in A. }
  assert (Cv : covers l (length v)) by (apply perm_covers; rewrite A; reflexivity).
  unfold keeps_layout. cbn [t_layout t_data]. destruct (bounds_covers l _ W O Cv) as (lo & Eb). rewrite Eb. cbn [unwrap bind fst snd]. unfold l_size. rewrite Sz, Z.eqb_refl, !andb_true_r.
  assert (lo = 0%Z). { destruct (Nat.eq_dec (size (l_shape l)) 0) as [Z0|Z0].
    - rewrite bounds_index_eq, Z0, O in Eb by apply W. cbn in Eb. congruence.
    - pose proof (bounds_index_sound _ _ _ W Eb) as (B0 & B1 & _). specialize (B0 Z0). destruct (proj1 (Cv 0%Z)) as (ix & V & Ex); [lia|]. apply B1 in V. lia. }
  subst lo. cbn [Z.eqb data_into_owned]. unfold arc_try_unwrap. assert (C1 : arc_count (s_heap s) p <> 1) by (apply (counted_shares s i p l R Hd); exists j; auto). apply Nat.eqb_neq in C1. rewrite C1. reflexivity. Qed.

Lemma l_into_cow : forall (T : Type) k dflt (ops : list (op T)) s i t, run k dflt ops = Ok s -> value s i = Some t ->
  match step k dflt s (IntoCow i) with
  | Ok s' => value s' i = Some t /\ handle s' i = None /\ forall j, shares s i j -> j = i
  | Err _ => False
  | Panic => exists j, j <> i /\ shares s i j
  end.
Proof. intros T k dflt ops s i [v l] R V. apply run_counted in R. apply value_lookup in V as (d & Hd & Ev). cbn [t_layout t_data] in *. assert (L : i < length (s_vars s)) by (apply nth_error_Some; congruence). cbn [step]. rewrite Hd.
  destruct (data_into_owned (s_heap s) d) as [[h' d']|e|] eqn:Ed; cbn [bind].
  - pose proof Ed as Ed'. apply into_owned_moved in Ed' as [M W]. destruct (put_ok s i d l h' d' l R Hd M) as (_ & _ & H & _). rewrite W, <- Ev in H. rewrite H, (handle_put s h' i d' l L). split; auto.
    destruct d as [w|q]; cbn [data_into_owned] in Ed.
    + injection Ed as _ <-. split; auto. intros j (p & Hp & _). unfold handle in Hp. rewrite Hd in Hp. discriminate.
    + unfold arc_try_unwrap in Ed. destruct (Nat.eqb_spec (arc_count (s_heap s) q) 1) as [C1|]; [|discriminate]. injection Ed as _ <-. split; auto. intros j Sj. destruct (Nat.eq_dec j i) as [|Nj]; auto. exfalso. apply (proj2 (counted_shares s i q l R Hd)); eauto.
  - now apply into_owned_no_err in Ed.
  - destruct d as [w|q]; [discriminate|]. apply (counted_shares s i q l R Hd). intro E. apply (proj2 (into_owned_panic (s_heap s) (DArc q))); auto. Qed.

Lemma l_into_shared_arc : forall (T : Type) k dflt (ops : list (op T)) s i t, run k dflt ops = Ok s -> value s i = Some t -> tensor_ok t ->
  exists s' c p, step k dflt s (IntoShared i) = Ok s' /\ value s' i = Some c /\ same_tensor c t /\ length (t_data c) = size (t_shape t) /\ handle s' i = Some p.
Proof. intros T k dflt ops s i [v l] R V Ht. apply run_counted in R. apply value_lookup in V as (d & Hd & Ev). cbn [t_layout t_data] in *. assert (L : i < length (s_vars s)) by (apply nth_error_Some; congruence). cbn [step]. rewrite Hd. unfold step_into_shared. rewrite <- Ev.
  assert (Arc : forall h (e : data T), exists p, snd (data_into_shared h e) = DArc p) by (intros h [w|q]; cbn; eauto).
  destruct (keeps_total _ Ht) as (b & -> & Lb). cbn [bind]. destruct b.
  - destruct (into_shared_moved (s_heap s) d) as [M W]. destruct (Arc (s_heap s) d) as (p & Ep). destruct (data_into_shared (s_heap s) d) as [h' d']. cbn [fst snd] in *. subst d'. destruct (put_ok s i d l h' _ l R Hd M) as (_ & _ & H & _). rewrite W, <- Ev in H.
    eexists _, _, p. split; [reflexivity|]. split; [exact H|]. split; [now apply same_refl|]. split; [now apply Lb|]. now rewrite handle_put.
  - destruct (copy_ok k dflt _ Ht) as (c & -> & Sc & Lc & Kc). cbn [unwrap bind]. rewrite Kc. cbn [bind].
    destruct (into_shared_moved (data_drop (s_heap s) d) (DOwned (t_data c))) as [M W]. destruct (Arc (data_drop (s_heap s) d) (DOwned (t_data c))) as (p & Ep). destruct (data_into_shared _ _) as [h' d']. cbn [fst snd] in *. subst d'.
    assert (M' : moved (s_heap s) d h' (DArc p)). { eapply moved_trans; [apply owned_drop_moved, (counted_owns s i _ _ R Hd)| |exact M]. reflexivity. }
    destruct (put_ok s i d l h' _ (t_layout c) R Hd M') as (_ & _ & H & _). rewrite W in H. cbn [data_raw] in H. eexists _, c, p. split; [reflexivity|]. split; [rewrite H; now destruct c|]. split; auto. split; auto. now rewrite handle_put. Qed.

Lemma l_clone_of : forall (T : Type) k dflt (ops : list (op T)) s i t, run k dflt ops = Ok s -> value s i = Some t -> tensor_ok t ->
  exists s' c, step k dflt s (CloneOf i) = Ok s' /\ length (s_vars s') = (length (s_vars s) + 1)%nat /\ value s' (length (s_vars s)) = Some c /\ same_tensor c t /\ handle s' (length (s_vars s)) = None.
Proof. intros T k dflt ops s i [v l] R V Ht. apply run_counted in R. apply value_lookup in V as (d & Hd & Ev). cbn [t_layout t_data] in *. cbn [step]. rewrite Hd, <- Ev. destruct (l_into_owned T k dflt _ Ht) as (c & -> & Tc & Sc & Hc & _). cbn [bind].
  destruct (push_ok s (s_heap s) (DOwned (t_data c)) (t_layout c) R) as (_ & H1 & H2 & _); auto. eexists _, c. split; [reflexivity|]. split; auto. split; [rewrite H2; now destruct c|]. split; [split; auto|].
  unfold handle, push. cbn [s_vars]. now rewrite nth_error_app2, Nat.sub_diag by lia. Qed.

Lemma l_alias : forall (T : Type) k dflt (ops : list (op T)) s i t p l, run k dflt ops = Ok s -> value s i = Some t -> handle s i = Some p -> tensor_new (t_data t) l = Ok (mkTensor (t_data t) l) ->
  exists s', step k dflt s (Alias i l) = Ok s' /\ value s' (length (s_vars s)) = Some (mkTensor (t_data t) l) /\ shares s' i (length (s_vars s)).
Proof. intros T k dflt ops s i [v l0] p l R V Hp E. apply run_counted in R. apply value_lookup in V as (d & Hd & Ev). cbn [t_layout t_data] in *. unfold handle in Hp. rewrite Hd in Hp. destruct d as [w|q]; [discriminate|]. injection Hp as ->. cbn [step]. rewrite Hd. cbn [data_raw] in Ev. rewrite <- Ev, E. cbn [bind t_layout].
  pose proof (counted_owns s i _ _ R Hd p) as K. cbn [owns] in K. rewrite Nat.eqb_refl in K. assert (P : p < length (s_heap s)) by (apply count_in; lia).
  destruct (push_ok s (arc_clone (s_heap s) p) (DArc p) l R) as (_ & _ & H & _).
  - intro q. rewrite clone_count by auto. cbn [owns]. rewrite (Nat.eqb_sym p q). destruct (q =? p); lia.
  - intros q _. apply clone_get.
  - eexists. split; [reflexivity|]. rewrite H. cbn [data_raw]. rewrite clone_get, <- Ev. split; auto. exists p. unfold handle, push. cbn [s_vars]. assert (L : i < length (s_vars s)) by (apply nth_error_Some; congruence). rewrite nth_error_app1, Hd, nth_error_app2, Nat.sub_diag by lia. auto. Qed.

Lemma holders_handles {T} (s : store T) p : length (holders s p) = handles (s_vars s) p.
Proof. unfold holders, handle. generalize (s_vars s). intro vs.
  cut (forall w, length (filter (fun j => match match nth_error (w ++ vs) j with Some (Some (DArc q, _)) => Some q | _ => None end with Some q => q =? p | None => false end) (seq (length w) (length vs))) = handles vs p); [intro H; exact (H [])|].
  induction vs as [|v vs IH]; intro w; cbn [length seq filter handles]; auto. rewrite nth_error_app2, Nat.sub_diag by lia. cbn [nth_error].
  specialize (IH (w ++ [v])). rewrite <- app_assoc, app_length in IH. cbn [app length] in IH. rewrite Nat.add_1_r in IH.
  destruct v as [[[x|q] l]|]; cbn [points]; [exact IH| |exact IH]. destruct (q =? p); cbn [length]; rewrite IH; reflexivity. Qed.
Lemma l_strong_count : forall (T : Type) k dflt (ops : list (op T)) s i, run k dflt ops = Ok s ->
  strong_count s i = match handle s i with Some p => Some (length (holders s p)) | None => None end.
Proof. intros T k dflt ops s i R. apply run_counted in R. unfold strong_count, handle. destruct (nth_error (s_vars s) i) as [[[[x|q] l]|]|]; auto. now rewrite R, holders_handles. Qed.
Lemma l_released : forall (T : Type) k dflt (ops : list (op T)) s, run k dflt ops = Ok s -> (forall i, handle s i = None) -> forall p, arc_count (s_heap s) p = 0%nat.
Proof. intros T k dflt ops s R H p. apply run_counted in R. rewrite R, <- holders_handles. unfold holders. replace (filter _ _) with (@nil nat); auto. symmetry. induction (seq 0 (length (s_vars s))) as [|a l IH]; auto. cbn [filter]. now rewrite H. Qed.
