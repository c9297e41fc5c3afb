(** The lemmas behind the property theorems about triangles and blocked copies. *)
From Verif Require Import Base Spec Spec_Matmul Spec_Tri P_Index P_List M_Layout P_Layout P_Bounds P_Contig P_Strides M_Indexer P_Indexer M_Broadcast P_Broadcast M_Rearr P_Rearr P_BinOp M_Iter P_Iter M_Kernel P_Kernel Q_Kernel M_Tensor P_Tensor Q_Tensor Q_Copy P_Arg P_Axes M_Matmul P_Matmul P_Matmul2 P_Matmul3 P_Matmul4 Q_Matmul M_Tri P_Tri P_Tri2 P_Tri3 P_Tri4.
Local Open Scope Z_scope.

Lemma l_tri_cells : forall o u n, NoDup (tri_cells o u n) /\ length (tri_cells o u n) = (n * (n + 1) / 2)%nat /\
  (forall i j, In (i, j) (tri_cells o u n) <-> (i < n)%nat /\ (j < n)%nat /\ match u with Lower => (j <= i)%nat | Upper => (i <= j)%nat end) /\
  (forall p q i j i' j', (p < q)%nat -> nth_error (tri_cells o u n) p = Some (i, j) -> nth_error (tri_cells o u n) q = Some (i', j') ->
     match o with RowMajor => (i < i')%nat \/ i = i' /\ (j < j')%nat | ColMajor => (j < j')%nat \/ j = j' /\ (i < i')%nat end).
Proof. intros o u n. split; [apply tri_nodup|]. split; [symmetry; apply tri_len_div|]. split. { intros i j. rewrite tri_in_prod. cbn [fst snd]. destruct u; cbn; lia. }
  assert (R : forall u p q i j i' j', (p < q)%nat -> nth_error (tri_cells RowMajor u n) p = Some (i, j) -> nth_error (tri_cells RowMajor u n) q = Some (i', j') -> (i < i')%nat \/ i = i' /\ (j < j')%nat).
  { clear. intros u. set (lt := fun a b : nat * nat => (fst a < fst b)%nat \/ fst a = fst b /\ (snd a < snd b)%nat).
    assert (Srt : forall l, StronglySorted lt l -> forall p q x y, (p < q)%nat -> nth_error l p = Some x -> nth_error l q = Some y -> lt x y).
    { induction 1 as [|z l S IH F]; intros p q x y H Ex Ey; [now destruct p|]. destruct q as [|q]; [lia|]. destruct p as [|p]; cbn in Ex, Ey; [|apply (IH p q); auto; lia]. injection Ex as <-. rewrite Forall_forall in F. apply F. eapply nth_error_In; eauto. }
    assert (Fl : forall f l, StronglySorted lt l -> StronglySorted lt (filter f l)). { intros f l S. induction S as [|z l S IH F]; cbn; [constructor|]. destruct (f z); auto. constructor; auto. rewrite Forall_forall in *. intros x Hx. apply filter_In in Hx. now apply F. }
    assert (Pr : forall l l', StronglySorted Nat.lt l -> StronglySorted Nat.lt l' -> StronglySorted lt (list_prod l l')).
    { intros l l' S S'. induction S as [|z l S IH F]; [constructor|]. cbn [list_prod]. assert (Rw : StronglySorted lt (map (pair z) l')). { clear -S'. induction S' as [|w l' S' IH F]; cbn; constructor; auto. rewrite Forall_map. eapply Forall_impl; [|exact F]. intros a Ha. right. cbn. auto. }
      assert (Cross : forall x y, In x (map (fun y => (z, y)) l') -> In y (list_prod l l') -> lt x y). { intros [x1 x2] [y1 y2] Hx Hy. apply in_map_iff in Hx as (w & [= <- <-] & Hw). apply in_prod_iff in Hy as (Hy & _). left. cbn. rewrite Forall_forall in F. now apply F. }
      clear F. revert Rw Cross. change (map (pair z) l') with (map (fun y => (z, y)) l'). generalize (map (fun y => (z, y)) l'). intros m Rw Cross. induction Rw as [|a m Rw IHm F]; cbn [app]; auto. constructor. - apply IHm. intros; apply Cross; auto. now right. - apply Forall_app. split; auto. apply Forall_forall. intros y Hy. apply Cross; auto. now left. }
    assert (Sq : forall k n, StronglySorted Nat.lt (seq k n)). { intros k m. revert k. induction m as [|m IH]; intro k; cbn; constructor; auto. apply Forall_forall. intros x Hx. apply in_seq in Hx. lia. }
    intros p q i j i' j' H E E'. assert (X : lt (i, j) (i', j')); [|exact X]. apply (Srt (tri_cells RowMajor u n)) with (p := p) (q := q); auto. unfold tri_cells. auto. }
  intros p q i j i' j' H E E'. destruct o; [eapply R; eauto|]. apply nth_col in E, E'. eapply R; eauto. Qed.

Lemma l_pack : forall (T : Type) o (t : tensor T) u B n, tensor_ok t -> t_shape t = mat o B n n -> n <> 0%nat \/ B = [] /\ 0 <= l_offset (t_layout t) <= Z.of_nat (length (t_data t)) ->
  exists r, pack_tri_f o t u = Ok r /\ tensor_ok r /\ t_shape r = vec o B (n * (n + 1) / 2) /\
    forall bx p i j, valid B bx -> nth_error (tri_cells o u n) p = Some (i, j) -> at_ t (mat o bx i j) <> None /\ at_ r (vec o bx p) = at_ t (mat o bx i j).
Proof. intros T o t u B n Ht Sh H. destruct n as [|n].
  - destruct H as [H|(-> & Off)]; [congruence|]. destruct (pack_tri_empty o t u) as (r & E & Or & Sr & _); auto; [apply tensor_ok_good in Ht; apply Ht|unfold t_shape in Sh; rewrite Sh; now destruct o|].
    exists r. split; auto. split; auto. split; [unfold t_shape; rewrite Sr; now destruct o|]. intros bx p i j _ X. exfalso. apply nth_error_In, tri_in_prod in X. lia.
  - destruct (pack_tri_ok o t u B (S n)) as (r & E & Or & Sr & Q); auto. exists r. split; auto. split; auto. split; [rewrite (tri_len_div o u); exact Sr|]. intros bx p i j V X. destruct (Q bx p i j V X); auto. Qed.
Lemma l_pack_err : forall (T : Type) o (t : tensor T) u, (length (t_shape t) < 2)%nat \/ (exists B m n, t_shape t = mat o B m n /\ m <> n) -> exists e, pack_tri_f o t u = Err e.
Proof. intros T o t u H. apply pack_tri_err, H. Qed.
Lemma l_unpack : forall (T : Type) (zero : T) conj opp o (t : tensor T) u s B n, tensor_ok t -> s <> NoSymm -> t_shape t = vec o B (n * (n + 1) / 2) -> n <> 0%nat \/ B = [] /\ 0 <= l_offset (t_layout t) <= Z.of_nat (length (t_data t)) ->
  exists r, unpack_tri_f zero conj opp o t u s = Ok r /\ tensor_ok r /\ t_shape r = mat o B n n /\
    forall bx p i j, valid B bx -> nth_error (tri_cells o u n) p = Some (i, j) -> exists x, at_ t (vec o bx p) = Some x /\
      (i = j -> at_ r (mat o bx i i) = Some (on_diagonal zero conj s x)) /\
      (i <> j -> at_ r (mat o bx i j) = Some x /\ at_ r (mat o bx j i) = Some (mirrored conj opp s x)).
Proof. intros T zero conj opp o t u s B n Ht Hs Sh H. destruct n as [|n].
  - destruct H as [H|(-> & Off)]; [congruence|]. destruct (unpack_tri_empty zero conj opp o t u s) as (r & E & Or & Sr & _); auto; [apply tensor_ok_good in Ht; apply Ht|unfold t_shape in Sh; rewrite Sh; now destruct o|].
    exists r. split; auto. split; auto. split; [unfold t_shape; rewrite Sr; now destruct o|]. intros bx p i j _ X. exfalso. apply nth_error_In, tri_in_prod in X. lia.
  - destruct (unpack_tri_ok zero conj opp o t u s B (S n)) as (r & E & Or & Sr & Q); auto. { rewrite <- (tri_len_div o u). exact Sh. } exists r. split; auto. split; auto. split; auto. intros bx p i j V X. destruct (Q bx p i j V X) as (x & Hx & H1 & H2). exists x. split; auto. split; auto. intros ->. auto. Qed.
Lemma l_unpack_err : forall (T : Type) (zero : T) conj opp o (t : tensor T) u s, t_shape t = [] \/ (exists B N, t_shape t = vec o B N /\ forall n, N <> (n * (n + 1) / 2)%nat) -> exists e, unpack_tri_f zero conj opp o t u s = Err e.
Proof. intros T zero conj opp o t u s H. apply unpack_tri_err. destruct H as [H|(B & N & Sh & H)]; [left; unfold ndim; unfold t_shape in H; now rewrite H|right]. exists B, N. split; auto. intro n. rewrite <- tri_len_div. apply H. Qed.
Lemma l_unpack_pack : forall (T : Type) (zero : T) conj opp o (t : tensor T) u B n, tensor_ok t -> t_shape t = vec o B (n * (n + 1) / 2) -> n <> 0%nat \/ B = [] /\ 0 <= l_offset (t_layout t) <= Z.of_nat (length (t_data t)) ->
  exists m r, unpack_tri_f zero conj opp o t u Sy = Ok m /\ pack_tri_f o m u = Ok r /\ t_shape r = t_shape t /\ forall ix, valid (t_shape t) ix -> at_ r ix = at_ t ix.
Proof. intros T zero conj opp o t u B n Ht Sh H. destruct n as [|n].
  - destruct H as [H|(-> & Off)]; [congruence|]. destruct (unpack_tri_empty zero conj opp o t u Sy) as (m & E & Om & Sm & Fm); auto; [apply tensor_ok_good in Ht; apply Ht|unfold t_shape in Sh; rewrite Sh; now destruct o|].
    destruct (pack_tri_empty o m u) as (r & Er & Or & Sr & _); auto; [apply tensor_ok_good in Om; apply Om|rewrite Fm; lia|]. exists m, r. split; auto. split; auto. assert (St : t_shape t = [0%nat]) by (rewrite Sh; now destruct o). split; [unfold t_shape in *; congruence|]. intros ix V. rewrite St in V. apply valid_size_pos in V. now elim V.
  - apply unpack_pack_ok with (B := B) (n := S n); auto. rewrite <- (tri_len_div o u). exact Sh. Qed.
Lemma l_pack_unpack : forall (T : Type) (zero : T) conj opp o (t : tensor T) u B n, tensor_ok t -> t_shape t = mat o B n n -> n <> 0%nat \/ B = [] /\ 0 <= l_offset (t_layout t) <= Z.of_nat (length (t_data t)) ->
  (forall bx i j, valid B bx -> (i < n)%nat -> (j < n)%nat -> at_ t (mat o bx i j) = at_ t (mat o bx j i)) ->
  exists m r, pack_tri_f o t u = Ok m /\ unpack_tri_f zero conj opp o m u Sy = Ok r /\ t_shape r = t_shape t /\ forall ix, valid (t_shape t) ix -> at_ r ix = at_ t ix.
Proof. intros T zero conj opp o t u B n Ht Sh H Sym. destruct n as [|n].
  - destruct H as [H|(-> & Off)]; [congruence|]. assert (St : t_shape t = [0; 0]%nat) by (rewrite Sh; now destruct o). destruct (pack_tri_empty o t u) as (m & E & Om & Sm & Fm); auto; [apply tensor_ok_good in Ht; apply Ht|].
    destruct (unpack_tri_empty zero conj opp o m u Sy) as (r & Er & Or & Sr & _); auto; [apply tensor_ok_good in Om; apply Om|rewrite Fm; lia|]. exists m, r. split; auto. split; auto. split; [unfold t_shape in *; congruence|]. intros ix V. rewrite St in V. apply valid_size_pos in V. now elim V.
  - now apply pack_unpack_ok with (B := B) (n := S n). Qed.
Lemma l_pack_rayon : forall (T : Type) (a : list (option T)) la (b : list T) lb u B n r, n <> 0%nat -> accepted la -> accepted lb -> injective la -> l_shape la = vec RowMajor B (n * (n + 1) / 2) -> l_shape lb = mat RowMajor B n n ->
  inside la (length a) -> inside lb (length b) -> pack_tri_rayon a la b lb u r -> exists a', r = Ok a' /\ untouched_outside la a a' /\ is_packed RowMajor u n B b lb a' la.
Proof. intros T a la b lb u B n r Hn Ga Gb J Sa Sb Ia Ib R. eapply pack_rayon_row; eauto; try now apply good_accepted. rewrite <- (tri_len_div RowMajor u). exact Sa. Qed.
Lemma l_unpack_rayon : forall (T : Type) (zero : T) conj opp (a : list (option T)) la (b : list T) lb u s B n r, n <> 0%nat -> s <> NoSymm -> accepted la -> accepted lb -> injective la -> l_shape la = mat RowMajor B n n -> l_shape lb = vec RowMajor B (n * (n + 1) / 2) ->
  inside la (length a) -> inside lb (length b) -> unpack_tri_rayon zero conj opp a la b lb u s r -> exists a', r = Ok a' /\ untouched_outside la a a' /\ is_unpacked zero conj opp RowMajor u s n B b lb a' la.
Proof. intros T zero conj opp a la b lb u s B n r Hn Hs Ga Gb J Sa Sb Ia Ib R. eapply unpack_rayon_row; eauto; try now apply good_accepted. rewrite <- (tri_len_div RowMajor u). exact Sb. Qed.
Lemma l_pack_empty_refuted : exists (t : tensor Z) (v : tensor Z), tensor_ok t /\ tensor_ok v /\ t_shape t = [2; 0; 0]%nat /\ t_shape v = [2; 0]%nat /\
  pack_tri_f RowMajor t Lower = Panic /\ unpack_tri_f 0 (fun x => x) Z.opp RowMajor v Lower Sy = Panic.
Proof. exists (mkTensor [] (new_c_contig Fixed [2; 0; 0]%nat 0)), (mkTensor [] (new_c_contig Fixed [2; 0]%nat 0)).
  split; [apply tensor_ok_good; split; [apply (contig_good Fixed _ 0 RowMajor); lia|intros ix V; apply valid_size_pos in V; now elim V]|].
  split; [apply tensor_ok_good; split; [apply (contig_good Fixed _ 0 RowMajor); lia|intros ix V; apply valid_size_pos in V; now elim V]|]. repeat split; vm_compute; reflexivity. Qed.
Lemma l_unpack_nosymm_refuted : exists (t : tensor Z), tensor_ok t /\ t_shape t = [3]%nat /\ unpack_tri_f 0 (fun x => x) Z.opp RowMajor t Lower NoSymm = Panic.
Proof. exists (mkTensor [1; 2; 3] (mkLayout [3]%nat [1] 0)). split; [concrete_tensor|]. split; vm_compute; reflexivity. Qed.

(** ** tril, triu *)
Lemma l_tril : forall (T : Type) (zero : T) (t : tensor T) k B m n, tensor_ok t -> anchored (t_layout t) -> injective (t_layout t) -> t_shape t = B ++ [m; n] ->
  exists r, tril_mut zero t k = Ok r /\ t_layout r = t_layout t /\ untouched_outside (t_layout t) (t_data t) (t_data r) /\
    forall bx i j, valid B bx -> (i < m)%nat -> (j < n)%nat -> at_ r (bx ++ [i; j]) = if Z.of_nat j <=? Z.of_nat i + k then at_ t (bx ++ [i; j]) else Some zero.
Proof. intros T zero t k B m n Ht An J Sh. apply tensor_ok_good in Ht as (G & I0). destruct (tril_ok zero (t_data t) (t_layout t) k B m n) as (d & E & U & Q); auto; [apply G|apply G|]. unfold tril_mut. rewrite E. cbn [bind]. eexists. split; [reflexivity|]. split; auto. Qed.
Lemma l_triu : forall (T : Type) (zero : T) (t : tensor T) k B m n, tensor_ok t -> anchored (t_layout t) -> injective (t_layout t) -> t_shape t = B ++ [m; n] -> m = 0%nat \/ Z.of_nat m - 1 + k <= Z.of_nat n ->
  exists r, triu_mut zero t k = Ok r /\ t_layout r = t_layout t /\ untouched_outside (t_layout t) (t_data t) (t_data r) /\
    forall bx i j, valid B bx -> (i < m)%nat -> (j < n)%nat -> at_ r (bx ++ [i; j]) = if Z.of_nat i + k <=? Z.of_nat j then at_ t (bx ++ [i; j]) else Some zero.
Proof. intros T zero t k B m n Ht An J Sh Wd. apply tensor_ok_good in Ht as (G & I0). destruct (triu_ok zero (t_data t) (t_layout t) k B m n) as (d & E & U & Q); auto; [apply G|apply G|]. unfold triu_mut. rewrite E. cbn [bind]. eexists. split; [reflexivity|]. split; auto. Qed.
Lemma tri_contig_input {T} kd o (t : tensor T) : tensor_ok t -> size (t_shape t) <> 0%nat \/ 0 <= l_offset (t_layout t) <= Z.of_nat (length (t_data t)) ->
  exists c, change_contig kd o t o = Ok c /\ tensor_ok c /\ t_shape c = t_shape t /\ anchored (t_layout c) /\ injective (t_layout c) /\ forall ix, valid (t_shape t) ix -> at_ c ix = at_ t ix.
Proof. intros Ht Off. destruct (l_change_contig T kd o t o Ht Off) as (c & E & Oc & Sc & Ac & _ & Q). exists c. split; auto. split; auto. split; auto. unfold change_contig in E. apply change_layout_layout in E. rewrite E. split; [apply contig_anchored|]. split; auto. eapply perm_injective, contig_perm. Qed.
Lemma l_tril_view : forall (T : Type) kd o (zero : T) (t : tensor T) k B m n, tensor_ok t -> size (t_shape t) <> 0%nat \/ 0 <= l_offset (t_layout t) <= Z.of_nat (length (t_data t)) -> t_shape t = B ++ [m; n] ->
  exists r, tril_view kd o zero t k = Ok r /\ t_shape r = t_shape t /\
    forall bx i j, valid B bx -> (i < m)%nat -> (j < n)%nat -> at_ r (bx ++ [i; j]) = if Z.of_nat j <=? Z.of_nat i + k then at_ t (bx ++ [i; j]) else Some zero.
Proof. intros T kd o zero t k B m n Ht Off Sh. destruct (tri_contig_input kd o t Ht Off) as (c & E & Oc & Sc & Ac & Jc & Q). unfold tril_view. rewrite E. cbn [bind]. destruct (l_tril T zero c k B m n Oc Ac Jc) as (r & Er & Lr & _ & Qr); [congruence|].
  exists r. split; auto. split; [unfold t_shape in *; congruence|]. intros bx i j V Hi Hj. rewrite Qr by auto. rewrite Q; auto. rewrite Sh. apply valid_mat; auto. now apply valid_length in V. Qed.
Lemma l_triu_view : forall (T : Type) kd o (zero : T) (t : tensor T) k B m n, tensor_ok t -> size (t_shape t) <> 0%nat \/ 0 <= l_offset (t_layout t) <= Z.of_nat (length (t_data t)) -> t_shape t = B ++ [m; n] -> m = 0%nat \/ Z.of_nat m - 1 + k <= Z.of_nat n ->
  exists r, triu_view kd o zero t k = Ok r /\ t_shape r = t_shape t /\
    forall bx i j, valid B bx -> (i < m)%nat -> (j < n)%nat -> at_ r (bx ++ [i; j]) = if Z.of_nat i + k <=? Z.of_nat j then at_ t (bx ++ [i; j]) else Some zero.
Proof. intros T kd o zero t k B m n Ht Off Sh Wd. destruct (tri_contig_input kd o t Ht Off) as (c & E & Oc & Sc & Ac & Jc & Q). unfold triu_view. rewrite E. cbn [bind]. destruct (l_triu T zero c k B m n Oc Ac Jc) as (r & Er & Lr & _ & Qr); [congruence|auto|].
  exists r. split; auto. split; [unfold t_shape in *; congruence|]. intros bx i j V Hi Hj. rewrite Qr by auto. rewrite Q; auto. rewrite Sh. apply valid_mat; auto. now apply valid_length in V. Qed.
Lemma l_tri_rank : forall (T : Type) (zero : T) (t : tensor T) k, (length (t_shape t) < 2)%nat -> (exists e, tril_mut zero t k = Err e) /\ (exists e, triu_mut zero t k = Err e).
Proof. intros T zero t k H. unfold tril_mut, triu_mut, tril_kernel, triu_kernel, tri_stack. destruct (rank_short (t_layout t) (-2)) as (e & ->). { unfold ndim. unfold t_shape in H. lia. } cbn [bind]. eauto. Qed.
Lemma l_triu_refuted : (exists (t : tensor Z), tensor_ok t /\ t_shape t = [3; 3]%nat /\ triu_mut 0 t 2 = Panic) /\
  (exists (t : tensor Z), tensor_ok t /\ t_shape t = [4; 2]%nat /\ triu_mut 0 t 0 = Panic) /\
  (exists (t r : tensor Z), tensor_ok t /\ injective (t_layout t) /\ t_shape t = [2; 4; 2]%nat /\ triu_mut 0 t 0 = Ok r /\ at_ t [1; 0; 0]%nat = Some 7 /\ at_ r [1; 0; 0]%nat = Some 0).
Proof. split; [|split].
  - exists (mkTensor [7; 7; 7; 7; 7; 7; 7; 7; 7] (mkLayout [3; 3]%nat [3; 1] 0)). split; [concrete_tensor|]. split; reflexivity.
  - exists (mkTensor [7; 7; 7; 7; 7; 7; 7; 7] (mkLayout [4; 2]%nat [2; 1] 0)). split; [concrete_tensor|]. split; reflexivity.
  - exists (mkTensor [7; 7; 7; 7; 7; 7; 7; 7; 7; 7; 7; 7; 7; 7; 7; 7; 7; 7; 7; 7] (mkLayout [2; 4; 2]%nat [8; 2; 1] 0)). eexists. split; [concrete_tensor|]. split; [apply (perm_injective _ 16 (contig_perm Fixed [2; 4; 2]%nat RowMajor))|]. split; [reflexivity|]. split; [reflexivity|]. split; reflexivity. Qed.

(** ** blocked order change *)
Lemma checks_spec lc la m n : length (l_shape lc) = 2%nat -> l_shape la = [m; n] -> (l_shape lc = [m; n] /\ nth 0 (l_stride lc) 0 = 1 /\ nth 1 (l_stride la) 0 = 1 /\ order_checks lc la = Ok tt) \/
  (~ (l_shape lc = [m; n] /\ nth 0 (l_stride lc) 0 = 1 /\ nth 1 (l_stride la) 0 = 1) /\ exists e, order_checks lc la = Err e).
Proof. intros Lc Sa. unfold order_checks, extent. rewrite Sa. destruct (l_shape lc) as [|x [|y [|]]]; try discriminate Lc. cbn [nth]. unfold check.
  destruct (x =? m)%nat eqn:E1; cbn [bind]; [|right; split; [intros ([= -> ->] & _); lia|eauto]]. destruct (y =? n)%nat eqn:E2; cbn [bind]; [|right; split; [intros ([= -> ->] & _); lia|eauto]].
  destruct (nth 0 (l_stride lc) 0 =? 1) eqn:E3; cbn [bind]; [|right; split; [lia|eauto]]. destruct (nth 1 (l_stride la) 0 =? 1) eqn:E4; [|right; split; [lia|eauto]].
  left. split; [f_equal; [lia|f_equal; lia]|]. split; [lia|]. split; [lia|reflexivity]. Qed.
Lemma l_r2c : forall (T : Type) (c : list T) lc (a : list T) la m n, wf lc -> wf la -> injective lc -> inside lc (length c) -> inside la (length a) -> length (l_shape lc) = 2%nat -> l_shape la = [m; n] ->
  (l_shape lc = [m; n] /\ nth 0 (l_stride lc) 0 = 1 /\ nth 1 (l_stride la) 0 = 1 /\ exists c', orderchange_r2c c lc a la = Ok c' /\ untouched_outside lc c c' /\ forall ix, valid [m; n] ix -> elem c' lc ix = elem a la ix) \/
  (~ (l_shape lc = [m; n] /\ nth 0 (l_stride lc) 0 = 1 /\ nth 1 (l_stride la) 0 = 1) /\ exists e, orderchange_r2c c lc a la = Err e).
Proof. intros T c lc a la m n Wc Wa J Ic Ia Lc Sa. rewrite r2c_blocked. unfold extent. rewrite Sa. cbn [nth]. destruct (checks_spec lc la m n Lc Sa) as [(Sc & S0 & S1 & ->)|(H & e & ->)]; cbn [bind]; [left|right; eauto].
  split; auto. split; auto. split; auto. now apply (order_cells_ok c lc a la m n). Qed.
Lemma l_c2r : forall (T : Type) (c : list T) lc (a : list T) la m n, wf lc -> wf la -> injective lc -> inside lc (length c) -> inside la (length a) -> length (l_shape lc) = 2%nat -> l_shape la = [m; n] ->
  (l_shape lc = [m; n] /\ nth 1 (l_stride lc) 0 = 1 /\ nth 0 (l_stride la) 0 = 1 /\ exists c', orderchange_c2r c lc a la = Ok c' /\ untouched_outside lc c c' /\ forall ix, valid [m; n] ix -> elem c' lc ix = elem a la ix) \/
  (~ (l_shape lc = [m; n] /\ nth 1 (l_stride lc) 0 = 1 /\ nth 0 (l_stride la) 0 = 1) /\ exists e, orderchange_c2r c lc a la = Err e).
Proof. intros T c lc a la m n Wc Wa J Ic Ia Lc Sa. unfold orderchange_c2r.
  assert (R2 : forall s : list Z, length s = 2%nat -> nth 0 (rev s) 0 = nth 1 s 0 /\ nth 1 (rev s) 0 = nth 0 s 0). { intros [|x [|y [|]]] L; try discriminate L. auto. }
  destruct (R2 (l_stride lc)) as (C0 & _); [rewrite (proj1 Wc); auto|]. destruct (R2 (l_stride la)) as (_ & A1); [rewrite (proj1 Wa), Sa; auto|].
  destruct (l_r2c T c (reverse_axes lc) a (reverse_axes la) n m) as [(Sc & S0 & S1 & c' & E & U & Q)|(H & E)]; auto using reverse_wf, rev_injective, rev_inside; cbn [reverse_axes l_shape l_stride] in *; rewrite ?rev_length; rewrite ?Sa; auto.
  - left. assert (Sc' : l_shape lc = [m; n]). { rewrite <- (rev_involutive (l_shape lc)), Sc. reflexivity. } split; auto. split; [congruence|]. split; [congruence|]. exists c'. split; auto. split; [now apply rev_untouched|].
    intros ix V. apply valid_cons_inv in V as (i & r & -> & Hi & V). apply valid_cons_inv in V as (j & r' & -> & Hj & V). apply valid_nil in V as ->. specialize (Q [j; i]). rewrite !elem_rev in Q by (rewrite ?(proj1 Wc), ?(proj1 Wa), ?Sc', ?Sa; reflexivity). apply Q. now apply valid_tuple2.
  - right. split; auto. intros (Sc & S1 & S0). apply H. rewrite Sc. split; auto. split; congruence. Qed.
Lemma l_r2c_rayon : forall (T : Type) pool (c : list T) lc (a : list T) la m n r, wf lc -> wf la -> injective lc -> inside lc (length c) -> inside la (length a) -> length (l_shape lc) = 2%nat -> l_shape la = [m; n] -> orderchange_r2c_rayon pool c lc a la r ->
  (l_shape lc = [m; n] /\ nth 0 (l_stride lc) 0 = 1 /\ nth 1 (l_stride la) 0 = 1 /\ exists c', r = Ok c' /\ untouched_outside lc c c' /\ forall ix, valid [m; n] ix -> elem c' lc ix = elem a la ix) \/
  (~ (l_shape lc = [m; n] /\ nth 0 (l_stride lc) 0 = 1 /\ nth 1 (l_stride la) 0 = 1) /\ exists e, r = Err e).
Proof. intros T pool c lc a la m n r Wc Wa J Ic Ia Lc Sa R. unfold orderchange_r2c_rayon in R. destruct (_ || _). { subst r. now apply l_r2c. }
  unfold extent in R. rewrite Sa in R. cbn [nth] in R. fold (blocked m n) in R. destruct (checks_spec lc la m n Lc Sa) as [(Sc & S0 & S1 & E)|(H & e & E)]; rewrite E in R; [left|right; eauto].
  split; auto. split; auto. split; auto. destruct R as (steps & P & ->). now apply (order_cells_ok c lc a la m n). Qed.
