(** Property lemmas about copies and layout conversions of tensors (C44). *)
From Verif Require Import Base Spec P_Index P_List M_Layout P_Layout P_Bounds P_Contig P_Strides M_Indexer P_Indexer M_Broadcast P_Broadcast Q_Broadcast M_Reshape P_Reshape Q_Reshape M_Rearr M_Iter P_Iter P_Rearr P_BinOp Q_Rearr M_Kernel P_Kernel Q_Kernel M_Tensor P_Tensor P_Reshape2 Q_Tensor.
Local Open Scope Z_scope.

(** ** asarray, clone *)
Lemma asarray_ok {A} k dflt (a : tensor A) ord : tensor_ok a -> ord = OC \/ ord = OF \/ ord = OA \/ ord = OK ->
  exists c, asarray k dflt a ord = Ok c /\ tensor_ok c /\ layout_for_array_copy k dflt (t_layout a) ord = Ok (t_layout c) /\ t_shape c = t_shape a /\ length (t_data c) = size (t_shape a) /\ forall ix, valid (t_shape a) ix -> at_ c ix = at_ a ix.
Proof. intros Ha Ho. destruct (fresh_copy k dflt a (fun x => x) ord Ha Ho) as (lc & d & E & _ & Ek & T & S & Ld & H). exists (mkTensor d lc). unfold asarray, assign. rewrite E. cbn [bind]. rewrite Ek.
  cbn [t_layout t_data]. split; auto. split; auto. split; auto. split; auto. split; auto. intros ix V. destruct (H ix V) as (x & -> & H'). exact H'. Qed.
Lemma copy_contig k dflt l lc ord : layout_for_array_copy k dflt l ord = Ok lc -> (ord = OC -> lc = new_contig k (l_shape l) 0 RowMajor) /\ (ord = OF -> lc = new_contig k (l_shape l) 0 ColMajor).
Proof. intro E. split; intros ->; cbn in E; injection E as <-; reflexivity. Qed.
Lemma contig_addrs k s o : addrs o (new_contig k s 0 o) = consecutive 0 (size s).
Proof. destruct o; [change (addrs RowMajor (new_contig k s 0 RowMajor)) with (map (addr (new_c_contig k s 0)) (row_major s)); now rewrite new_c_contig_addrs|].
  change (addrs ColMajor (new_contig k s 0 ColMajor)) with (map (addr (new_f_contig k s 0)) (col_major s)). now rewrite new_f_contig_addrs. Qed.

Lemma l_asarray : forall (A : Type) k dflt (a : tensor A) ord, tensor_ok a -> ord = OC \/ ord = OF \/ ord = OA \/ ord = OK ->
  exists c, asarray k dflt a ord = Ok c /\ tensor_ok c /\ t_shape c = t_shape a /\ length (t_data c) = size (t_shape a) /\ (forall ix, valid (t_shape a) ix -> at_ c ix = at_ a ix) /\
    (ord = OC -> addrs RowMajor (t_layout c) = consecutive 0 (size (t_shape a))) /\ (ord = OF -> addrs ColMajor (t_layout c) = consecutive 0 (size (t_shape a))).
Proof. intros A k dflt a ord Ha Ho. destruct (asarray_ok k dflt a ord Ha Ho) as (c & E & T & El & S & L & H). exists c. split; auto. split; auto. split; auto. split; auto. split; auto.
  destruct (copy_contig _ _ _ _ _ El) as [X Y]. split; intros ->; [rewrite (X eq_refl)|rewrite (Y eq_refl)]; apply contig_addrs. Qed.
Lemma l_asarray_owned : forall (A : Type) k dflt (a : tensor A) ord, tensor_ok a -> ord = OC \/ ord = OF \/ ord = OA \/ ord = OK ->
  exists c, asarray_owned k dflt a ord = Ok c /\ tensor_ok c /\ t_shape c = t_shape a /\ (forall ix, valid (t_shape a) ix -> at_ c ix = at_ a ix) /\
    (ord = OC -> addrs RowMajor (t_layout c) = consecutive 0 (size (t_shape a))) /\ (ord = OF -> addrs ColMajor (t_layout c) = consecutive 0 (size (t_shape a))).
Proof. intros A k dflt a ord Ha Ho. pose proof Ha as Ha'. apply tensor_ok_good in Ha' as [Ga Ia]. destruct (l_asarray A k dflt a ord Ha Ho) as (c & E & T & S & L & H & X). unfold asarray_owned.
  destruct (copy_layout_good k dflt (t_layout a) ord Ga Ho) as (lc & El & Gc & _). rewrite El. cbn [bind]. destruct (layout_eqb lc (t_layout a)) eqn:Eq; [|exists c; auto 10].
  exists a. split; auto. split; auto. split; auto. split; auto. apply layout_eqb_same_addr in Eq as [Es Ea]; auto using good_wf. unfold t_shape.
  assert (K : forall o, addrs o (t_layout a) = addrs o lc). { intro o. unfold addrs. rewrite Es. apply map_ext_in. intros ix Hi. symmetry. apply Ea. rewrite Es. now apply in_enum in Hi. }
  destruct (copy_contig _ _ _ _ _ El) as [X1 X2]. split; intros ->; rewrite K; [rewrite (X1 eq_refl)|rewrite (X2 eq_refl)]; apply contig_addrs. Qed.
Lemma l_into_owned : forall (A : Type) k dflt (a : tensor A), tensor_ok a ->
  exists c, into_owned k dflt a = Ok c /\ tensor_ok c /\ t_shape c = t_shape a /\ (forall ix, valid (t_shape a) ix -> at_ c ix = at_ a ix) /\ length (t_data c) = size (t_shape a).
Proof. intros A k dflt a Ha. pose proof Ha as Ha'. apply tensor_ok_good in Ha' as [(W & N & _) Ia]. unfold into_owned. destruct (proj2 (bounds_index_ok_iff _ W) N) as (b & ->). cbn [unwrap bind].
  destruct (_ && _) eqn:C; [exists a; split; auto; split; auto; split; auto; split; auto; unfold t_shape; fold (l_size (t_layout a)); lia|]. destruct (l_asarray A k dflt a OK Ha) as (c & -> & T & S & L & H & _); auto. exists c. auto. Qed.

(** ** to_vec, to_scalar *)
Lemma l_to_vec : forall (A : Type) (a : tensor A), tensor_ok a ->
  match to_vec a with
  | Ok v => exists n, t_shape a = [n] /\ length v = n /\ forall i, (i < n)%nat -> nth_error v i = at_ a [i]
  | Err _ => length (t_shape a) <> 1%nat
  | Panic => False
  end.
Proof. intros A a Ha. apply tensor_ok_good in Ha as [Ga Ia]. unfold to_vec. destruct (Nat.eqb_spec (ndim (t_layout a)) 1) as [Nd|Nd]; cbn [check bind]; [|exact Nd].
  unfold ndim in Nd. destruct (l_shape (t_layout a)) as [|n [|]] eqn:Sh; try discriminate Nd. unfold l_size, t_shape. rewrite Sh. assert (Sz : size [n] = n) by (cbn; lia). rewrite Sz.
  change (new_c_contig Fixed [n] 0) with (new_contig Fixed [n] 0 RowMajor). set (lc := new_contig Fixed [n] 0 RowMajor).
  assert (Gc : good lc) by (apply contig_good; lia). assert (P : Permutation (addrs RowMajor lc) (consecutive 0 (size [n]))) by apply contig_perm. assert (Cv : covers lc n) by (rewrite <- Sz; now apply perm_covers). assert (Jc : injective lc) by (now apply (perm_injective lc (size [n]))).
  assert (Ln : length (uninit A (Z.of_nat n)) = n) by (rewrite uninit_length; lia).
  destruct (op2_kernel Fixed (uninit A (Z.of_nat n)) lc (t_data a) (t_layout a) (fun _ y => Some y) [n] Gc Ga eq_refl Sh) as (c' & E & [U _] & H); auto; [rewrite Ln; now apply covers_inside|].
  unfold assign. rewrite E. cbn [bind]. destruct (fresh_result lc c' (fun ix v => elem (t_data a) (t_layout a) ix = Some v)) as (d & E1 & E2 & Ld & Id & Hd); auto.
  - now rewrite U, Ln.
  - intros ix V. destruct (H ix V) as (_ & x & _ & Hx & Hz). exists x. auto.
  - rewrite E1. exists n. split; auto. split; [congruence|]. intros i Hi. destruct (Hd [i]) as (v & Hv & Hw); [constructor; [exact Hi|constructor]|]. unfold at_. rewrite Hw, <- Hv. unfold elem. replace lc with (mkLayout [n] [1] 0) by reflexivity. unfold addr. cbn [l_offset l_stride dot]. unfold peek. replace (_ <? 0) with false by lia. f_equal. lia. Qed.
Lemma l_into_vec : forall (A : Type) (a : tensor A), tensor_ok a ->
  match into_vec a with
  | Ok v => exists n, t_shape a = [n] /\ length v = n /\ forall i, (i < n)%nat -> nth_error v i = at_ a [i]
  | Err _ => length (t_shape a) <> 1%nat
  | Panic => False
  end.
Proof. intros A a Ha. pose proof (l_to_vec A a Ha) as Ref. apply tensor_ok_good in Ha as [(W & N & Ck) Ia]. unfold into_vec. destruct (Nat.eqb_spec (ndim (t_layout a)) 1) as [Nd|Nd]; cbn [check bind]; [|exact Nd].
  destruct (proj2 (bounds_index_ok_iff _ W) N) as ([lo hi] & Eb). rewrite Eb. cbn [bind fst snd]. destruct (_ && _) eqn:C; auto. clear Ref. unfold ndim in Nd. unfold t_shape, at_, elem, addr, l_size in *. destruct a as [d [sh st off]]. cbn [t_layout t_data l_shape l_stride l_offset] in *.
  destruct sh as [|n [|]]; try discriminate Nd. destruct W as [L _]. cbn [l_shape l_stride length] in L. destruct st as [|t [|]]; try discriminate L. assert (Sz : size [n] = n) by (cbn; lia). rewrite Sz in C. cbn [hd] in C. exists n. split; auto. split; [lia|]. intros i Hi.
  apply bounds_index_sound in Eb; [|split; [reflexivity|cbn [l_shape l_offset]; intro Z0; specialize (N [0%nat]); unfold addr in N; cbn [l_offset l_stride dot l_shape] in N; assert (valid [n] [0%nat]) by (constructor; [lia|constructor]); lia]].
  cbn [l_shape] in Eb. destruct Eb as (_ & B1 & _ & B2). rewrite Sz in B2. destruct B2 as [(i0 & V0 & B0) _]; [lia|]. apply valid_cons_inv in V0 as (q & r & -> & Hq & V0). apply valid_nil in V0. subst r.
  unfold addr in B0, B1. cbn [l_offset l_stride dot] in B0, B1. assert (V0 : valid [n] [0%nat]) by (constructor; [lia|constructor]). assert (V1 : valid [n] [(n - 1)%nat]) by (constructor; [lia|constructor]). apply B1 in V0, V1. cbn [dot] in V0, V1 |- *.
  assert (0 < t) by lia. assert (0 <= Z.of_nat q * t) by (apply Z.mul_nonneg_nonneg; lia). assert (off = 0) by lia. subst off. assert (T1 : (Z.of_nat n - 1) * t <= Z.of_nat n - 1) by (replace (Z.of_nat n - 1) with (Z.of_nat (n - 1)) by lia; lia). assert (P : t * Z.of_nat i = Z.of_nat i). { destruct (Z.eq_dec t 1) as [->|]; [lia|]. assert (n = 1%nat) by nia. assert (i = 0%nat) by lia. subst. lia. }
  rewrite P. unfold peek. replace (0 + (Z.of_nat i + 0) <? 0) with false by lia. f_equal. lia. Qed.
Lemma size_one s : size s = 1%nat -> forall ix, valid s ix -> ix = repeat 0%nat (length s).
Proof. induction s as [|d s IH]; intros S ix V; [now apply valid_nil in V|]. apply valid_cons_inv in V as (i & r & -> & Hi & V). rewrite size_cons in S. apply Nat.eq_mul_1 in S as [-> S']. cbn [length repeat]. rewrite (IH S' r V). f_equal. lia. Qed.
Lemma dot_zeros n st : dot st (repeat 0%nat n) = 0.
Proof. revert st; induction n as [|n IH]; intros [|t st]; cbn [repeat dot]; auto. rewrite IH. lia. Qed.
Lemma l_to_scalar : forall (A : Type) (a : tensor A), tensor_ok a ->
  match to_scalar a with
  | Ok v => size (t_shape a) = 1%nat /\ forall ix, valid (t_shape a) ix -> at_ a ix = Some v
  | Err _ => size (t_shape a) <> 1%nat
  | Panic => False
  end.
Proof. intros A a Ha. apply tensor_ok_good in Ha as [Ga Ia]. unfold to_scalar, l_size, t_shape, at_. destruct (Nat.eqb_spec (size (l_shape (t_layout a))) 1) as [E|E]; cbn [check bind]; [|exact E].
  set (z := repeat 0%nat (length (l_shape (t_layout a)))). assert (Vz : valid (l_shape (t_layout a)) z). { destruct (row_major (l_shape (t_layout a))) as [|i r] eqn:R; [apply (f_equal (@length _)) in R; rewrite length_row_major in R; cbn in R; lia|]. assert (V : valid (l_shape (t_layout a)) i) by (apply in_row_major; rewrite R; now left). unfold z. now rewrite <- (size_one _ E i V). }
  assert (Az : addr (t_layout a) z = l_offset (t_layout a)) by (unfold addr, z; rewrite dot_zeros; lia). destruct (elem_inside (t_data a) (t_layout a) z Ia Vz) as (v & Hv). unfold elem in Hv. rewrite Az in Hv. pose proof Hv as Hv'. apply zget_peek in Hv'. rewrite Hv'. split; auto. intros ix V. rewrite (size_one _ E ix V). fold z. unfold elem. now rewrite Az. Qed.

(** ** copies that may change the shape *)
Lemma combine_nth_error {A B} (l : list A) (l' : list B) k a b : nth_error l k = Some a -> nth_error l' k = Some b -> In (a, b) (combine l l').
Proof. revert l l'; induction k as [|k IH]; intros [|x l] [|y l'] H H'; try discriminate; cbn in *; [left; congruence|right; eauto]. Qed.
Lemma in_combine_nth {A B} (l : list A) (l' : list B) a b : In (a, b) (combine l l') -> exists k, nth_error l k = Some a /\ nth_error l' k = Some b.
Proof. revert l'; induction l as [|x l IH]; intros [|y l'] H; try destruct H. { exists 0%nat. inversion H. auto. } destruct (IH l' H) as (k & H1 & H2). exists (S k). auto. Qed.
Lemma enum_length o s : length (enum o s) = size s.
Proof. destruct o; [apply length_row_major|apply length_col_major]. Qed.
Lemma combine_map2 {A B C D} (f : A -> C) (g : B -> D) l l' : combine (map f l) (map g l') = map (fun p => (f (fst p), g (snd p))) (combine l l').
Proof. revert l'; induction l as [|x l IH]; intros [|y l']; cbn; auto. now rewrite IH. Qed.
Lemma arbitrary_ok {C A} k (cast : A -> C) (c : list C) lc (a : list A) la o : wf lc -> nonneg lc -> wf la -> nonneg la -> injective lc -> inside lc (length c) -> inside la (length a) -> (size (l_shape lc) <= size (l_shape la))%nat ->
  size (l_shape la) <> 0%nat \/ (0 <= l_offset lc <= Z.of_nat (length c) /\ 0 <= l_offset la <= Z.of_nat (length a)) -> size (l_shape lc) = size (l_shape la) \/ size (l_shape lc) <> 0%nat ->
  exists c', assign_arbitary k cast c lc a la o = Ok c' /\ untouched_outside lc c c' /\
    forall i j, same_rank o (l_shape lc) (l_shape la) i j -> exists y, elem a la j = Some y /\ elem c' lc i = Some (cast y).
Proof. intros Wc Nc Wa Na J Ic Ia Sz Off Sz0. set (ps := combine (enum o (l_shape lc)) (enum o (l_shape la))).
  set (h := fun (p : list nat * list nat) (_ : C) => let* y := zget a (addr la (snd p)) in Ok (cast y)).
  assert (V : forall p, In p ps -> valid (l_shape lc) (fst p) /\ valid (l_shape la) (snd p)). { intros [i j] H. split; [apply in_combine_l in H|apply in_combine_r in H]; now apply in_enum in H. }
  assert (E : assign_arbitary k cast c lc a la o = fold_res (modify (fun p => addr lc (fst p)) h) ps c).
  { assert (G : forall xs ys : list Z, xs = addrs o lc -> ys = addrs o la -> fold_res (cell2 a (fun _ y => cast y)) (map (fun p => [fst p; snd p]) (combine xs ys)) c = fold_res (modify (fun p => addr lc (fst p)) h) ps c).
    { intros xs ys -> ->. unfold addrs. rewrite combine_map2, map_map, fold_res_map. fold ps. apply fold_res_ext'. intros s [i j]. cbn [fst snd]. unfold cell2, modify, h. apply bind_ext. intro x. cbn [snd fst]. now rewrite bind_assoc. }
    unfold assign_arbitary. set (cg := match o with RowMajor => c_contig lc && c_contig la | ColMajor => f_contig lc && f_contig la end). destruct cg eqn:Ecg.
    - destruct (Nat.eq_dec (size (l_shape lc)) 0) as [Z0|Z0].
      + destruct Sz0 as [Sz0|Sz0]; [|congruence]. destruct Off as [Off|[Oc Oa]]; [congruence|]. unfold l_size. rewrite Z0. replace (_ && _) with true by (symmetry; rewrite !andb_true_iff; lia). cbn [seq map fold_res].
        unfold ps. replace (enum o (l_shape lc)) with (@nil (list nat)); [reflexivity|]. symmetry. apply length_zero_iff_nil. now rewrite enum_length.
      + assert (Ec : addrs o lc = consecutive (l_offset lc) (size (l_shape lc)) /\ addrs o la = consecutive (l_offset la) (size (l_shape la))).
        { unfold cg in Ecg. destruct o; apply andb_true_iff in Ecg as [E1 E2]; split; (apply c_contig_iff || apply f_contig_iff); auto; lia. }
        destruct Ec as [Ec Ea]. assert (Rc : forall l n m, inside l n -> addrs o l = consecutive (l_offset l) (size (l_shape l)) -> (0 < m <= size (l_shape l))%nat -> 0 <= l_offset l /\ l_offset l + Z.of_nat m <= Z.of_nat n).
        { intros l n m I Ad Hm. assert (H : forall z, In z (addrs o l) -> 0 <= z < Z.of_nat n). { intros z Hz. apply in_map_iff in Hz as (ix & <- & Hi). apply in_enum in Hi. now apply I. }
          rewrite Ad in H. split; [apply (H (l_offset l)); apply in_map_iff; exists 0%nat; rewrite in_seq; lia|]. specialize (H (l_offset l + Z.of_nat (m - 1))). destruct H; [apply in_map_iff; exists (m - 1)%nat; rewrite in_seq; lia|lia]. }
        pose proof (Rc lc _ (size (l_shape lc)) Ic Ec) as R1. pose proof (Rc la _ (size (l_shape lc)) Ia Ea) as R2. unfold l_size. replace (_ && _) with true by (symmetry; rewrite !andb_true_iff; lia).
        rewrite <- (G _ _ (eq_sym Ec) (eq_sym Ea)). f_equal. unfold consecutive. replace (size (l_shape la)) with (size (l_shape lc) + (size (l_shape la) - size (l_shape lc)))%nat by lia. rewrite seq_app, map_app.
        rewrite <- (app_nil_r (map (fun i => l_offset lc + _) _)), combine_app by now rewrite !map_length. cbn [combine]. rewrite combine_map, app_nil_r, map_map. reflexivity.
    - assert (Z2 : forall xs ys, zip_all [xs; ys] = map (fun p => [fst p; snd p]) (combine xs ys)). { intros xs ys. rewrite zip_all_cons. cbn [zip_all]. rewrite <- (map_id xs) at 1. rewrite combine_map2, map_map. reflexivity. }
      assert (T : forall l, wf l -> nonneg l -> exists l', translate_unary RowMajor l (match o with RowMajor => OC | ColMajor => OF end) = Ok l' /\ dispatch_positions k l' = Ok (addrs o l)).
      { intros l W N. destruct o; cbn [translate_unary].
        - exists (reverse_axes l). split; auto. rewrite dispatch_ok; [now rewrite addrs_reverse|now apply reverse_wf|]. apply (addrs_nonneg ColMajor). rewrite addrs_reverse by auto. now apply addrs_nonneg.
        - exists l. split; auto. now apply dispatch_ok. }
      destruct (T lc Wc Nc) as (lc' & -> & D1). destruct (T la Wa Na) as (la' & -> & D2). cbn [bind]. unfold dispatch. cbn [map_res]. rewrite D1. cbn [bind]. rewrite D2. cbn [bind]. rewrite Z2. now apply G. }
  assert (F : map fst ps = enum o (l_shape lc)). { unfold ps. assert (L : (length (enum o (l_shape lc)) <= length (enum o (l_shape la)))%nat) by now rewrite !enum_length. revert L. generalize (enum o (l_shape lc)) (enum o (l_shape la)). induction l as [|x l IH]; intros [|y l'] L; cbn in *; auto; [lia|]. f_equal. apply IH. lia. }
  assert (Fa : map (fun p => addr lc (fst p)) ps = addrs o lc) by (unfold addrs; rewrite <- F, map_map; reflexivity).
  destruct (modify_fold (fun p => addr lc (fst p)) h ps c) as (c' & E' & L & H & U).
  - rewrite Fa. unfold addrs. apply NoDup_map_inj_in; [|apply enum_nodup]. intros i j Hi Hj. apply in_enum in Hi, Hj. now apply J.
  - intros p Hp. apply Ic. now apply V.
  - intros p x Hp. unfold h. destruct (elem_inside a la (snd p) Ia) as (y & Hy); [now apply V|]. unfold elem in Hy. apply zget_peek in Hy. rewrite Hy. cbn [bind]. eauto.
  - exists c'. rewrite E. split; auto. split.
    + split; auto. intros p Hp. apply U. rewrite Fa. intro X. apply in_map_iff in X as (ix & Ex & Hi). apply in_enum in Hi. now apply (Hp ix).
    + intros i j (r & Hi & Hj). pose proof (combine_nth_error _ _ _ _ _ Hi Hj) as Hp. fold ps in Hp. destruct (V _ Hp) as [Vi Vj]. cbn [fst snd] in Vi, Vj. destruct (elem_inside c lc i Ic Vi) as (x & Hx). destruct (H _ x Hp Hx) as (y & Hy & Hz). unfold h in Hy. cbn [snd fst] in *.
      destruct (elem_inside a la j Ia Vj) as (v & Hv). exists v. split; auto. unfold elem in Hv |- *. rewrite Hz. apply zget_peek in Hv. rewrite Hv in Hy. cbn [bind] in Hy. congruence. Qed.
Lemma same_rank_self o s i : valid s i -> same_rank o s s i i.
Proof. intro V. assert (H : In i (enum o s)) by now apply in_enum. apply In_nth_error in H as (k & H). exists k. auto. Qed.
Lemma same_rank_total o s s' i : size s = size s' -> valid s i -> exists j, same_rank o s s' i j /\ valid s' j.
Proof. intros S V. assert (H : In i (enum o s)) by now apply in_enum. apply In_nth_error in H as (k & H). assert (L : (k < length (enum o s'))%nat). { rewrite enum_length, <- S, <- (enum_length o). apply nth_error_Some. congruence. }
  apply nth_error_Some in L. destruct (nth_error (enum o s') k) as [j|] eqn:E; [|congruence]. exists j. split; [exists k; auto|]. apply nth_error_In in E. now apply in_enum in E. Qed.

(** fresh contiguous copy *)
Lemma arbitrary_fresh {A} k kl (a : tensor A) s (ord : order) hi : tensor_ok a -> size s = size (t_shape a) -> size s <> 0%nat \/ 0 <= l_offset (t_layout a) <= Z.of_nat (length (t_data a)) -> hi = Z.of_nat (size s) -> forall oo,
  exists d, (let* c := assign_arbitary k Some (uninit A hi) (new_contig kl s 0 ord) (t_data a) (t_layout a) oo in assume_init c) = Ok d /\ tensor_ok (mkTensor d (new_contig kl s 0 ord)) /\ length d = size s /\
   forall i j, same_rank oo s (t_shape a) i j -> elem d (new_contig kl s 0 ord) i = at_ a j.
Proof. intros Ha S Off -> oo. pose proof Ha as Ha'. apply tensor_ok_good in Ha' as [Ga Ia]. set (lc := new_contig kl s 0 ord). assert (Sh : l_shape lc = s) by (unfold lc; now destruct ord). assert (O : l_offset lc = 0) by (unfold lc; now destruct ord).
  assert (Gc : good lc) by (apply contig_good; lia). assert (P : Permutation (addrs RowMajor lc) (consecutive 0 (size s))) by apply contig_perm. assert (Cv : covers lc (size s)) by now apply perm_covers. assert (J : injective lc) by (now apply (perm_injective lc (size s))).
  assert (Ln : length (uninit A (Z.of_nat (size s))) = size s) by (rewrite uninit_length; lia).
  destruct (arbitrary_ok k Some (uninit A (Z.of_nat (size s))) lc (t_data a) (t_layout a) oo) as (c' & E & [U _] & H); auto; try (now apply good_wf); try (apply Ga); try (apply Gc).
  - rewrite Ln. now apply covers_inside.
  - rewrite Sh. unfold t_shape in S. lia.
  - rewrite O. unfold t_shape in S. rewrite Ln. destruct Off; [left; congruence|right; lia].
  - left. rewrite Sh. exact S.
  - rewrite E. cbn [bind]. destruct (fresh_result lc c' (fun ix v => forall j, same_rank oo s (t_shape a) ix j -> at_ a j = Some v)) as (d & E1 & E2 & Ld & Id & Hd); auto.
    + now rewrite U, Ln.
    + rewrite Sh. intros i V. destruct (same_rank_total oo s (t_shape a) i S V) as (j & R & _). rewrite Sh in H. destruct (H i j R) as (y & Hy & Hz). exists y. split; auto. intros j' R'. destruct (H i j' R') as (y' & Hy' & Hz'). unfold at_. rewrite Hy'. congruence.
    + exists d. split; auto. split; [now apply tensor_ok_good|]. split; [congruence|]. intros i j R. pose proof R as (r & Hi & _). apply nth_error_In, in_enum in Hi. rewrite <- Sh in Hi. destruct (Hd i Hi) as (v & -> & Hv). symmetry. auto. Qed.
Lemma same_rank_fun o s i j : same_rank o s s i j -> i = j.
Proof. intros (k & H1 & H2). congruence. Qed.
Lemma l_change_layout : forall (A : Type) k o (a : tensor A) l, tensor_ok a -> accepted l -> Permutation (addrs RowMajor l) (consecutive 0 (size (l_shape l))) -> l_offset l = 0 ->
  size (t_shape a) <> 0%nat \/ 0 <= l_offset (t_layout a) <= Z.of_nat (length (t_data a)) ->
  match change_layout k o a l with
  | Ok c => tensor_ok c /\ t_layout c = l /\ (length (t_data c) = size (l_shape l) \/ t_data c = t_data a) /\ forall i j, same_rank o (l_shape l) (t_shape a) i j -> at_ c i = at_ a j
  | Err _ => size (l_shape l) <> size (t_shape a)
  | Panic => False
  end.
Proof. intros A k o a l Ha Al P O Off. pose proof Ha as Ha'. apply tensor_ok_good in Ha' as [Ga Ia]. assert (Gl : good l) by now apply good_accepted. unfold change_layout, l_size.
  destruct (Nat.eqb_spec (size (l_shape (t_layout a))) (size (l_shape l))) as [S|S]; cbn [check bind]; [|unfold t_shape; congruence].
  destruct (layout_eqb (t_layout a) l) eqn:Eq.
  - apply layout_eqb_same_addr in Eq as [Es Ea]; auto using good_wf. split; [|split; [auto|split; [now right|]]].
    + apply tensor_ok_good. cbn [t_layout t_data]. split; auto. intros ix V. rewrite <- Ea by now rewrite Es. apply Ia. now rewrite Es.
    + unfold t_shape, at_, elem. cbn [t_layout t_data]. rewrite Es. intros i j R. pose proof R as (r & Hi & _). apply nth_error_In, in_enum in Hi. apply same_rank_fun in R. subst j. rewrite Ea; auto. now rewrite Es.
  - assert (Cv : covers l (size (l_shape l))) by now apply perm_covers. assert (J : injective l) by now apply (perm_injective l (size (l_shape l))). destruct (bounds_covers l _ (good_wf _ Gl) O Cv) as (b0 & ->). cbn [bind snd].
    assert (Ln : length (uninit A (Z.of_nat (size (l_shape l)))) = size (l_shape l)) by (rewrite uninit_length; lia).
    destruct (arbitrary_ok k Some (uninit A (Z.of_nat (size (l_shape l)))) l (t_data a) (t_layout a) o) as (c' & E & [U _] & H); auto; try (now apply good_wf); try (apply Ga); try (apply Gl).
    + rewrite Ln. now apply covers_inside.
    + lia.
    + rewrite O, Ln. unfold t_shape in Off. destruct Off; [now left|right; lia].
    + rewrite E. cbn [bind]. destruct (fresh_result l c' (fun ix v => forall j, same_rank o (l_shape l) (t_shape a) ix j -> at_ a j = Some v)) as (d & E1 & E2 & Ld & Id & Hd); auto.
      * now rewrite U, Ln.
      * intros i V. destruct (same_rank_total o (l_shape l) (t_shape a) i) as (j & R & _); auto. destruct (H i j R) as (y & Hy & Hz). exists y. split; auto. intros j' R'. destruct (H i j' R') as (y' & Hy' & Hz'). unfold at_. rewrite Hy'. congruence.
      * rewrite E1. cbn [bind]. split; [now apply tensor_ok_good|]. split; [auto|]. split; [left; cbn [t_data]; congruence|]. intros i j R. pose proof R as (r & Hi & _). apply nth_error_In, in_enum in Hi. unfold at_ at 1. cbn [t_data t_layout]. destruct (Hd i Hi) as (v & -> & Hv). symmetry. auto. Qed.
Lemma l_change_layout_gap_refuted : exists (a : tensor Z) l, tensor_ok a /\ accepted l /\ l_shape l = t_shape a /\ change_layout Fixed RowMajor a l = Panic.
Proof. exists (mkTensor [1; 2] (mkLayout [2]%nat [1] 0)), (mkLayout [2]%nat [2] 0). split; [split; [repeat split; cbn; lia|]|].
  - intros i V. apply valid_cons_inv in V as (k & r & -> & Hk & V). apply valid_nil in V. subst. unfold addr. cbn [l_offset l_stride dot t_layout t_data length]. lia.
  - split; [repeat split; cbn; lia|]. split; reflexivity. Qed.
Lemma l_change_contig : forall (A : Type) k o (a : tensor A) ord, tensor_ok a -> size (t_shape a) <> 0%nat \/ 0 <= l_offset (t_layout a) <= Z.of_nat (length (t_data a)) ->
  exists c, change_contig k o a ord = Ok c /\ tensor_ok c /\ t_shape c = t_shape a /\ addrs ord (t_layout c) = consecutive 0 (size (t_shape a)) /\
    (length (t_data c) = size (t_shape a) \/ t_data c = t_data a) /\ forall ix, valid (t_shape a) ix -> at_ c ix = at_ a ix.
Proof. intros A k o a ord Ha Off. unfold change_contig. set (l := new_contig k _ 0 ord). assert (Sh : l_shape l = t_shape a) by (unfold l; now destruct ord).
  assert (Gl : good l) by (apply contig_good; lia). pose proof (l_change_layout A k o a l Ha) as H. destruct (change_layout k o a l) as [c|e|]; cbv iota in H.
  - destruct H as (T & El & Ln & H); auto; [now apply good_accepted|rewrite Sh; apply contig_perm|unfold l; now destruct ord|]. exists c. split; auto. split; auto. split; [unfold t_shape; now rewrite El|]. split; [rewrite El; apply contig_addrs|]. split; [now rewrite Sh in Ln|].
    intros ix V. apply H. rewrite Sh. now apply same_rank_self.
  - exfalso. apply H; auto; [now apply good_accepted|rewrite Sh; apply contig_perm|unfold l; now destruct ord|now rewrite Sh].
  - exfalso. apply H; auto; [now apply good_accepted|rewrite Sh; apply contig_perm|unfold l; now destruct ord]. Qed.
Lemma l_change_contig_empty_refuted : exists (a : tensor Z), tensor_ok a /\ size (t_shape a) = 0%nat /\ change_contig Fixed RowMajor a RowMajor = Panic.
Proof. exists (mkTensor [1; 2; 3; 4; 5] (mkLayout [0]%nat [2] 6)). split; [split; [repeat split; cbn; lia|]|split; reflexivity]. intros ix V. exfalso. now apply valid_size_pos in V. Qed.
Lemma prefer_loop_ok p : forall last, 1 <= last -> prefer_loop p last = true ->
  StronglySorted Z.le (last :: map fst (filter (fun p => negb (snd p =? 1)%nat) p)).
Proof. induction p as [|[s d] p IH]; intros last H E; cbn in *; [repeat constructor|]. destruct (d =? 1)%nat eqn:D; cbn in *.
  - destruct (Z.eqb_spec last 0); [lia|]. auto.
  - destruct (Z.ltb_spec s last); [discriminate|]. replace (last =? 0) with false in E by lia. cbn in E. assert (1 <= s) by lia. specialize (IH s ltac:(lia) E).
    constructor; auto. inversion IH as [|? ? Q1 Q2]; subst. constructor; auto. eapply Forall_impl; [|exact Q2]. cbn. lia. Qed.
Lemma prefer_ordered p : prefer_loop p 0 = true ->
  StronglySorted Z.le (map fst (filter (fun p => negb (snd p =? 1)%nat) p)) /\ Forall (fun t => 1 <= t) (map fst (filter (fun p => negb (snd p =? 1)%nat) p)) /\
  match p with (t, d) :: _ => d <> 1%nat -> t = 1 | [] => True end.
Proof. destruct p as [|[s d] p]; cbn; [repeat constructor|]. destruct (d =? 1)%nat eqn:D; cbn; intro E.
  - apply prefer_loop_ok in E; [|lia]. inversion E; subst. repeat split; auto. lia.
  - destruct (s <? 0) eqn:?; [discriminate|]. destruct (Z.eqb_spec s 1) as [->|]; [|discriminate]. cbn in E. apply prefer_loop_ok in E; [|lia].
    inversion E; subst. repeat split; auto. constructor; [lia|auto]. Qed.
Lemma prefer_cum g s : (forall d, (d <> 0)%nat -> g d = d) -> size s <> 0%nat -> forall acc last, 1 <= acc -> last <= acc -> (last = 0 -> acc = 1) -> 0 <= last ->
  prefer_loop (combine (cum_strides g s acc) s) last = true.
Proof. intros G. induction s as [|d s IH]; intros S acc last A L Z0 P; [reflexivity|]. rewrite size_cons in S. cbn [cum_strides combine prefer_loop].
  destruct (Nat.eqb_spec d 1) as [->|D]; cbn [negb].
  - rewrite (G 1%nat) by lia. rewrite Z.mul_1_r. destruct (Z.eqb_spec last 0); apply IH; lia.
  - replace (acc <? last) with false by lia. assert (d <> 0)%nat by lia. rewrite (G d) by auto. destruct (Z.eqb_spec last 0) as [->|]; cbn.
    + rewrite (Z0 eq_refl), Z.mul_1_l. change (negb (1 =? 1)) with false. cbv iota. assert (size s <> 0)%nat by (intro Q; rewrite Q in S; lia). apply IH; lia.
    + assert (size s <> 0)%nat by (intro Q; rewrite Q in S; lia). apply IH; try lia; nia. Qed.
Lemma contig_ordered k s off o : size s <> 0%nat -> ordered o (new_contig k s off o).
Proof. intro S. unfold ordered. destruct o; cbn [new_contig new_c_contig new_f_contig l_stride l_shape]; apply prefer_ordered.
  - replace (rev (combine (stride_c_contig k s) s)) with (combine (stride_f_contig k (rev s)) (rev s)).
    + destruct k; apply prefer_cum; try lia; try (intro; unfold max1; lia); now rewrite size_rev.
    + rewrite <- combine_rev by (destruct k; unfold stride_c_contig, stride_c_fixed, stride_c_dyn; rewrite rev_length, cum_strides_length; apply rev_length). f_equal. destruct k; cbn [stride_c_contig stride_f_contig]; unfold stride_c_fixed, stride_c_dyn, stride_f_fixed, stride_f_dyn; now rewrite rev_involutive.
  - destruct k; apply prefer_cum; try lia; auto; intro; unfold max1; lia. Qed.
Lemma change_layout_layout {A} k o (a : tensor A) l c : change_layout k o a l = Ok c -> t_layout c = l.
Proof. unfold change_layout. destruct (check _ _); [|discriminate..]. cbn [bind]. destruct (layout_eqb (t_layout a) l); [now intros [= <-]|].
  destruct (bounds_index l); [|discriminate..]. cbn [bind]. destruct (assign_arbitary _ _ _ _ _ _ _); [|discriminate..]. cbn [bind]. destruct (assume_init _); [|discriminate..]. now intros [= <-]. Qed.
Lemma l_change_prefer : forall (A : Type) k o (a : tensor A) ord, tensor_ok a -> size (t_shape a) <> 0%nat \/ 0 <= l_offset (t_layout a) <= Z.of_nat (length (t_data a)) ->
  exists c, change_prefer k o a ord = Ok c /\ tensor_ok c /\ t_shape c = t_shape a /\ (size (t_shape a) <> 0%nat -> ordered ord (t_layout c)) /\
    forall ix, valid (t_shape a) ix -> at_ c ix = at_ a ix.
Proof. intros A k o a ord Ha Off. unfold change_prefer. destruct (match ord with RowMajor => _ | ColMajor => _ end) eqn:E0.
  - exists a. split; [auto|]. split; [auto|]. split; [auto|]. split; [|auto]. intro S. unfold t_shape in S.
    assert (E1 : (l_size (t_layout a) =? 0)%nat = false) by (unfold l_size; lia).
    assert (X : ndim (t_layout a) = 0%nat -> ordered ord (t_layout a)).
    { intro N. unfold ndim in N. apply length_zero_iff_nil in N. unfold ordered. rewrite N, combine_nil. destruct ord; cbn; repeat constructor. }
    destruct ord; revert E0; unfold c_prefer, f_prefer; rewrite E1, orb_false_r; (destruct (Nat.eqb_spec (ndim (t_layout a)) 0) as [N|N]; [intros _; now apply X|intro E0; now apply prefer_ordered in E0]).
  - destruct (l_change_contig A k o a ord Ha Off) as (c & E & T & S & C & _ & H). exists c. split; [auto|]. split; [auto|]. split; [auto|]. split; [|auto].
    intro Z0. apply change_layout_layout in E. rewrite E. now apply contig_ordered. Qed.
Lemma fold_no_err {S I} (f : S -> I -> res S) l : (forall s i e, f s i <> Err e) -> forall s e, fold_res f l s <> Err e.
Proof. intro H. induction l as [|i l IH]; intros s e; cbn [fold_res]; [discriminate|]. destruct (f s i) eqn:E; cbn [bind]; [apply IH|now apply H in E|discriminate]. Qed.
Lemma zget_no_err {T} (l : list T) p e : zget l p <> Err e.
Proof. unfold zget. destruct (_ <? _); [discriminate|]. unfold vget. destruct (nth_error _ _); discriminate. Qed.
Lemma zset_no_err {T} (l : list T) p v e : zset l p v <> Err e.
Proof. unfold zset. destruct (_ <? _); [discriminate|]. unfold vset. destruct (_ <? _)%nat; discriminate. Qed.
Lemma cell2_no_err {A C} (a : list A) (f : C -> A -> C) s p e : cell2 a f s p <> Err e.
Proof. unfold cell2. destruct p as [|p [|q [|]]]; try discriminate. destruct (zget s p) eqn:E1; cbn [bind]; [|now apply zget_no_err in E1|discriminate]. destruct (zget a q) eqn:E2; cbn [bind]; [|now apply zget_no_err in E2|discriminate]. apply zset_no_err. Qed.
Lemma dispatch_order k o l : wf l -> nonneg l -> exists l', translate_unary RowMajor l (match o with RowMajor => OC | ColMajor => OF end) = Ok l' /\ dispatch_positions k l' = Ok (addrs o l).
Proof. intros W N. destruct o; cbn [translate_unary].
  - exists (reverse_axes l). split; auto. rewrite dispatch_ok; [now rewrite addrs_reverse|now apply reverse_wf|]. apply (addrs_nonneg ColMajor). rewrite addrs_reverse by auto. now apply addrs_nonneg.
  - exists l. split; auto. now apply dispatch_ok. Qed.
Lemma arbitrary_no_err {C A} k (cast : A -> C) c lc a la o e : wf lc -> nonneg lc -> wf la -> nonneg la -> assign_arbitary k cast c lc a la o <> Err e.
Proof. intros Wc Nc Wa Na. unfold assign_arbitary. destruct (match o with RowMajor => c_contig lc && c_contig la | ColMajor => _ end).
  - destruct (_ && _); [|discriminate]. apply fold_no_err. intros. apply cell2_no_err.
  - destruct (dispatch_order k o lc Wc Nc) as (lc' & -> & D1). destruct (dispatch_order k o la Wa Na) as (la' & -> & D2). cbn [bind]. unfold dispatch. cbn [map_res]. rewrite D1. cbn [bind]. rewrite D2. cbn [bind]. apply fold_no_err. intros. apply cell2_no_err. Qed.
Lemma reshape_none_nonempty o l s : layout_reshapeable l s o = Ok None -> size (l_shape l) <> 0%nat.
Proof. intros E Z0. unfold layout_reshapeable, quick_check in E. unfold l_size in E. destruct (check _ _); cbn [bind] in E; try discriminate. rewrite Z0 in E. cbn [Nat.eqb orb] in E. destruct (layout_new _ _ _); discriminate. Qed.
Lemma l_change_shape : forall (A : Type) k (a : tensor A) shape ord copy, tensor_ok a -> ~ (In (-1) shape /\ In 0 shape) ->
  (copy = Some true -> size (t_shape a) <> 0%nat \/ 0 <= l_offset (t_layout a) <= Z.of_nat (length (t_data a))) ->
  match change_shape k a shape ord copy with
  | Ok c => fills shape (t_shape c) /\ (copy <> Some true -> size (t_shape c) = size (t_shape a)) /\
      (size (t_shape c) = size (t_shape a) -> tensor_ok c /\ forall i j, same_rank ord (t_shape c) (t_shape a) i j -> at_ c i = at_ a j)
  | Err _ => copy = Some false \/ (exists v, In v shape /\ v < -1) \/ (2 <= count_occ Z.eq_dec shape (-1)%Z)%nat \/ (forall s, fills shape s -> size s <> size (t_shape a))
  | Panic => copy = Some true /\ exists s, fills shape s /\ size s <> size (t_shape a)
  end.
Proof. intros A k a shape ord copy Ha Nz Off. pose proof Ha as Ha'. apply tensor_ok_good in Ha' as [Ga Ia]. unfold change_shape. change (l_size (t_layout a)) with (size (t_shape a)).
  pose proof (l_reshape_total ord (t_layout a) shape (good_wf _ Ga) Nz) as Tot. unfold reshapeable_without_copy in Tot. fold (t_shape a) in Tot.
  pose proof (l_substitute shape (size (t_shape a)) Nz) as Sub. destruct (reshape_substitute_negatives shape (size (t_shape a))) as [s|e|]; cbn [bind] in *; [|auto|contradiction]. destruct Sub as [F _].
  set (cp := let l := new_contig Dyn s 0 ord in let* c := assign_arbitary k Some (uninit A (Z.of_nat (l_size l))) l (t_data a) (t_layout a) ord in let* c := assume_init c in Ok (mkTensor c l)).
  assert (Sl : l_shape (new_contig Dyn s 0 ord) = s) by now destruct ord.
  assert (Cp : size s = size (t_shape a) -> size (t_shape a) <> 0%nat \/ 0 <= l_offset (t_layout a) <= Z.of_nat (length (t_data a)) -> exists c, cp = Ok c /\ t_shape c = s /\ tensor_ok c /\ forall i j, same_rank ord (t_shape c) (t_shape a) i j -> at_ c i = at_ a j).
  { intros S Of'. destruct (arbitrary_fresh k Dyn a s ord (Z.of_nat (size s)) Ha S) with (oo := ord) as (d & E & T & _ & H); auto; [rewrite S; auto|]. exists (mkTensor d (new_contig Dyn s 0 ord)). unfold t_shape, at_ at 1. cbn [t_layout t_data]. rewrite Sl. split; [|split; auto].
    unfold cp. cbv zeta. unfold l_size. rewrite Sl. apply bind_ok in E as (c & -> & E). cbn [bind]. rewrite E. reflexivity. }
  assert (Sh : forall c, cp = Ok c -> t_shape c = s). { intros c E. unfold cp in E. cbv zeta in E. apply bind_ok in E as (x & _ & E). apply bind_ok in E as (y & _ & E). injection E as <-. exact Sl. }
  assert (View : forall l, layout_reshapeable (t_layout a) s ord = Ok (Some l) -> let c := mkTensor (t_data a) l in fills shape (t_shape c) /\ size (t_shape c) = size (t_shape a) /\
      tensor_ok c /\ forall i j, same_rank ord (t_shape c) (t_shape a) i j -> at_ c i = at_ a j).
  { intros l El. destruct (l_reshape_order ord (t_layout a) s l (good_wf _ Ga) El) as (S1 & _ & Ad). cbv zeta. unfold t_shape, at_, elem. cbn [t_layout t_data]. rewrite S1. split; auto. split; [apply (l_reshape_same_size ord _ s (good_wf _ Ga)); now rewrite El|].
    split; [apply tensor_ok_good; split; [now apply (reshape_good ord (t_layout a) s l)|now apply (l_reshape_inside ord (t_layout a) s l _ (good_wf _ Ga) El)]|]. intros i j (r & Hi & Hj). f_equal. unfold addrs in Ad. rewrite S1 in Ad. apply (map_nth_error (addr l)) in Hi. apply (map_nth_error (addr (t_layout a))) in Hj. rewrite Ad in Hi. congruence. }
  destruct copy as [[|]|]; cbv iota zeta; cbn [bind check].
  - fold cp. destruct (Nat.eq_dec (size s) (size (t_shape a))) as [S|S].
    + destruct (Cp S (Off eq_refl)) as (c & -> & Sc & I & H). rewrite Sc in *. auto 6.
    + assert (NE : forall e, cp <> Err e). { intros e. unfold cp. cbv zeta. set (lc := new_contig Dyn s 0 ord). assert (Gc : good lc) by (apply contig_good; lia).
        destruct (assign_arbitary _ _ _ _ _ _ _) as [x|e'|] eqn:E; cbn [bind]; [|intros _; revert E; apply arbitrary_no_err; try apply Ga; try apply Gc; now apply good_wf|discriminate]. destruct (assume_init x) as [y|e'|] eqn:Ey; cbn [bind]; try discriminate. intros _. revert Ey. clear. unfold assume_init. revert e'. induction x as [|[v|] x IH]; cbn [map_res]; intro e'; try discriminate. cbn [bind]. destruct (map_res _ x) as [z|e2|]; cbn [bind]; try discriminate. intros _. now apply (IH e2). }
      destruct cp as [c|e|]; [|now destruct (NE e)|split; auto; eauto]. rewrite (Sh c eq_refl). split; auto. split; [congruence|tauto].
  - destruct (layout_reshapeable (t_layout a) s ord) as [[l|]|e|] eqn:El; cbn [bind check] in *; auto; [|contradiction]. destruct (View l eq_refl) as (V1 & V2 & V3). auto.
  - pose proof (l_reshape_same_size ord (t_layout a) s (good_wf _ Ga)) as [[SS _] _]. destruct (layout_reshapeable (t_layout a) s ord) as [[l|]|e|] eqn:El; cbn [bind check] in *; auto; [| |contradiction].
    + destruct (View l eq_refl) as (V1 & V2 & V3). auto.
    + fold cp. destruct Cp as (c & -> & Sc & I & H); [now apply SS|left; now apply (reshape_none_nonempty ord (t_layout a) s)|]. rewrite Sc in *. auto 6. Qed.
Lemma l_change_shape_truncates_refuted : exists (a c : tensor Z) shape, tensor_ok a /\ change_shape Fixed a shape RowMajor (Some true) = Ok c /\ (forall s, fills shape s -> size s <> size (t_shape a)).
Proof. exists (mkTensor [1; 2; 3; 4] (mkLayout [2; 2]%nat [1; 2] 0)), (mkTensor [1; 3] (mkLayout [2]%nat [1] 0)), [2]. split; [split; [repeat split; cbn; lia|]|].
  - intros i V. apply valid_cons_inv in V as (k & r & -> & Hk & V). apply valid_cons_inv in V as (k' & r' & -> & Hk' & V). apply valid_nil in V. subst. unfold addr. cbn [l_offset l_stride dot t_layout t_data length]. lia.
  - split; [reflexivity|]. intros s F. inversion F as [|? d ? t A1 A2]; subst. inversion A2; subst. cbn. lia. Qed.
Lemma l_reshape_accepted : forall o l shape l', accepted l -> layout_reshapeable l shape o = Ok (Some l') -> accepted l'.
Proof. intros o l shape l' A H. apply good_accepted. apply good_accepted in A. now apply (reshape_good o l shape). Qed.
