(** Sums over storage positions, in any order and grouping. *)
From Verif Require Import Base Spec P_Index P_List M_Layout P_Layout P_Bounds P_Contig P_Strides M_Indexer P_Indexer M_Broadcast M_Rearr M_Iter P_Iter P_Rearr P_BinOp Q_Rearr M_Kernel P_Kernel M_Tensor M_Reduce.
Local Open Scope Z_scope.

(** values at storage positions *)
Definition vals {T} (a : list T) (ps : list Z) : list T := flat_map (fun p => match peek a p with Some x => [x] | None => [] end) ps.
Definition within {T} (a : list T) (ps : list Z) : Prop := Forall (fun p => 0 <= p < Z.of_nat (length a)) ps.
Lemma vals_app {T} (a : list T) p q : vals a (p ++ q) = vals a p ++ vals a q.
Proof. apply flat_map_app. Qed.
Lemma vals_perm {T} (a : list T) p q : Permutation p q -> Permutation (vals a p) (vals a q).
Proof. intro H. unfold vals. induction H; cbn; auto.
  - now apply Permutation_app_head.
  - rewrite !app_assoc. apply Permutation_app_tail, Permutation_app_comm.
  - etransitivity; eauto. Qed.
Lemma vals_elements {T} (a : list T) l ixs : (forall ix, In ix ixs -> valid (l_shape l) ix) -> inside l (length a) -> elements a l ixs (vals a (map (addr l) ixs)).
Proof. intros V I. unfold elements, vals. induction ixs as [|ix r IH]; cbn; [constructor|].
  destruct (elem_inside a l ix I) as (x & E); [apply V; now left|]. unfold elem in E. rewrite E. cbn. constructor; auto. apply IH. intros; apply V; now right. Qed.
Lemma elements_unique {T} (a : list T) l ixs xs ys : elements a l ixs xs -> elements a l ixs ys -> xs = ys.
Proof. unfold elements. intro F. revert ys. induction F; intros ys G; inversion G; subst; auto. f_equal; auto. congruence. Qed.
Lemma within_perm {T} (a : list T) p q : Permutation p q -> within a p -> within a q.
Proof. unfold within. intros P H. rewrite Forall_forall in *. intros x Hx. apply H. eapply Permutation_in; [symmetry|]; eauto. Qed.
Lemma inside_within {T} (a : list T) o l : inside l (length a) -> within a (addrs o l).
Proof. intro I. apply Forall_forall. intros p Hp. apply in_map_iff in Hp as (ix & <- & Hx). apply in_enum in Hx. now apply I. Qed.
Lemma consecutive_S p n : consecutive p (S n) = p :: consecutive (p + 1) n.
Proof. unfold consecutive. cbn [seq map]. f_equal; [lia|]. rewrite <- seq_shift, map_map. apply map_ext. intro; lia. Qed.
Lemma vals_consecutive {T} (a : list T) n : forall p, 0 <= p -> p + Z.of_nat n <= Z.of_nat (length a) -> vals a (consecutive p n) = firstn n (skipn (Z.to_nat p) a).
Proof. induction n as [|n IH]; intros p H1 H2; [reflexivity|]. rewrite consecutive_S. cbn [vals flat_map]. change (flat_map _ (consecutive (p + 1) n)) with (vals a (consecutive (p + 1) n)).
  rewrite IH by lia. destruct (proj1 (peek_inside a p)) as (x & E); [lia|]. rewrite E. unfold peek in E. replace (p <? 0) with false in E by lia.
  assert (X : skipn (Z.to_nat p) a = x :: skipn (Z.to_nat (p + 1)) a).
  { replace (Z.to_nat (p + 1)) with (S (Z.to_nat p)) by lia. clear -E. revert E. generalize (Z.to_nat p). induction a as [|y a IH]; intros [|m] E; cbn in *; try discriminate; [now injection E as ->|]. now apply IH. }
  rewrite X. reflexivity. Qed.
Lemma slice_get_ok {T} (a : list T) p n : 0 <= p -> p + Z.of_nat n <= Z.of_nat (length a) -> slice_get a p n = Ok (vals a (consecutive p n)).
Proof. intros H1 H2. rewrite vals_consecutive by auto. unfold slice_get. replace (0 <=? p) with true by lia. replace (p + Z.of_nat n <=? Z.of_nat (length a)) with true by lia. reflexivity. Qed.
Lemma within_consecutive {T} (a : list T) p n : n <> 0%nat -> within a (consecutive p n) -> 0 <= p /\ p + Z.of_nat n <= Z.of_nat (length a).
Proof. unfold within. rewrite Forall_forall. intros Hn H. pose proof (H p) as H1. pose proof (H (p + Z.of_nat (n - 1))) as H2. rewrite in_consecutive in H1, H2. lia. Qed.
Lemma vals_length {T} (a : list T) ps : within a ps -> length (vals a ps) = length ps.
Proof. induction 1 as [|p ps H F IH]; cbn; auto. apply peek_inside in H as (x & E). rewrite E. cbn. now f_equal. Qed.

Lemma consecutive_app p m n : consecutive p (m + n) = consecutive p m ++ consecutive (p + Z.of_nat m) n.
Proof. unfold consecutive. rewrite seq_app, map_app. f_equal. cbn [Nat.add]. rewrite <- (Nat.add_0_r m) at 1. generalize 0%nat. induction n as [|n IH]; intro k; cbn [seq map]; auto. f_equal; [lia|]. rewrite plus_n_Sm. apply IH. Qed.
Lemma chunks_upto c n p m : flat_map (fun q => consecutive (p + Z.of_nat (fst q)) (snd q)) (map (fun i => (i * c, Nat.min c (n - i * c))%nat) (seq 0 m)) = consecutive p (Nat.min n (m * c)).
Proof. induction m as [|m IH]; [cbn [Nat.mul]; now rewrite Nat.min_0_r|]. rewrite seq_S, map_app, flat_map_app, IH. cbn [Nat.add map flat_map fst snd]. rewrite app_nil_r.
  destruct (Nat.le_gt_cases n (m * c)) as [L|L].
  - replace (n - m * c)%nat with 0%nat by lia. rewrite Nat.min_0_r. cbn [consecutive seq map]. rewrite app_nil_r. f_equal. lia.
  - rewrite (Nat.min_r n (m * c)) by lia. rewrite <- consecutive_app. f_equal. lia. Qed.
Lemma chunks_count c n : c <> 0%nat -> (n <= (n + c - 1) / c * c)%nat /\ ((n + c - 1) / c * c < n + c)%nat.
Proof. intro H. pose proof (Nat.div_mod (n + c - 1) c H) as D. pose proof (Nat.mod_upper_bound (n + c - 1) c H) as B. rewrite (Nat.mul_comm _ c). set (x := (c * ((n + c - 1) / c))%nat) in *. clearbody x. lia. Qed.
Lemma chunks_cover c n p : c <> 0%nat -> flat_map (fun q => consecutive (p + Z.of_nat (fst q)) (snd q)) (chunks c n) = consecutive p n.
Proof. intro H. unfold chunks. rewrite chunks_upto. destruct (chunks_count c n H). f_equal. lia. Qed.
Lemma chunks_pos c n q : c <> 0%nat -> In q (chunks c n) -> snd q <> 0%nat.
Proof. intros H Hq. unfold chunks in Hq. apply in_map_iff in Hq as (i & <- & Hi). apply in_seq in Hi. destruct (chunks_count c n H) as [_ B]. cbn [snd].
  set (m := ((n + c - 1) / c)%nat) in *. clearbody m. assert (i * c + c <= m * c)%nat by (replace (i * c + c)%nat with (S i * c)%nat by lia; apply Nat.mul_le_mono_r; lia). lia. Qed.
(** with_contig on a single layout *)
Lemma contig_one l contig n : wf l -> nonneg l -> with_contig [l] = (contig, n) -> n <> 0%nat ->
  exists lc, contig = [lc] /\ wf lc /\ nonneg lc /\ (size (l_shape l) <> 0%nat -> size (l_shape lc) <> 0%nat) /\ addrs ColMajor l = flat_map (fun p => consecutive p n) (addrs ColMajor lc).
Proof. intros W N C Hn. pose proof W as [W1 W2]. pose proof (l_contig Dyn [l] contig n (l_shape l) (Forall_cons _ (conj W N) (Forall_nil _)) (Forall_cons _ eq_refl (Forall_nil _)) C Hn) as Q.
  inversion Q as [|? lc ? r (ps & E1 & E2) Q']; subst. inversion Q'; subst. exists lc. split; auto. rewrite dispatch_ok in E2 by auto. injection E2 as E2.
  cbn [with_contig fold_left] in C. cbv zeta in C. destruct (ndim_of_f_contig l =? 0)%nat; [congruence|]. injection C as <- <-. set (m := ndim_of_f_contig l) in *.
  assert (Wl : size (l_shape l) <> 0%nat -> size (skipn m (l_shape l)) <> 0%nat). { intros S0 Z0. apply S0. rewrite <- (firstn_skipn m (l_shape l)), size_app, Z0. lia. }
  assert (Wc : wf (mkLayout (skipn m (l_shape l)) (skipn m (l_stride l)) (l_offset l))).
  { split; cbn; [rewrite !skipn_length; lia|]. intros S0. apply W2. rewrite <- (firstn_skipn m (l_shape l)), size_app. apply Nat.neq_mul_0. auto. }
  assert (Nc : nonneg (mkLayout (skipn m (l_shape l)) (skipn m (l_stride l)) (l_offset l))).
  { intros ix V. cbn [l_shape] in V. assert (V' : valid (l_shape l) (repeat 0%nat (length (firstn m (l_shape l))) ++ ix)).
    { rewrite <- (firstn_skipn m (l_shape l)) at 1. apply valid_app; [now rewrite repeat_length|]. split; auto. now apply valid_zeros. }
    specialize (N _ V'). unfold addr in *. cbn [l_offset l_stride]. rewrite <- (firstn_skipn m (l_stride l)), dot_app in N; [rewrite dot_zeros in N; lia|]. rewrite repeat_length, !firstn_length. lia. }
  split; auto. split; auto. split; auto. rewrite dispatch_ok in E1 by auto. injection E1 as <-. exact E2. Qed.

(** ** commutative monoids *)
Section Monoid.
  Context {T S O : Type} (e : S) (op : S -> S -> S) (M : comm_monoid e op) (h : T -> S) (f : S -> T -> S) (F : forall s x, f s x = op s (h x)) (fout : S -> O).
  Lemma m_assoc a b c : op a (op b c) = op (op a b) c. Proof. apply M. Qed.
  Lemma m_comm a b : op a b = op b a. Proof. apply M. Qed.
  Lemma m_id a : op e a = a. Proof. apply M. Qed.
  Lemma m_id_r a : op a e = a. Proof. rewrite m_comm. apply m_id. Qed.
  Lemma total_app xs ys : total e op (xs ++ ys) = op (total e op xs) (total e op ys).
  Proof. unfold total. induction xs as [|x xs IH]; cbn; [now rewrite m_id|]. now rewrite IH, m_assoc. Qed.
  Lemma total_perm xs ys : Permutation xs ys -> total e op xs = total e op ys.
  Proof. unfold total. induction 1; cbn; auto; [congruence| |congruence]. now rewrite !m_assoc, (m_comm y). Qed.
  Lemma fold_left_f xs : forall s, fold_left f xs s = op s (total e op (map h xs)).
  Proof. induction xs as [|x xs IH]; intro s; cbn; [now rewrite m_id_r|]. rewrite IH, F. now rewrite <- m_assoc. Qed.
  Lemma total_zip ps : forall qs l, length ps = length qs -> total e op (map (fun p => op (fst p) (snd p)) (combine ps qs) ++ l) = total e op (ps ++ qs ++ l).
  Proof. induction ps as [|p ps IH]; intros [|q qs] l H; cbn in H; try discriminate; [reflexivity|]. injection H as H. cbn [combine map app fst snd]. change (op (op p q) (total e op (map (fun p => op (fst p) (snd p)) (combine ps qs) ++ l)) = op p (total e op (ps ++ q :: qs ++ l))).
    rewrite (IH qs l H). rewrite (total_perm (ps ++ q :: qs ++ l) (q :: ps ++ qs ++ l)); [|symmetry; apply Permutation_middle]. cbn. now rewrite m_assoc. Qed.
  Lemma unrolled_loop_ok n : forall xs p0 p1 p2 p3 p4 p5 p6 p7, (length xs <= n)%nat ->
    exists q0 q1 q2 q3 q4 q5 q6 q7 r, unrolled_loop f xs p0 p1 p2 p3 p4 p5 p6 p7 = (q0, q1, q2, q3, q4, q5, q6, q7, r) /\ (length r <= 7)%nat /\
      total e op ([q0; q1; q2; q3; q4; q5; q6; q7] ++ map h r) = total e op ([p0; p1; p2; p3; p4; p5; p6; p7] ++ map h xs).
  Proof. induction n as [|n IH]; intros xs p0 p1 p2 p3 p4 p5 p6 p7 H.
    { destruct xs; [|cbn in H; lia]. do 9 eexists. split; [reflexivity|]. split; [cbn; lia|reflexivity]. }
    do 8 (destruct xs as [|? xs]; [do 9 eexists; split; [reflexivity|]; split; [cbn; lia|reflexivity]|]).
    cbn [unrolled_loop]. edestruct IH as (q0 & q1 & q2 & q3 & q4 & q5 & q6 & q7 & r & E & L & Q); [|rewrite E; do 9 eexists; split; [reflexivity|]; split; [exact L|]]; [cbn in H; lia|].
    rewrite Q, !F. cbn [map]. exact (total_zip [p0; p1; p2; p3; p4; p5; p6; p7] [h t; h t0; h t1; h t2; h t3; h t4; h t5; h t6] (map h xs) eq_refl). Qed.
  Lemma unrolled_ok xs : unrolled_reduce e f op xs = total e op (map h xs).
  Proof. unfold unrolled_reduce. destruct (unrolled_loop_ok (length xs) xs e e e e e e e e (le_n _)) as (q0 & q1 & q2 & q3 & q4 & q5 & q6 & q7 & r & E & L & Q). rewrite E.
    rewrite firstn_all2 by auto. rewrite fold_left_f. rewrite !total_app in Q.
    assert (E8 : total e op [e; e; e; e; e; e; e; e] = e) by (cbn; now rewrite !m_id). rewrite E8, m_id in Q. rewrite <- Q. f_equal.
    cbn [total fold_right]. rewrite !m_id, m_id_r. rewrite <- !m_assoc.
    assert (P : Permutation [0;4;1;5;2;6;3;7]%nat [0;1;2;3;4;5;6;7]%nat).
    { apply NoDup_Permutation; [repeat constructor; cbn; lia|repeat constructor; cbn; lia|]. intro x; cbn; tauto. }
    apply (Permutation_map (fun i => nth i [q0; q1; q2; q3; q4; q5; q6; q7] e)) in P. cbn [map nth] in P. apply total_perm in P. cbn in P. rewrite !m_id_r in P. exact P. Qed.

  (** sums over positions *)
  Definition sum_at (a : list T) (ps : list Z) : S := total e op (map h (vals a ps)).
  Lemma sum_at_perm a p q : Permutation p q -> sum_at a p = sum_at a q.
  Proof. intro H. apply total_perm, Permutation_map, vals_perm, H. Qed.
  Lemma sum_at_app a p q : sum_at a (p ++ q) = op (sum_at a p) (sum_at a q).
  Proof. unfold sum_at. rewrite vals_app, map_app. apply total_app. Qed.
  Lemma fold_add_at a ps : within a ps -> forall s, fold_res (add_at f a) ps s = Ok (op s (sum_at a ps)).
  Proof. induction 1 as [|p ps H W IH]; intro s; cbn [fold_res]; [unfold sum_at; cbn; now rewrite m_id_r|].
    apply peek_inside in H as (x & E). unfold add_at at 1. pose proof (proj2 (zget_peek a p x) E) as G. rewrite G. cbn [bind]. rewrite IH, F, <- m_assoc. do 2 f_equal.
    unfold sum_at. cbn [vals flat_map]. rewrite E. reflexivity. Qed.
  Lemma fold_add_slice a n ps : n <> 0%nat -> within a (flat_map (fun p => consecutive p n) ps) -> forall s, fold_res (add_slice e f op a n) ps s = Ok (op s (sum_at a (flat_map (fun p => consecutive p n) ps))).
  Proof. intro Hn. induction ps as [|p ps IH]; intros W s; cbn [fold_res]; [unfold sum_at; cbn; now rewrite m_id_r|].
    cbn [flat_map] in W. apply Forall_app in W as [W1 W2]. destruct (within_consecutive a p n Hn W1) as [B1 B2]. unfold add_slice at 1. rewrite slice_get_ok by auto. cbn [bind].
    rewrite IH by auto. rewrite unrolled_ok. cbn [flat_map]. rewrite sum_at_app, m_assoc. reflexivity. Qed.
  Lemma reduce_all_ok k a la : good la -> inside la (length a) -> reduce_all e f op fout k a la = Ok (fout (sum_at a (addrs RowMajor la))).
  Proof. intros G I. unfold reduce_all. destruct (greedy_keep_ok la G) as (l & ax & g & E & P & R & W & N & Sh). unfold translate_unary. rewrite E. cbn [bind fst].
    assert (Pm : Permutation (addrs ColMajor l) (addrs RowMajor la)) by (eapply renames_perm; eauto).
    assert (Wi : within a (addrs ColMajor l)) by (eapply within_perm; [symmetry; exact Pm|now apply inside_within]).
    destruct (with_contig [l]) as [contig n] eqn:C. destruct (reduce_switch <=? n)%nat eqn:Sw.
    - assert (Hn : n <> 0%nat). { apply Nat.leb_le in Sw. unfold reduce_switch in Sw. lia. }
      pose proof (l_contig k [l] contig n (l_shape l) (Forall_cons _ (conj W N) (Forall_nil _)) (Forall_cons _ eq_refl (Forall_nil _)) C Hn) as Q. inversion Q as [|? l' ? r (ps & E1 & E2) Q']; subst. inversion Q'; subst.
      rewrite dispatch_ok in E2 by auto. injection E2 as E2. unfold dispatch. cbn [map_res]. rewrite E1. cbn [bind zip_all]. rewrite fold_res_map, fold_add_slice; auto; [|now rewrite <- E2]. cbn [bind]. rewrite m_id, <- E2. do 2 f_equal. now apply sum_at_perm.
    - unfold positions_col. rewrite dispatch_ok by auto. cbn [bind]. rewrite fold_add_at by auto. cbn [bind]. rewrite m_id. do 2 f_equal. now apply sum_at_perm. Qed.

  (** ** steps that add a weight, folded in any grouping *)
  Definition adds {X} (g : S -> X -> res S) (w : X -> S) (ps : list X) : Prop := forall p s, In p ps -> g s p = Ok (op s (w p)).
  Lemma adds_fold {X} (g : S -> X -> res S) w ps : adds g w ps -> forall s, fold_res g ps s = Ok (op s (total e op (map w ps))).
  Proof. induction ps as [|p ps IH]; intros A s; cbn [fold_res map]; [cbn; now rewrite m_id_r|]. rewrite (A p s) by now left. cbn [bind]. rewrite IH; [|intros q s' Hq; apply A; now right].
    cbn [total fold_right]. now rewrite <- m_assoc. Qed.
  Lemma par_reduce_ok k (g : S -> Z -> res S) w t : forall it, inv (il_order it) (il_iter it) -> size (l_shape (it_layout (il_iter it))) <> 0%nat ->
    adds g w (pending (il_order it) (il_iter it)) -> par_reduce e op k t it g = Ok (total e op (map w (pending (il_order it) (il_iter it)))).
  Proof. induction t as [|n a IHa b IHb]; intros [o it] I Sz A; cbn [par_reduce il_order il_iter] in *.
    - rewrite collect_ok by auto. cbn [bind il_order il_iter]. rewrite (adds_fold g w) by auto. cbn [bind]. now rewrite !m_id.
    - unfold il_len. cbn [il_iter]. rewrite (iter_len_ok o) by auto. cbn [bind].
      destruct (iter_split_ok o k it (Nat.min n (length (pending o it))) I Sz) as (x & y & E & Ix & Iy & Lx & Ly & Px & Py); [lia|].
      unfold il_split_at. cbn [il_order il_iter]. rewrite E. cbn [bind fst snd].
      rewrite IHa; cbn [il_order il_iter]; [|auto|now rewrite Lx|]. 2:{ intros p s Hp. apply A. rewrite Px in Hp. rewrite <- (firstn_skipn (Nat.min n (length (pending o it)))). apply in_or_app. now left. }
      cbn [bind]. rewrite IHb; cbn [il_order il_iter]; [|auto|now rewrite Ly|]. 2:{ intros p s Hp. apply A. rewrite Py in Hp. rewrite <- (firstn_skipn (Nat.min n (length (pending o it)))). apply in_or_app. now right. }
      cbn [bind]. rewrite <- total_app, <- map_app, Px, Py, firstn_skipn. reflexivity. Qed.
  Lemma par_reduce_list_ok {X} (g : S -> X -> res S) w t : forall xs, adds g w xs -> par_reduce_list e op t xs g = Ok (total e op (map w xs)).
  Proof. induction t as [|n a IHa b IHb]; intros xs A; cbn [par_reduce_list].
    - rewrite (adds_fold g w) by auto. cbn [bind]. now rewrite !m_id.
    - rewrite IHa, IHb; [|intros p s Hp; apply A; rewrite <- (firstn_skipn n xs); apply in_or_app; now right|intros p s Hp; apply A; rewrite <- (firstn_skipn n xs); apply in_or_app; now left].
      cbn [bind]. now rewrite <- total_app, <- map_app, firstn_skipn. Qed.
  Lemma sum_at_flat {X} a (c : X -> list Z) xs : sum_at a (flat_map c xs) = total e op (map (fun x => sum_at a (c x)) xs).
  Proof. induction xs as [|x xs IH]; cbn [flat_map map]; auto. rewrite sum_at_app, IH. reflexivity. Qed.
  Lemma sum_at_single a ps : sum_at a ps = total e op (map (fun p => sum_at a [p]) ps).
  Proof. rewrite <- (sum_at_flat a (fun p => [p])). f_equal. induction ps; cbn; congruence. Qed.
  Lemma adds_add_at a ps : within a ps -> adds (add_at f a) (fun p => sum_at a [p]) ps.
  Proof. intros W p s Hp. pose proof (fold_add_at a [p]) as X. cbn [fold_res] in X. assert (W1 : within a [p]). { constructor; [|constructor]. unfold within in W. rewrite Forall_forall in W. auto. }
    specialize (X W1 s). destruct (add_at f a s p); cbn [bind] in X; congruence. Qed.
  Lemma adds_add_slice a n ps : n <> 0%nat -> within a (flat_map (fun p => consecutive p n) ps) -> adds (add_slice e f op a n) (fun p => sum_at a (consecutive p n)) ps.
  Proof. intros Hn W p s Hp. pose proof (fold_add_slice a n [p] Hn) as X. cbn [fold_res flat_map] in X. rewrite app_nil_r in X.
    assert (W1 : within a (consecutive p n)). { unfold within in *. rewrite Forall_forall in *. intros q Hq. apply W. apply in_flat_map. eauto. }
    specialize (X W1 s). destruct (add_slice e f op a n s p); cbn [bind] in X; congruence. Qed.
  Lemma reduce_all_rayon_ok chunk t ti k a la : chunk <> 0%nat -> good la -> inside la (length a) -> reduce_all_rayon e f op fout chunk t ti k a la = Ok (fout (sum_at a (addrs RowMajor la))).
  Proof. intros Hc G I. unfold reduce_all_rayon, l_size. destruct (size (l_shape la) <? chunk)%nat eqn:Sw0; [now apply reduce_all_ok|]. assert (Sz : size (l_shape la) <> 0%nat) by lia.
    destruct (greedy_keep_ok la G) as (l & ax & g & E & P & R & W & N & Sh). unfold translate_unary. rewrite E. cbn [bind fst]. assert (Szl : size (l_shape l) <> 0%nat) by (rewrite (proj1 R); auto).
    assert (Pm : Permutation (addrs ColMajor l) (addrs RowMajor la)) by (eapply renames_perm; eauto).
    assert (Wi : within a (addrs ColMajor l)) by (eapply within_perm; [symmetry; exact Pm|now apply inside_within]).
    destruct (with_contig [l]) as [contig n] eqn:C. destruct (reduce_switch <=? n)%nat eqn:Sw.
    - assert (Hn : n <> 0%nat). { apply Nat.leb_le in Sw. unfold reduce_switch in Sw. lia. }
      destruct (contig_one l contig n W N C Hn) as (lc & -> & Wc & Nc & Sc & Ec). specialize (Sc Szl).
      destruct (iter_new_inv ColMajor k lc Wc Nc) as (it & Ei & Ii & Li & Pi). rewrite Ei. cbn [bind].
      assert (Wf : within a (flat_map (fun p => consecutive p n) (addrs ColMajor lc))) by now rewrite <- Ec.
      assert (Fin : total e op (map (fun p => sum_at a (consecutive p n)) (addrs ColMajor lc)) = sum_at a (addrs RowMajor la)).
      { rewrite <- (sum_at_flat a (fun p => consecutive p n)), <- Ec. now apply sum_at_perm. }
      destruct (n <? chunk)%nat eqn:Sw1.
      + rewrite (par_reduce_ok k _ (fun p => sum_at a (consecutive p n))); cbn [il_order il_iter]; rewrite ?Li, ?Pi; auto; [|now apply adds_add_slice]. cbn [bind]. now rewrite Fin.
      + rewrite (par_reduce_ok k _ (fun p => sum_at a (consecutive p n))); cbn [il_order il_iter]; rewrite ?Li, ?Pi; auto; [cbn [bind]; now rewrite Fin|].
        intros p s Hp. assert (Wp : within a (consecutive p n)). { unfold within in *. rewrite Forall_forall in *. intros q Hq. apply Wf. apply in_flat_map. eauto. }
        rewrite <- (chunks_cover chunk n p Hc) in Wp.
        rewrite (par_reduce_list_ok _ (fun c => sum_at a (consecutive (p + Z.of_nat (fst c)) (snd c)))).
        * cbn [bind]. rewrite <- (sum_at_flat a (fun c => consecutive (p + Z.of_nat (fst c)) (snd c))), chunks_cover by auto. reflexivity.
        * intros c s' Hcc. assert (snd c <> 0%nat) by (now apply (chunks_pos chunk n)). apply (adds_add_slice a (snd c) [p + Z.of_nat (fst c)]); auto; [|now left]. cbn [flat_map]. rewrite app_nil_r.
          unfold within in *. rewrite Forall_forall in *. intros q Hq. apply Wp. apply in_flat_map. eauto.
    - destruct (iter_new_inv ColMajor k l W N) as (it & Ei & Ii & Li & Pi). rewrite Ei. cbn [bind].
      rewrite (par_reduce_ok k _ (fun p => sum_at a [p])); cbn [il_order il_iter]; rewrite ?Li, ?Pi; auto; [|now apply adds_add_at]. cbn [bind]. rewrite <- sum_at_single. do 2 f_equal. now apply sum_at_perm. Qed.
End Monoid.
