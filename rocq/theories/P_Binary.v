(** Reductions over two operands: sums over pairs of storage positions, in any order and grouping. *)
From Verif Require Import Base Spec P_Index P_List M_Layout P_Layout P_Bounds P_Contig P_Strides Q_Layout M_Indexer P_Indexer M_Broadcast M_Rearr M_Iter P_Iter P_Rearr P_BinOp Q_Rearr M_Kernel P_Kernel M_Tensor M_Reduce P_Reduce M_Binary.
Local Open Scope Z_scope.

Definition vals2 {A B} (a : list A) (b : list B) (ps : list (Z * Z)) : list (A * B) :=
  flat_map (fun p => match peek a (fst p), peek b (snd p) with Some x, Some y => [(x, y)] | _, _ => [] end) ps.
Definition within2 {A B} (a : list A) (b : list B) (ps : list (Z * Z)) : Prop := Forall (fun p => 0 <= fst p < Z.of_nat (length a) /\ 0 <= snd p < Z.of_nat (length b)) ps.
Definition blow2 (n : nat) (p : Z * Z) : list (Z * Z) := combine (consecutive (fst p) n) (consecutive (snd p) n).
Lemma vals2_app {A B} (a : list A) (b : list B) p q : vals2 a b (p ++ q) = vals2 a b p ++ vals2 a b q.
Proof. apply flat_map_app. Qed.
Lemma flat_map_perm {X Y} (g : X -> list Y) p q : Permutation p q -> Permutation (flat_map g p) (flat_map g q).
Proof. intro H. induction H; cbn; auto.
  - now apply Permutation_app_head.
  - rewrite !app_assoc. apply Permutation_app_tail, Permutation_app_comm.
  - etransitivity; eauto. Qed.
Lemma vals2_combine {A B} (a : list A) (b : list B) ps : forall qs, within a ps -> within b qs -> vals2 a b (combine ps qs) = combine (vals a ps) (vals b qs).
Proof. induction ps as [|p ps IH]; intros [|q qs] W1 W2; cbn [combine vals vals2 flat_map]; auto.
  - inversion W1 as [|? ? B1 _]; subst. apply peek_inside in B1 as (x & ->). reflexivity.
  - inversion W1 as [|? ? B1 W1']; inversion W2 as [|? ? B2 W2']; subst. apply peek_inside in B1 as (x & E1). apply peek_inside in B2 as (y & E2). cbn [fst snd]. rewrite E1, E2. cbn [app combine].
    f_equal. apply (IH qs W1' W2'). Qed.
Lemma within2_combine {A B} (a : list A) (b : list B) ps : forall qs, length ps = length qs -> (within2 a b (combine ps qs) <-> within a ps /\ within b qs).
Proof. unfold within, within2. induction ps as [|p ps IH]; intros [|q qs] L; try discriminate L; cbn [combine].
  - split; [split; constructor|constructor].
  - injection L as L. rewrite !Forall_cons_iff, (IH qs L). cbn [fst snd]. tauto. Qed.
Lemma consecutive_length p n : length (consecutive p n) = n.
Proof. unfold consecutive. now rewrite map_length, seq_length. Qed.
Lemma combine_flat n ps : forall qs, length ps = length qs -> combine (flat_map (fun p => consecutive p n) ps) (flat_map (fun p => consecutive p n) qs) = flat_map (blow2 n) (combine ps qs).
Proof. induction ps as [|p ps IH]; intros [|q qs] L; try discriminate L; auto. injection L as L. cbn [flat_map combine]. rewrite combine_app by now rewrite !consecutive_length. now rewrite (IH qs L). Qed.
Lemma combine_map_r {X Y Y'} (g : Y -> Y') (xs : list X) : forall ys, combine xs (map g ys) = map (fun p => (fst p, g (snd p))) (combine xs ys).
Proof. induction xs as [|x xs IH]; intros [|y ys]; cbn; auto. now rewrite IH. Qed.
Lemma combine_skipn {X Y} n : forall (xs : list X) (ys : list Y), combine (skipn n xs) (skipn n ys) = skipn n (combine xs ys).
Proof. induction n as [|n IH]; intros xs ys; auto. destruct xs as [|x xs], ys as [|y ys]; auto.
  - destruct (skipn (S n) (x :: xs)); reflexivity.
  - cbn [skipn combine]. apply IH. Qed.

(** the layouts after joint translation, and their contiguous parts *)
Lemma contig_two l1 l2 contig n sh : wf l1 -> nonneg l1 -> l_shape l1 = sh -> wf l2 -> nonneg l2 -> l_shape l2 = sh -> with_contig [l1; l2] = (contig, n) -> n <> 0%nat ->
  exists c1 c2, contig = [c1; c2] /\ wf c1 /\ nonneg c1 /\ wf c2 /\ nonneg c2 /\ l_shape c1 = l_shape c2 /\ (size sh <> 0%nat -> size (l_shape c1) <> 0%nat) /\
    combine (addrs ColMajor l1) (addrs ColMajor l2) = flat_map (blow2 n) (combine (addrs ColMajor c1) (addrs ColMajor c2)) /\
    addrs ColMajor l1 = flat_map (fun p => consecutive p n) (addrs ColMajor c1) /\ addrs ColMajor l2 = flat_map (fun p => consecutive p n) (addrs ColMajor c2).
Proof. intros W1 N1 S1 W2 N2 S2 C Hn.
  pose proof (l_contig Dyn [l1; l2] contig n sh (Forall_cons _ (conj W1 N1) (Forall_cons _ (conj W2 N2) (Forall_nil _))) (Forall_cons _ S1 (Forall_cons _ S2 (Forall_nil _))) C Hn) as Q.
  inversion Q as [|? c1 ? r (ps & E1 & E2) Q']; subst. inversion Q' as [|? c2 ? r' (qs & E3 & E4) Q'']; subst. inversion Q''; subst. rewrite dispatch_ok in E2, E4 by auto. injection E2 as E2. injection E4 as E4.
  cbn [with_contig fold_left] in C. cbv zeta in C. destruct (Nat.min _ _ =? 0)%nat; [congruence|]. set (m := Nat.min _ _) in C. clearbody m. cbn [map] in C. injection C as <- <- <-.
  assert (G : forall l, size (firstn m (l_shape l)) <> 0%nat -> wf l -> nonneg l -> wf (mkLayout (skipn m (l_shape l)) (skipn m (l_stride l)) (l_offset l)) /\ nonneg (mkLayout (skipn m (l_shape l)) (skipn m (l_stride l)) (l_offset l))).
  { clear. intros l Hm [W1 W2] N. split.
    - split; cbn; [rewrite !skipn_length; lia|]. intros S0. apply W2. rewrite <- (firstn_skipn m (l_shape l)), size_app. apply Nat.neq_mul_0. auto.
    - intros ix V. cbn [l_shape] in V. assert (V' : valid (l_shape l) (repeat 0%nat (length (firstn m (l_shape l))) ++ ix)).
      { rewrite <- (firstn_skipn m (l_shape l)) at 1. apply valid_app; [now rewrite repeat_length|]. split; auto. now apply valid_zeros. }
      specialize (N _ V'). unfold addr in *. cbn [l_offset l_stride]. rewrite <- (firstn_skipn m (l_stride l)), dot_app in N; [rewrite dot_zeros in N; lia|]. rewrite repeat_length, !firstn_length. lia. }
  destruct (G l1 Hn W1 N1) as [Wc1 Nc1]. rewrite <- S2 in Hn. destruct (G l2 Hn W2 N2) as [Wc2 Nc2]. rewrite dispatch_ok in E1, E3 by auto. injection E1 as <-. injection E3 as <-.
  eexists _, _. split; [reflexivity|]. do 4 (split; [auto|]). split; [cbn [l_shape]; congruence|]. split.
  { cbn [l_shape]. intros S0 Z0. apply S0. rewrite <- (firstn_skipn m (l_shape l1)), size_app, Z0. lia. }
  split; [|auto]. rewrite E2, E4. apply combine_flat. rewrite !addrs_length. cbn [l_shape]. congruence. Qed.
Lemma translate_two la lb sh : good la -> good lb -> l_shape la = sh -> l_shape lb = sh ->
  exists l1 l2 ixs sh', translate_to_col_major RowMajor [la; lb] OK = Ok [l1; l2] /\ Permutation ixs (row_major sh) /\ wf l1 /\ nonneg l1 /\ wf l2 /\ nonneg l2 /\
    l_shape l1 = sh' /\ l_shape l2 = sh' /\ size sh' = size sh /\ addrs ColMajor l1 = map (addr la) ixs /\ addrs ColMajor l2 = map (addr lb) ixs.
Proof. intros Ga Gb Sa Sb. assert (Sh : Forall (fun l => l_shape l = sh) [la; lb]) by (repeat constructor; auto).
  destruct (joint_ok RowMajor [la; lb] OK sh) as (full & ixs & E & P & F & _); auto; [discriminate|].
  destruct (translate_k_shapes _ _ sh Sh E) as (sh' & Sh'). inversion F as [|? l1 ? r (W1 & N1 & _ & A1) F']; subst. inversion F' as [|? l2 ? r' (W2 & N2 & _ & A2) F'']; subst. inversion F''; subst.
  inversion Sh' as [|? ? X1 Sh2]; subst. inversion Sh2 as [|? ? X2 _]; subst. exists l1, l2, ixs, (l_shape l1). do 6 (split; [auto|]). do 2 (split; [auto|]). split; [|auto].
  pose proof (f_equal (@length Z) A1) as L. rewrite addrs_length, map_length, (Permutation_length P), length_row_major in L. exact L. Qed.

Section Monoid.
  Context {A B S O : Type} (e : S) (op : S -> S -> S) (M : comm_monoid e op) (h : A * B -> S) (f : S -> A * B -> S) (F : forall s x, f s x = op s (h x)) (fout : S -> O).
  Lemma loop2 n : forall (xs : list A) (ys : list B) p0 p1 p2 p3 p4 p5 p6 p7, (length xs <= n)%nat ->
    exists q0 q1 q2 q3 q4 q5 q6 q7 xr yr, unrolled_loop2 f xs ys p0 p1 p2 p3 p4 p5 p6 p7 = (q0, q1, q2, q3, q4, q5, q6, q7, xr, yr) /\
      unrolled_loop f (combine xs ys) p0 p1 p2 p3 p4 p5 p6 p7 = (q0, q1, q2, q3, q4, q5, q6, q7, combine xr yr).
  Proof. induction n as [|n IH]; intros xs ys p0 p1 p2 p3 p4 p5 p6 p7 L.
    { destruct xs; [|cbn in L; lia]. do 10 eexists. split; reflexivity. }
    do 8 (destruct xs as [|? xs]; [do 10 eexists; split; [reflexivity|]; repeat (destruct ys as [|? ys]; try reflexivity)|]).
    do 8 (destruct ys as [|? ys]; [do 10 eexists; split; reflexivity|]).
    cbn [unrolled_loop2 combine unrolled_loop]. apply IH. cbn in L. lia. Qed.
  Lemma unrolled2_ok xs ys : unrolled_binary_reduce e f op xs ys = total e op (map h (combine xs ys)).
  Proof. rewrite <- (unrolled_ok e op M h f F fout). unfold unrolled_binary_reduce, unrolled_reduce. destruct (loop2 (length xs) xs ys e e e e e e e e (le_n _)) as (q0 & q1 & q2 & q3 & q4 & q5 & q6 & q7 & xr & yr & E1 & E2). now rewrite E1, E2. Qed.

  Definition sum2 (a : list A) (b : list B) (ps : list (Z * Z)) : S := total e op (map h (vals2 a b ps)).
  Lemma sum2_perm a b p q : Permutation p q -> sum2 a b p = sum2 a b q.
  Proof. intro H. apply (total_perm e op M), Permutation_map, flat_map_perm, H. Qed.
  Lemma sum2_flat {X} a b (c : X -> list (Z * Z)) xs : sum2 a b (flat_map c xs) = total e op (map (fun x => sum2 a b (c x)) xs).
  Proof. induction xs as [|x xs IH]; cbn [flat_map map]; auto. unfold sum2 at 1. rewrite vals2_app, map_app, (total_app e op M). change (op (sum2 a b (c x)) (sum2 a b (flat_map c xs)) = op (sum2 a b (c x)) (total e op (map (fun x => sum2 a b (c x)) xs))). now rewrite IH. Qed.
  Lemma sum2_single a b ps : sum2 a b ps = total e op (map (fun p => sum2 a b [p]) ps).
  Proof. rewrite <- (sum2_flat a b (fun p => [p])). f_equal. induction ps; cbn; congruence. Qed.
  Lemma adds_pair a b ps : within2 a b ps -> adds op (add_pair f a b) (fun p => sum2 a b [p]) ps.
  Proof. intros W p s Hp. unfold within2 in W. rewrite Forall_forall in W. destruct (W p Hp) as [B1 B2]. apply peek_inside in B1 as (x & E1). apply peek_inside in B2 as (y & E2).
    unfold add_pair. rewrite (proj2 (zget_peek a _ x) E1), (proj2 (zget_peek b _ y) E2). cbn [bind]. unfold sum2, vals2. cbn [flat_map]. rewrite E1, E2. cbn. now rewrite (m_id_r e op M), F. Qed.
  Lemma adds_slices a b n ps : n <> 0%nat -> within2 a b (flat_map (blow2 n) ps) -> adds op (add_slices e f op a b n) (fun p => sum2 a b (blow2 n p)) ps.
  Proof. intros Hn W p s Hp. assert (Wp : within2 a b (blow2 n p)). { unfold within2 in *. rewrite Forall_forall in *. intros q Hq. apply W. apply in_flat_map. eauto. }
    unfold blow2 in Wp. rewrite within2_combine in Wp by now rewrite !consecutive_length. destruct Wp as [Wa Wb].
    destruct (within_consecutive a _ n Hn Wa) as [A1 A2]. destruct (within_consecutive b _ n Hn Wb) as [B1 B2].
    unfold add_slices. rewrite !slice_get_ok by auto. cbn [bind]. rewrite unrolled2_ok. unfold sum2, blow2. now rewrite vals2_combine. Qed.
  Lemma par_reduce2_ok k (g : S -> Z * Z -> res S) w t : forall i1 i2, inv (il_order i1) (il_iter i1) -> inv (il_order i2) (il_iter i2) ->
    size (l_shape (it_layout (il_iter i1))) <> 0%nat -> size (l_shape (it_layout (il_iter i2))) <> 0%nat ->
    adds op g w (combine (pending (il_order i1) (il_iter i1)) (pending (il_order i2) (il_iter i2))) ->
    par_reduce2 e op k t i1 i2 g = Ok (total e op (map w (combine (pending (il_order i1) (il_iter i1)) (pending (il_order i2) (il_iter i2))))).
  Proof. induction t as [|n a IHa b IHb]; intros [o1 i1] [o2 i2] I1 I2 Z1 Z2 H; cbn [par_reduce2 il_order il_iter] in *.
    - rewrite !collect_ok by auto. cbn [bind il_order il_iter]. rewrite (adds_fold e op M g w) by auto. cbn [bind]. now rewrite !(m_id e op M).
    - unfold il_len. cbn [il_iter]. rewrite (iter_len_ok o1), (iter_len_ok o2) by auto. cbn [bind]. set (m := Nat.min n _).
      destruct (iter_split_ok o1 k i1 m I1 Z1) as (x1 & y1 & E1 & Ix1 & Iy1 & Lx1 & Ly1 & Px1 & Py1); [unfold m; lia|].
      destruct (iter_split_ok o2 k i2 m I2 Z2) as (x2 & y2 & E2 & Ix2 & Iy2 & Lx2 & Ly2 & Px2 & Py2); [unfold m; lia|].
      unfold il_split_at. cbn [il_order il_iter]. rewrite E1, E2. cbn [bind fst snd].
      assert (Cl : combine (pending o1 x1) (pending o2 x2) = firstn m (combine (pending o1 i1) (pending o2 i2))) by (rewrite Px1, Px2; symmetry; apply combine_firstn).
      assert (Cr : combine (pending o1 y1) (pending o2 y2) = skipn m (combine (pending o1 i1) (pending o2 i2))) by (rewrite Py1, Py2; apply combine_skipn).
      rewrite IHa; cbn [il_order il_iter]; [|auto|auto|now rewrite Lx1|now rewrite Lx2|]. 2:{ intros p s Hp. apply H. rewrite Cl in Hp. rewrite <- (firstn_skipn m). apply in_or_app. now left. }
      cbn [bind]. rewrite IHb; cbn [il_order il_iter]; [|auto|auto|now rewrite Ly1|now rewrite Ly2|]. 2:{ intros p s Hp. apply H. rewrite Cr in Hp. rewrite <- (firstn_skipn m). apply in_or_app. now right. }
      cbn [bind]. rewrite <- (total_app e op M), <- map_app, Cl, Cr, firstn_skipn. reflexivity. Qed.

  Definition pairs (la lb : layout) (sh : list nat) : list (Z * Z) := map (fun ix => (addr la ix, addr lb ix)) (row_major sh).
  Section Kernel.
    Context (a : list A) (la : layout) (b : list B) (lb : layout) (sh : list nat) (Ga : good la) (Gb : good lb) (Sa : l_shape la = sh) (Sb : l_shape lb = sh) (Ia : inside la (length a)) (Ib : inside lb (length b)).
    Lemma pairs_within ixs : Permutation ixs (row_major sh) -> within2 a b (map (fun ix => (addr la ix, addr lb ix)) ixs).
    Proof. intro P. apply Forall_forall. intros p Hp. apply in_map_iff in Hp as (ix & <- & Hi). cbn [fst snd]. eapply Permutation_in in Hi; [|exact P]. apply in_row_major in Hi. split; [apply Ia; now rewrite Sa|apply Ib; now rewrite Sb]. Qed.
    Lemma reduce_all_binary_ok k : reduce_all_binary e f op fout k a la b lb = Ok (fout (sum2 a b (pairs la lb sh))).
    Proof. unfold reduce_all_binary. destruct (translate_two la lb sh Ga Gb Sa Sb) as (l1 & l2 & ixs & sh' & E & P & W1 & N1 & W2 & N2 & S1 & S2 & Sz & A1 & A2). rewrite E. cbn [bind].
      assert (C : combine (addrs ColMajor l1) (addrs ColMajor l2) = map (fun ix => (addr la ix, addr lb ix)) ixs) by now rewrite A1, A2, combine_map.
      pose proof (pairs_within ixs P) as Wi.
      assert (Fin : sum2 a b (map (fun ix => (addr la ix, addr lb ix)) ixs) = sum2 a b (pairs la lb sh)) by (apply sum2_perm; unfold pairs; now rewrite P).
      destruct (with_contig [l1; l2]) as [contig n] eqn:Ec. destruct (reduce_switch <=? n)%nat eqn:Sw.
      - assert (Hn : n <> 0%nat). { apply Nat.leb_le in Sw. unfold reduce_switch in Sw. lia. }
        destruct (contig_two l1 l2 contig n sh' W1 N1 S1 W2 N2 S2 Ec Hn) as (c1 & c2 & -> & Wc1 & Nc1 & Wc2 & Nc2 & Sc & _ & Q & _). unfold dispatch. cbn [map_res]. rewrite !dispatch_ok by auto. cbn [bind].
        rewrite zip_all_cons. cbn [zip_all]. rewrite combine_map_r, map_map.
        rewrite fold_res_map, (fold_res_ext _ (add_slices e f op a b n)). 2:{ intros [p q] s _. reflexivity. }
        rewrite (adds_fold e op M _ (fun p => sum2 a b (blow2 n p))); [|apply adds_slices; auto; now rewrite <- Q, C]. cbn [bind]. rewrite (m_id e op M). do 2 f_equal. rewrite <- Fin, <- C, Q. symmetry. apply sum2_flat.
      - unfold positions_col. rewrite !dispatch_ok by auto. cbn [bind]. rewrite C, (adds_fold e op M _ (fun p => sum2 a b [p])); [|now apply adds_pair]. cbn [bind]. rewrite (m_id e op M). do 2 f_equal. rewrite <- sum2_single. exact Fin. Qed.
    Lemma reduce_all_binary_rayon_ok chunk t ti k : chunk <> 0%nat -> reduce_all_binary_rayon e f op fout chunk t ti k a la b lb = Ok (fout (sum2 a b (pairs la lb sh))).
    Proof. intro Hc. unfold reduce_all_binary_rayon. destruct (l_size la <? chunk)%nat eqn:Small; [now apply reduce_all_binary_ok|].
      assert (Z0 : size sh <> 0%nat). { apply Nat.ltb_ge in Small. unfold l_size in Small. rewrite Sa in Small. lia. }
      destruct (translate_two la lb sh Ga Gb Sa Sb) as (l1 & l2 & ixs & sh' & E & P & W1 & N1 & W2 & N2 & S1 & S2 & Sz & A1 & A2). rewrite E. cbn [bind].
      assert (C : combine (addrs ColMajor l1) (addrs ColMajor l2) = map (fun ix => (addr la ix, addr lb ix)) ixs) by now rewrite A1, A2, combine_map.
      pose proof (pairs_within ixs P) as Wi.
      assert (Fin : sum2 a b (map (fun ix => (addr la ix, addr lb ix)) ixs) = sum2 a b (pairs la lb sh)) by (apply sum2_perm; unfold pairs; now rewrite P).
      destruct (with_contig [l1; l2]) as [contig n] eqn:Ec. destruct (reduce_switch <=? n)%nat eqn:Sw.
      - assert (Hn : n <> 0%nat). { apply Nat.leb_le in Sw. unfold reduce_switch in Sw. lia. }
        destruct (contig_two l1 l2 contig n sh' W1 N1 S1 W2 N2 S2 Ec Hn) as (c1 & c2 & -> & Wc1 & Nc1 & Wc2 & Nc2 & Sc & Zc & Q & _). rewrite Sz in Zc. specialize (Zc Z0).
        destruct (iter_new_inv ColMajor k c1 Wc1 Nc1) as (i1 & Ei1 & Ii1 & Li1 & Pi1). destruct (iter_new_inv ColMajor k c2 Wc2 Nc2) as (i2 & Ei2 & Ii2 & Li2 & Pi2). rewrite Ei1, Ei2. cbn [bind].
        assert (Wf : within2 a b (flat_map (blow2 n) (combine (addrs ColMajor c1) (addrs ColMajor c2)))) by now rewrite <- Q, C.
        assert (Fin' : total e op (map (fun p => sum2 a b (blow2 n p)) (combine (addrs ColMajor c1) (addrs ColMajor c2))) = sum2 a b (pairs la lb sh)) by now rewrite <- (sum2_flat a b (blow2 n)), <- Q, C.
        destruct (n <? chunk)%nat eqn:Sw1.
        + rewrite (par_reduce2_ok k _ (fun p => sum2 a b (blow2 n p))); cbn [il_order il_iter]; rewrite ?Li1, ?Li2, ?Pi1, ?Pi2, <- ?Sc; auto; [|now apply adds_slices]. cbn [bind]. now rewrite Fin'.
        + rewrite (par_reduce2_ok k _ (fun p => sum2 a b (blow2 n p))); cbn [il_order il_iter]; rewrite ?Li1, ?Li2, ?Pi1, ?Pi2, <- ?Sc; auto; [cbn [bind]; now rewrite Fin'|].
          intros p s Hp. assert (Wp : within2 a b (blow2 n p)). { unfold within2 in *. rewrite Forall_forall in *. intros q Hq. apply Wf. apply in_flat_map. eauto. }
          set (c := fun q : nat * nat => blow2 (snd q) (fst p + Z.of_nat (fst q), snd p + Z.of_nat (fst q))).
          assert (Ecov : flat_map c (chunks chunk n) = blow2 n p).
          { unfold blow2. rewrite <- (chunks_cover chunk n (fst p) Hc), <- (chunks_cover chunk n (snd p) Hc). generalize (chunks chunk n). intro cs. clear. induction cs as [|q cs IH]; cbn [flat_map]; auto.
            rewrite combine_app by now rewrite !consecutive_length. now rewrite IH. }
          rewrite (par_reduce_list_ok e op M _ (fun q => sum2 a b (c q))).
          * cbn [bind]. now rewrite <- (sum2_flat a b c), Ecov.
          * intros q s' Hq. assert (snd q <> 0%nat) by (now apply (chunks_pos chunk n)). apply (adds_slices a b (snd q) [(fst p + Z.of_nat (fst q), snd p + Z.of_nat (fst q))]); auto; [|now left]. cbn [flat_map]. rewrite app_nil_r.
            rewrite <- Ecov in Wp. unfold within2 in *. rewrite Forall_forall in *. intros z Hz. apply Wp. apply in_flat_map. exists q. auto.
      - destruct (iter_new_inv ColMajor k l1 W1 N1) as (i1 & Ei1 & Ii1 & Li1 & Pi1). destruct (iter_new_inv ColMajor k l2 W2 N2) as (i2 & Ei2 & Ii2 & Li2 & Pi2). rewrite Ei1, Ei2. cbn [bind].
        rewrite (par_reduce2_ok k _ (fun p => sum2 a b [p])); cbn [il_order il_iter]; rewrite ?Li1, ?Li2, ?Pi1, ?Pi2, ?S1, ?S2, ?Sz; auto; rewrite C; [|now apply adds_pair]. cbn [bind]. rewrite <- sum2_single. now rewrite Fin. Qed.
  End Kernel.
End Monoid.
