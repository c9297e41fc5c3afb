From Verif Require Import Base Spec Spec_Matmul P_Index P_List M_Layout P_Layout P_Bounds P_Contig P_Strides M_Indexer P_Indexer M_Broadcast P_Broadcast Q_Broadcast M_Rearr P_Rearr P_BinOp M_Iter P_Iter M_Kernel P_Kernel Q_Kernel M_Tensor P_Tensor Q_Tensor Q_Copy M_Matmul P_Matmul P_Matmul2 P_Matmul3 P_Matmul4 Q_Matmul M_Fast.
Local Open Scope Z_scope.

(** ** matrices the library can read *)
Lemma layout2 l m k : wf l -> l_shape l = [m; k] -> exists s t, l = mkLayout [m; k] [s; t] (l_offset l).
Proof. intros [L _] S. destruct l as [sh st off]. cbn in *. subst sh. destruct st as [|s [|t [|]]]; cbn in L; try lia. exists s, t. reflexivity. Qed.
Lemma addr2 m k s t off i j : addr (mkLayout [m; k] [s; t] off) [i; j] = off + s * Z.of_nat i + t * Z.of_nat j.
Proof. unfold addr. cbn [l_offset l_stride dot]. lia. Qed.
Lemma reverse2 m k s t off : reverse_axes (mkLayout [m; k] [s; t] off) = mkLayout [k; m] [t; s] off.
Proof. reflexivity. Qed.
Lemma prefer2 m k s t off : m <> 0%nat -> k <> 0%nat -> f_prefer (mkLayout [m; k] [s; t] off) = true -> (m <> 1%nat -> s = 1) /\ (k <> 1%nat -> 1 <= t).
Proof. intros Hm Hk H. unfold f_prefer, ndim, l_size in H. cbn [l_shape l_stride length combine Nat.eqb orb] in H.
  replace (size [m; k] =? 0)%nat with false in H by (unfold size; cbn; nia). cbn [prefer_loop] in H.
  destruct (Nat.eqb_spec m 1) as [->|Em]; cbn [negb] in H; cbn [Z.eqb] in H.
  - split; [congruence|]. intro Ek. destruct (Nat.eqb_spec k 1) as [->|_]; [congruence|]. cbn [negb] in H. destruct (t <? 1) eqn:E; [discriminate|]. lia.
  - destruct (s <? 0) eqn:E0; [discriminate|]. destruct (Z.eqb_spec s 1) as [->|]; [|discriminate]. cbn [negb andb] in H. split; auto. intro Ek. destruct (Nat.eqb_spec k 1) as [->|_]; [congruence|]. cbn [negb] in H. destruct (t <? 1) eqn:E; [discriminate|]. lia. Qed.
Lemma c_prefer2 m k s t off : c_prefer (mkLayout [m; k] [s; t] off) = f_prefer (mkLayout [k; m] [t; s] off).
Proof. unfold c_prefer, f_prefer, ndim, l_size. cbn [l_shape l_stride length combine rev app]. replace (size [k; m]) with (size [m; k]) by (unfold size; cbn; lia). reflexivity. Qed.
Lemma f_contig2 m n : new_f_contig Fixed [m; n] 0 = mkLayout [m; n] [1; Z.of_nat (Nat.max m 1)] 0.
Proof. unfold new_f_contig, stride_f_contig, stride_f_fixed. cbn [cum_strides]. do 2 f_equal. f_equal. unfold max1. destruct m; cbn; lia. Qed.
Lemma f_contig_prefer m n : m <> 0%nat -> f_prefer (new_f_contig Fixed [m; n] 0) = true.
Proof. intro H. rewrite f_contig2. unfold f_prefer, ndim, l_size. cbn [l_shape l_stride length combine Nat.eqb orb]. destruct (size [m; n] =? 0)%nat; auto. cbn [prefer_loop].
  destruct (m =? 1)%nat; cbn [negb Z.eqb Z.ltb andb Pos.eqb Z.compare]; destruct (n =? 1)%nat; cbn [negb]; auto; replace (Z.of_nat (Nat.max m 1) <? 1) with false by lia; reflexivity. Qed.
(** the leading extent of an accepted column-major matrix is at least its number of rows *)
Lemma leading_ok m k s t off : m <> 0%nat -> k <> 0%nat -> good (mkLayout [m; k] [s; t] off) -> f_prefer (mkLayout [m; k] [s; t] off) = true -> at_least (leading (mkLayout [m; k] [s; t] off)) m = true.
Proof. intros Hm Hk G F. apply prefer2 in F as [F1 F2]; auto. unfold at_least, leading, extent. cbn [l_shape l_stride nth]. apply Z.leb_le. destruct (Nat.eqb_spec k 1) as [->|Ek]; cbn [negb]; [lia|]. specialize (F2 Ek).
  destruct (Nat.eq_dec m 1) as [->|Em]; [lia|]. specialize (F1 Em). subst s.
  assert (NE : size (l_shape (mkLayout [m; k] [1; t] off)) <> 0%nat) by (unfold size; cbn; nia). destruct (good_elim _ G NE) as (_ & _ & _ & p & P & Q). cbn [l_shape l_stride combine] in P.
  unfold nz in P. cbn [filter] in P. unfold nzp in P. cbn [fst snd] in P. replace (1 <? m)%nat with true in P by lia. replace (1 <? k)%nat with true in P by lia. replace (t =? 0) with false in P by lia. change (1 =? 0) with false in P. cbn [negb andb map fst snd] in P.
  rewrite (Z.abs_eq t) in P by lia. change (Z.abs 1) with 1 in P. symmetry in P. apply Permutation_length_2_inv in P as [->| ->]; cbn [pass] in Q; nia. Qed.
(** the positions in such a matrix *)
Lemma leading_pos m k s t off i j : f_prefer (mkLayout [m; k] [s; t] off) = true -> (i < m)%nat -> (j < k)%nat ->
  col_pos false off (leading (mkLayout [m; k] [s; t] off)) i j = addr (mkLayout [m; k] [s; t] off) [i; j].
Proof. intros F Hi Hj. apply prefer2 in F as [F1 F2]; try lia. rewrite addr2. unfold col_pos, leading, extent. cbn [l_shape l_stride nth]. destruct (Nat.eqb_spec k 1) as [->|Ek]; cbn [negb].
  - replace j with 0%nat by lia. destruct (Nat.eq_dec m 1) as [->|Em]; [replace i with 0%nat by lia; lia|]. rewrite F1 by auto. lia.
  - destruct (Nat.eq_dec m 1) as [->|Em]; [replace i with 0%nat by lia; lia|]. rewrite F1 by auto. lia. Qed.

Lemma in_all M N i j : In (i, j) (all_cells M N) <-> (i < M)%nat /\ (j < N)%nat.
Proof. unfold all_cells. rewrite in_prod_iff, !in_seq. lia. Qed.
Lemma nodup_all M N : NoDup (all_cells M N). Proof. unfold all_cells. apply nodup_prod; apply seq_NoDup. Qed.
Lemma nodup_cells (pc : nat -> nat -> Z) cells M N : NoDup cells -> (forall ij, In ij cells -> (fst ij < M)%nat /\ (snd ij < N)%nat) ->
  (forall i j i' j', (i < M)%nat -> (j < N)%nat -> (i' < M)%nat -> (j' < N)%nat -> pc i j = pc i' j' -> i = i' /\ j = j') -> NoDup (map (fun ij => pc (fst ij) (snd ij)) cells).
Proof. intros ND R J. induction ND as [|[i j] cells N1 N2 IH]; cbn [map]; constructor.
  - intro H. apply in_map_iff in H as ([i' j'] & E & H). cbn [fst snd] in E. destruct (R (i', j')) as (R1 & R2); [now right|]. destruct (R (i, j)) as (R3 & R4); [now left|]. cbn [fst snd] in *. apply J in E as [-> ->]; auto.
  - apply IH. intros; apply R; now right. Qed.

(** ** copying one triangle to the other *)
Lemma copies_ok {T} ps : forall c, NoDup (map snd ps) -> (forall p, In p ps -> 0 <= fst p < Z.of_nat (length c) /\ 0 <= snd p < Z.of_nat (length c) /\ ~ In (fst p) (map snd ps)) ->
  exists c' : list T, fold_res copy_cell ps c = Ok c' /\ length c' = length c /\ (forall p, In p ps -> peek c' (snd p) = peek c (fst p)) /\ (forall q, ~ In q (map snd ps) -> peek c' q = peek c q).
Proof. induction ps as [|[s d] ps IH]; intros c ND R. { exists c. cbn. split; [auto|]. split; [auto|]. split; [intros ? []|auto]. }
  cbn [map snd] in ND. inversion ND as [|? ? N1 N2]; subst. cbn [fold_res]. unfold copy_cell at 1. cbn [fst snd]. destruct (R (s, d)) as (R1 & R2 & R3); [now left|]. cbn [fst snd map] in *.
  destruct (proj1 (peek_inside c s) R1) as (x & Hx). pose proof Hx as Hx'. apply zget_peek in Hx'. rewrite Hx'. cbn [bind]. destruct (zset_ok c d x R2) as (c1 & -> & L1 & P1 & Q1). cbn [bind].
  destruct (IH c1) as (c' & E' & L' & V' & U'); auto. { intros p Hp. destruct (R p) as (S1 & S2 & S3); [now right|]. rewrite L1. split; auto. split; auto. intro H. apply S3. now right. }
  exists c'. split; [auto|]. split; [congruence|]. split.
  - intros p [<-|Hp]; cbn [fst snd]. + rewrite U' by auto. congruence. + rewrite V' by auto. apply Q1. intro E. destruct (R p) as (_ & _ & S3); [now right|]. apply S3. rewrite E. now left.
  - intros q Hq. rewrite U' by (intro; apply Hq; now right). apply Q1. intros ->. apply Hq. now left. Qed.
Lemma in_strict n i j : In (i, j) (strict_lower n) <-> (j < i)%nat /\ (i < n)%nat.
Proof. unfold strict_lower. rewrite in_flat_map. split.
  - intros (i' & Hi & H). apply in_map_iff in H as (j' & [= -> ->] & Hj). apply in_seq in Hi, Hj. lia.
  - intros [H1 H2]. exists i. split; [apply in_seq; lia|]. apply in_map_iff. exists j. split; auto. apply in_seq. lia. Qed.
Lemma nodup_strict n : NoDup (strict_lower n).
Proof. unfold strict_lower. assert (G : forall k s, NoDup (flat_map (fun i => map (fun j => (i, j)) (seq 0 i)) (seq s k))); [|apply G].
  induction k as [|k IH]; intro s; cbn [seq flat_map]; [constructor|]. apply nodup_app.
  - apply FinFun.Injective_map_NoDup; [|apply seq_NoDup]. intros x y E. congruence.
  - apply IH.
  - intros [i j] H1 H2. apply in_map_iff in H1 as (j' & [= <- <-] & _). apply in_flat_map in H2 as (i' & Hi & H2). apply in_map_iff in H2 as (j'' & [= -> _] & _). apply in_seq in Hi. lia. Qed.

(** ** the outcome of a product, cell by cell *)
Section Fast.
  Context {T : Type} (zero : T) (add mul : T -> T -> T) (SR : comm_semiring zero add mul).
  Definition at0 (a : list T) (p : Z) : T := match peek a p with Some x => x | None => zero end.
  Definition entry (a : list T) (la : layout) (b : list T) (lb : layout) (K m n : nat) : T :=
    total zero add (map (fun k => mul (at0 a (addr la [m; k])) (at0 b (addr lb [k; n]))) (seq 0 K)).
  Definition filled (M N : nat) (lc : layout) (W : nat -> nat -> T) (alpha beta : T) (c c' : list T) : Prop :=
    length c' = length c /\
    (forall m n, (m < M)%nat -> (n < N)%nat -> exists z, peek c (addr lc [m; n]) = Some z /\ peek c' (addr lc [m; n]) = Some (add (mul beta z) (mul alpha (W m n)))) /\
    (forall p, (forall m n, (m < M)%nat -> (n < N)%nat -> addr lc [m; n] <> p) -> peek c' p = peek c p).
  Lemma filled_unique M N lc W alpha beta c c1 c2 : l_shape lc = [M; N] -> filled M N lc W alpha beta c c1 -> filled M N lc W alpha beta c c2 -> c1 = c2.
  Proof using. intros S (L1 & V1 & U1) (L2 & V2 & U2). assert (X : forall p m n, (forall ix, valid [M; N] ix -> addr lc ix <> p) -> (m < M)%nat -> (n < N)%nat -> addr lc [m; n] <> p) by (intros p m n H Hm Hn; apply H; now apply valid_tuple2).
    apply (untouched_unique c c1 c2 lc).
    - split; auto. intros p Hp. rewrite S in Hp. apply U1. intros; now apply X.
    - split; auto. intros p Hp. rewrite S in Hp. apply U2. intros; now apply X.
    - intros ix V. rewrite S in V. change [M; N] with ([] ++ [M; N]) in V. apply valid_mat_inv in V as (bx & m & n & -> & Vb & Hm & Hn). apply valid_nil in Vb as ->. cbn [app]. unfold elem.
      destruct (V1 m n) as (z & Hz & ->); auto. destruct (V2 m n) as (z' & Hz' & ->); auto. congruence. Qed.
  Lemma filled_turn M N lc W W' alpha beta c c' s t off : lc = mkLayout [M; N] [s; t] off -> (forall m n, (m < M)%nat -> (n < N)%nat -> W' n m = W m n) ->
    filled N M (reverse_axes lc) W' alpha beta c c' -> filled M N lc W alpha beta c c'.
  Proof using. intros -> HW (L & V & U). rewrite reverse2 in *. assert (E : forall m n, addr (mkLayout [N; M] [t; s] off) [n; m] = addr (mkLayout [M; N] [s; t] off) [m; n]) by (intros; rewrite !addr2; lia).
    split; auto. split.
    - intros m n Hm Hn. destruct (V n m) as (z & Hz & H); auto. rewrite E, HW in * by auto. eauto.
    - intros p Hp. apply U. intros n m Hn Hm. rewrite E. auto. Qed.
  Lemma entry_turn a la b lb K m n : wf la -> wf lb -> ndim la = 2%nat -> ndim lb = 2%nat -> entry b (reverse_axes lb) a (reverse_axes la) K n m = entry a la b lb K m n.
  Proof using SR. intros [La _] [Lb _] Na Nb. unfold entry, ndim in *. f_equal. apply map_ext. intro k. rewrite (mul_comm zero add mul SR). rewrite !reverse_addr' by (cbn; lia). reflexivity. Qed.

  (** the serial kernel *)
  Lemma gemm_filled a la b lb c lc M K N alpha beta : l_shape la = [M; K] -> l_shape lb = [K; N] -> l_shape lc = [M; N] -> inside la (length a) -> inside lb (length b) -> inside lc (length c) -> injective lc ->
    exists c', gemm mul mul add c lc a la b lb alpha beta = Ok c' /\ filled M N lc (entry a la b lb K) alpha beta c c'.
  Proof using SR. intros Sa Sb Sc Ia Ib Ic Jc. destruct (batch_run mul zero add mul a b alpha beta (fun _ _ : unit => true) (fun _ => la) (fun _ => lb) (fun _ => lc) [tt] M K N c) as (c' & E & L & V & U); auto.
    - intros [] []; tauto.
    - repeat constructor; auto.
    - intros x m n _ Hm Hn. apply Ic. rewrite Sc. now apply valid_tuple2.
    - intros x m n _ Hm Hn _. apply Ia. rewrite Sa. now apply valid_tuple2.
    - intros x m n _ _ Hm Hn. apply Ib. rewrite Sb. now apply valid_tuple2.
    - intros [] [] m n m' n' _ _ Hm Hn Hm' Hn' E. apply Jc in E; try (rewrite Sc; now apply valid_tuple2). injection E as -> ->. auto.
    - cbn [fold_res] in E. destruct (gemm mul mul add c lc a la b lb alpha beta) as [c1| |]; try discriminate. cbn [bind] in E. injection E as ->. exists c'. split; [auto|]. split; [auto|]. split.
      + intros m n Hm Hn. destruct (V tt m n) as (z & vs & Hz & F & R); auto. { now left. } exists z. split; auto. rewrite R. unfold entry. do 4 f_equal.
        clear R V. induction F as [|k v ks vs' (x & y & Hx & Hy & ->) F IH]; cbn [map]; auto. f_equal; auto. unfold at0. now rewrite Hx, Hy.
      + intros p Hp. apply U. intros x m n _ Hm Hn. now apply Hp. Qed.

  (** ** the library *)
  Lemma lib_entry_ok a b pa pb K : (forall k, (k < K)%nat -> 0 <= pa k < Z.of_nat (length a)) -> (forall k, (k < K)%nat -> 0 <= pb k < Z.of_nat (length b)) ->
    lib_entry zero add mul a b pa pb K = Ok (total zero add (map (fun k => mul (at0 a (pa k)) (at0 b (pb k))) (seq 0 K))).
  Proof using SR. intros Ra Rb. unfold lib_entry. rewrite <- (total_from zero add mul) by auto. generalize zero at 1 2. assert (HK : forall k, In k (seq 0 K) -> (k < K)%nat) by (intros k Hk; apply in_seq in Hk; lia).
    revert HK. generalize (seq 0 K). induction l as [|k ks IH]; intros HK z; cbn [fold_res map fold_left]; auto. assert (Hk : (k < K)%nat) by (apply HK; now left).
    destruct (proj1 (peek_inside a (pa k)) (Ra k Hk)) as (x & Hx). destruct (proj1 (peek_inside b (pb k)) (Rb k Hk)) as (y & Hy). replace (at0 a (pa k)) with x by (unfold at0; now rewrite Hx). replace (at0 b (pb k)) with y by (unfold at0; now rewrite Hy). apply zget_peek in Hx, Hy. rewrite Hx. cbn [bind]. rewrite Hy. cbn [bind].
    apply IH. intros; apply HK; now right. Qed.
  Definition renew (old : option (T -> T)) (z v : T) : T := match old with None => v | Some f => add (f z) v end.
  Lemma lib_product_ok old alpha pc a pa b pb K cells : forall c, NoDup (map (fun ij => pc (fst ij) (snd ij)) cells) -> (forall ij, In ij cells -> 0 <= pc (fst ij) (snd ij) < Z.of_nat (length c)) ->
    (forall ij k, In ij cells -> (k < K)%nat -> 0 <= pa (fst ij) k < Z.of_nat (length a)) -> (forall ij k, In ij cells -> (k < K)%nat -> 0 <= pb k (snd ij) < Z.of_nat (length b)) ->
    exists c', lib_product zero add mul cells old alpha c pc a pa b pb K = Ok c' /\ length c' = length c /\
      (forall ij, In ij cells -> exists z, peek c (pc (fst ij) (snd ij)) = Some z /\
         peek c' (pc (fst ij) (snd ij)) = Some (renew old z (mul alpha (total zero add (map (fun k => mul (at0 a (pa (fst ij) k)) (at0 b (pb k (snd ij)))) (seq 0 K)))))) /\
      (forall p, (forall ij, In ij cells -> pc (fst ij) (snd ij) <> p) -> peek c' p = peek c p).
  Proof using SR. unfold lib_product. induction cells as [|ij cells IH]; intros c ND RC RA RB.
    { exists c. cbn [fold_res]. split; [auto|]. split; [auto|]. split; [intros ? []|auto]. }
    cbn [map] in ND. inversion ND as [|? ? N1 N2]; subst. cbn [fold_res]. set (p := pc (fst ij) (snd ij)) in *. destruct (proj1 (peek_inside c p)) as (z & Hz). { apply RC. now left. }
    set (v := mul alpha (total zero add (map (fun k => mul (at0 a (pa (fst ij) k)) (at0 b (pb k (snd ij)))) (seq 0 K)))).
    assert (X : lib_cell zero add mul old alpha pc a pa b pb K c ij = zset c p (renew old z v)).
    { unfold lib_cell. rewrite lib_entry_ok. 2:{ intros k Hk. apply (RA ij); auto. now left. } 2:{ intros k Hk. apply (RB ij); auto. now left. } cbn [bind]. fold p v. destruct old as [f|]; cbn [renew]; auto. apply zget_peek in Hz. now rewrite Hz. }
    rewrite X. destruct (zset_ok c p (renew old z v)) as (c1 & -> & L1 & P1 & Q1). { apply RC. now left. } cbn [bind].
    destruct (IH c1) as (c' & E' & L' & V' & U'); auto. { intros q Hq. rewrite L1. apply RC. now right. } { intros q k Hq. apply RA. now right. } { intros q k Hq. apply RB. now right. }
    exists c'. split; [exact E'|]. split; [congruence|]. split.
    - intros q [<-|Hq].
      + exists z. split; [exact Hz|]. fold p. rewrite U'; [rewrite P1; reflexivity|]. intros r Hr E. apply N1. apply in_map_iff. exists r. split; auto.
      + destruct (V' q Hq) as (z' & Hz' & H'). exists z'. split; auto. rewrite Q1 in Hz'; auto. intro E. apply N1. apply in_map_iff. exists q. auto.
    - intros q Hq. rewrite U' by (intros; apply Hq; now right). apply Q1. intro E. apply (Hq ij); [now left|auto]. Qed.
End Fast.
