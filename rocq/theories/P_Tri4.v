(** Proofs about tril, triu and the blocked order change. *)
From Verif Require Import Base Spec Spec_Matmul Spec_Tri P_Index P_List M_Layout P_Layout P_Bounds P_Contig P_Strides M_Indexer P_Indexer M_Broadcast P_Broadcast M_Rearr P_Rearr P_BinOp M_Iter P_Iter M_Kernel P_Kernel Q_Kernel M_Tensor P_Tensor Q_Tensor Q_Copy P_Arg P_Axes M_Matmul P_Matmul P_Matmul2 P_Matmul3 P_Matmul4 Q_Matmul M_Tri P_Tri P_Tri2 P_Tri3.
Local Open Scope Z_scope.

(** ** tril, triu *)
Definition zero_rows (m : nat) (cols : nat -> list nat) : list (nat * nat) := flat_map (fun i => map (pair i) (cols i)) (seq 0 m).
Lemma in_zero_rows m cols i j : In (i, j) (zero_rows m cols) <-> (i < m)%nat /\ In j (cols i).
Proof. unfold zero_rows. rewrite in_flat_map. split.
  - intros (x & Hx & H). apply in_map_iff in H as (y & [= <- <-] & H). apply in_seq in Hx. split; auto. lia.
  - intros (H1 & H2). exists i. split; [apply in_seq; lia|now apply in_map]. Qed.
Lemma stack_zero {T} (zero : T) one (raw : list T) l k B m n cols : wf l -> nonneg l -> anchored l -> injective l -> l_shape l = B ++ [m; n] -> inside l (length raw) ->
  (forall raw off, one raw (at_offset (tail_of l (length B)) off) k = fold_res (fun raw s => zset raw (index_uncheck (at_offset (tail_of l (length B)) off) [fst s; snd s]) zero) (zero_rows m cols) raw) ->
  (forall i j, (i < m)%nat -> In j (cols i) -> (j < n)%nat) ->
  exists raw', tri_stack one raw l k = Ok raw' /\ untouched_outside l raw raw' /\
    forall bx i j, valid B bx -> (i < m)%nat -> (j < n)%nat -> elem raw' l (bx ++ [i; j]) = if existsb (Nat.eqb j) (cols i) then Some zero else elem raw l (bx ++ [i; j]).
Proof. intros W N An J Sh Il One Cols. unfold tri_stack. change (-2) with (- (2)). rewrite (split_tail l B [m; n] 2 Sh) by (cbn; lia). cbn [bind fst snd]. destruct (head_safe l B [m; n] W N An Sh) as (Wh & Nh).
  rewrite (dispatch_ok Dyn _ Wh Nh). cbn [bind]. unfold addrs. rewrite (head_shape _ _ _ Sh). rewrite fold_res_map. set (steps := flat_map (fun bx => map (pair bx) (zero_rows m cols)) (enum ColMajor B)).
  assert (Sx : forall bx i j, In (bx, (i, j)) steps <-> valid B bx /\ (i < m)%nat /\ In j (cols i)).
  { intros bx i j. unfold steps. rewrite in_flat_map, <- in_zero_rows, <- (in_enum ColMajor). split. - intros (y & Hy & H). apply in_map_iff in H as (z & [= <- <-] & H). auto. - intros (H1 & H2). exists bx. split; auto. now apply in_map. }
  set (tgt := fun s : list nat * (nat * nat) => fst s ++ [fst (snd s); snd (snd s)]).
  erewrite fold_res_ext. 2:{ intros bx s Hb. apply in_enum, valid_length in Hb. rewrite One. erewrite fold_res_ext'. 2:{ intros s' c. rewrite index_uncheck_addr, (addr_split l B [m; n] bx _ W Sh Hb). instantiate (1 := fun s c => (fun s c => let* y := Ok zero in zset s (addr l (tgt c)) y) s (bx, c)). reflexivity. }
    instantiate (1 := fun s bx => fold_res (fun s c => (fun s c => let* y := Ok zero in zset s (addr l (tgt c)) y) s (bx, c)) (zero_rows m cols) s). reflexivity. }
  rewrite (fold_pairs (fun s c => let* y := Ok zero in zset s (addr l (tgt c)) y) (fun _ => zero_rows m cols)). fold steps.
  assert (Vt : forall i, In i steps -> valid (l_shape l) (tgt i)). { intros (bx & i & j) H. apply Sx in H as (V & Hi & Hj). unfold tgt. cbn [fst snd]. rewrite Sh. apply valid_mat; [now apply valid_length in V|]. eauto. }
  destruct (put_steps raw l tgt (fun _ => Ok zero) steps) as (raw' & E & U & Q & K); eauto. exists raw'. split; auto. split; auto. intros bx i j V Hi Hj. destruct (existsb (Nat.eqb j) (cols i)) eqn:Ex.
  - apply existsb_exists in Ex as (j' & H & Ej). apply Nat.eqb_eq in Ej. subst j'. destruct (Q (bx, (i, j))) as (y & [= <-] & Hy); [now apply Sx|exact Hy].
  - apply K. { rewrite Sh. apply valid_mat; [now apply valid_length in V|auto]. } intros (bx' & i' & j') H Et. apply Sx in H as (_ & _ & H). unfold tgt in Et. cbn [fst snd] in Et. apply app2_inj in Et as (-> & -> & ->).
    assert (existsb (Nat.eqb j) (cols i) = true); [|congruence]. apply existsb_exists. exists j. split; auto. apply Nat.eqb_refl. Qed.
Lemma existsb_range j lo hi : existsb (Nat.eqb j) (range lo hi) = ((lo <=? j)%nat && (j <? hi)%nat).
Proof. apply eq_true_iff_eq. rewrite existsb_exists. split.
  - intros (x & H & E). apply in_range in H. apply Nat.eqb_eq in E. lia. - intro H. exists j. split; [apply in_range; lia|apply Nat.eqb_refl]. Qed.

Lemma tril_ok {T} (zero : T) (raw : list T) l k B m n : wf l -> nonneg l -> anchored l -> injective l -> l_shape l = B ++ [m; n] -> inside l (length raw) ->
  exists raw', tril_kernel zero raw l k = Ok raw' /\ untouched_outside l raw raw' /\
    forall bx i j, valid B bx -> (i < m)%nat -> (j < n)%nat -> elem raw' l (bx ++ [i; j]) = if Z.of_nat j <=? Z.of_nat i + k then elem raw l (bx ++ [i; j]) else Some zero.
Proof. intros W N An J Sh Il. destruct (stack_zero zero (tril_ix2 zero) raw l k B m n (fun i => range (Z.to_nat (Z.max (Z.of_nat i + k + 1) 0)) n)) as (raw' & E & U & Q); auto.
  - intros r off. unfold tril_ix2, zero_rows. unfold extent. change (l_shape (at_offset (tail_of l (length B)) off)) with (l_shape (tail_of l (length B))). rewrite (tail_shape _ _ _ Sh). cbn [nth]. now rewrite <- (fold_pairs (fun raw s => zset raw (index_uncheck (at_offset (tail_of l (length B)) off) [fst s; snd s]) zero)).
  - intros i j Hi H. apply in_range in H. lia.
  - exists raw'. split; auto. split; auto. intros bx i j V Hi Hj. rewrite Q by auto. rewrite existsb_range. destruct (Z.of_nat j <=? Z.of_nat i + k) eqn:Ek.
    + now replace (_ && _) with false by lia. + now replace (_ && _) with true by lia. Qed.
Lemma triu_ok {T} (zero : T) (raw : list T) l k B m n : wf l -> nonneg l -> anchored l -> injective l -> l_shape l = B ++ [m; n] -> inside l (length raw) -> m = 0%nat \/ Z.of_nat m - 1 + k <= Z.of_nat n ->
  exists raw', triu_kernel zero raw l k = Ok raw' /\ untouched_outside l raw raw' /\
    forall bx i j, valid B bx -> (i < m)%nat -> (j < n)%nat -> elem raw' l (bx ++ [i; j]) = if Z.of_nat i + k <=? Z.of_nat j then elem raw l (bx ++ [i; j]) else Some zero.
Proof. intros W N An J Sh Il Wide. destruct (stack_zero zero (triu_ix2 zero) raw l k B m n (fun i => range 0 (Z.to_nat (Z.max (Z.of_nat i + k) 0)))) as (raw' & E & U & Q); auto.
  - intros r off. unfold triu_ix2, zero_rows. unfold extent. change (l_shape (at_offset (tail_of l (length B)) off)) with (l_shape (tail_of l (length B))). rewrite (tail_shape _ _ _ Sh). cbn [nth]. now rewrite <- (fold_pairs (fun raw s => zset raw (index_uncheck (at_offset (tail_of l (length B)) off) [fst s; snd s]) zero)).
  - intros i j Hi H. apply in_range in H. lia.
  - exists raw'. split; auto. split; auto. intros bx i j V Hi Hj. rewrite Q by auto. rewrite existsb_range. destruct (Z.of_nat i + k <=? Z.of_nat j) eqn:Ek.
    + now replace (_ && _) with false by lia. + now replace (_ && _) with true by lia. Qed.

(** ** blocked order change *)
Lemma in_blocks n x : (exists s, In s (block_starts n) /\ In x (range s (Nat.min (s + block_size) n))) <-> (x < n)%nat.
Proof. split.
  - intros (s & _ & H). apply in_range in H. lia.
  - intro H. exists ((x / block_size) * block_size)%nat. assert (Bz : block_size <> 0%nat) by discriminate. pose proof (Nat.div_mod x block_size Bz) as D. pose proof (Nat.mod_upper_bound x block_size Bz) as M. split.
    + unfold block_starts. apply in_map_iff. exists (x / block_size)%nat. split; auto. apply in_seq. split; [apply Nat.le_0_l|]. cbn [plus]. apply (Nat.lt_le_trans _ (S (x / block_size))); [apply Nat.lt_succ_diag_r|].
      rewrite <- Nat.add_1_r. rewrite <- (Nat.div_add x 1 block_size Bz). apply Nat.div_le_mono; auto. rewrite Nat.mul_1_l. clear D M. lia.
    + apply in_range. rewrite Nat.mul_comm. remember (x / block_size)%nat as q. remember (x mod block_size)%nat as r. clear Heqq Heqr. lia. Qed.
Definition blocked (nrow ncol : nat) : list (nat * nat) := flat_map (fun j_start => flat_map (fun i_start => flat_map (fun j => map (fun i => (i, j))
   (range i_start (Nat.min (i_start + block_size) nrow))) (range j_start (Nat.min (j_start + block_size) ncol))) (block_starts nrow)) (block_starts ncol).
Lemma in_blocked m n i j : In (i, j) (blocked m n) <-> (i < m)%nat /\ (j < n)%nat.
Proof. unfold blocked. rewrite <- !in_blocks. split.
  - intro H. apply in_flat_map in H as (js & Hjs & H). apply in_flat_map in H as (is & His & H). apply in_flat_map in H as (j' & Hj' & H). apply in_map_iff in H as (i' & [= -> ->] & H). split; [exists is|exists js]; auto.
  - intros ((is & His & Hi) & (js & Hjs & Hj)). apply in_flat_map. exists js. split; auto. apply in_flat_map. exists is. split; auto. apply in_flat_map. exists j. split; auto. apply in_map_iff. eauto. Qed.
Lemma r2c_blocked {T} (c : list T) lc a la : orderchange_r2c c lc a la = let* _ := order_checks lc la in
  fold_res (order_cell a (l_offset la) (nth 0 (l_stride la) 0) (l_offset lc) (nth 1 (l_stride lc) 0)) (blocked (extent la 0) (extent la 1)) c.
Proof. unfold orderchange_r2c. apply bind_ext. intros _. cbv zeta. unfold blocked. rewrite fold_res_flat_map. apply fold_res_ext'. intros s1 js. rewrite fold_res_flat_map. apply fold_res_ext'. intros s2 is. rewrite fold_res_flat_map. apply fold_res_ext'. intros s3 j. now rewrite fold_res_map. Qed.
Lemma addr_2 l i j : length (l_stride l) = 2%nat -> addr l [i; j] = l_offset l + Z.of_nat i * nth 0 (l_stride l) 0 + Z.of_nat j * nth 1 (l_stride l) 0.
Proof. intro H. unfold addr. destruct (l_stride l) as [|x [|y [|]]]; try discriminate H. cbn [dot nth]. lia. Qed.
Lemma order_cells_ok {T} (c : list T) lc (a : list T) la m n steps : wf lc -> wf la -> l_shape lc = [m; n] -> l_shape la = [m; n] -> nth 0 (l_stride lc) 0 = 1 -> nth 1 (l_stride la) 0 = 1 -> injective lc -> inside lc (length c) -> inside la (length a) ->
  Permutation steps (blocked m n) -> exists c', fold_res (order_cell a (l_offset la) (nth 0 (l_stride la) 0) (l_offset lc) (nth 1 (l_stride lc) 0)) steps c = Ok c' /\ untouched_outside lc c c' /\
    forall ix, valid [m; n] ix -> elem c' lc ix = elem a la ix.
Proof. intros [Lc _] [La _] Sc Sa C0 A1 J Ic Ia P. assert (In' : forall i j, In (i, j) steps <-> (i < m)%nat /\ (j < n)%nat). { intros i j. rewrite <- in_blocked. split; apply Permutation_in; auto. now symmetry. }
  set (w := fun s : nat * nat => zget a (addr la [fst s; snd s])). set (tgt := fun s : nat * nat => [fst s; snd s]).
  erewrite fold_res_ext'. 2:{ intros s [i j]. instantiate (1 := fun c s => let* y := w s in zset c (addr lc (tgt s)) y). unfold order_cell, w, tgt. cbn [fst snd]. rewrite !addr_2 by (rewrite ?Lc, ?La, ?Sc, ?Sa; reflexivity). rewrite C0, A1, !Z.mul_1_r.
    replace (l_offset lc + Z.of_nat j * nth 1 (l_stride lc) 0 + Z.of_nat i) with (l_offset lc + Z.of_nat i + Z.of_nat j * nth 1 (l_stride lc) 0) by lia. reflexivity. }
  assert (T0 : forall i j, (i < m)%nat -> (j < n)%nat -> exists y, elem a la [i; j] = Some y). { intros i j Hi Hj. apply peek_inside, Ia. rewrite Sa. now apply valid_tuple2. }
  destruct (put_steps c lc tgt w steps) as (c' & E & U & Q & _); auto.
  - intros [i j] H. apply In' in H. unfold tgt. cbn [fst snd]. rewrite Sc. now apply valid_tuple2.
  - intros [i j] H. apply In' in H as (Hi & Hj). destruct (T0 i j Hi Hj) as (y & Hy). exists y. now apply zget_peek.
  - intros [i j] [i' j'] _ _ [= -> ->]. reflexivity.
  - exists c'. split; auto. split; auto. intros ix V. apply valid_cons_inv in V as (i & r & -> & Hi & V). apply valid_cons_inv in V as (j & r' & -> & Hj & V). apply valid_nil in V as ->.
    destruct (Q (i, j)) as (y & Hy & Ey); [now apply In'|]. unfold tgt in Ey. cbn [fst snd] in Ey. rewrite Ey. symmetry. now apply zget_peek. Qed.

(** ** the empty matrix *)
Lemma scalar_good off : 0 <= off -> good (mkLayout [] [] off).
Proof. intro H. apply good_intro; auto. intros _. split; [|exists []; split; [constructor|exact I]]. intros ix V. apply valid_nil in V as ->. unfold addr. cbn. lia. Qed.
Lemma scalar_batches k oa ob : 0 <= oa -> 0 <= ob -> exists full pss, translate_to_col_major RowMajor [mkLayout [] [] oa; mkLayout [] [] ob] OK = Ok full /\ map_res (dispatch_positions k) full = Ok pss /\ zip_all pss = [[oa; ob]].
Proof. intros Ha Hb. destruct (joint_steps k [mkLayout [] [] oa; mkLayout [] [] ob] []) as (full & ixs & pss & E & P & E1 & E2 & _). - discriminate. - repeat apply Forall_cons; try apply scalar_good; auto. - repeat constructor.
  - exists full, pss. split; auto. split; auto. rewrite E2. apply Permutation_sym in P. change (row_major []) with [@nil nat] in P. apply Permutation_length_1_inv in P as ->. cbn. unfold addr. cbn. now rewrite !Z.add_0_r. Qed.
Definition empty_input {T} (t : tensor T) (s : list nat) : Prop := l_shape (t_layout t) = s /\ length (l_stride (t_layout t)) = length s /\ 0 <= l_offset (t_layout t) <= Z.of_nat (length (t_data t)).
Lemma contig_front k s o : forall n, l_shape (new_contig k s 0 o) = firstn n s ++ skipn n s. Proof. intro n. rewrite firstn_skipn. now destruct o. Qed.
Lemma device_pack_empty {T} o (a : list (option T)) la (b : list T) lb u : wf la -> wf lb -> l_shape la = [0%nat] -> l_shape lb = [0; 0]%nat -> 0 <= l_offset la <= Z.of_nat (length a) -> 0 <= l_offset lb <= Z.of_nat (length b) -> device_pack_tri o a la b lb u = Ok a.
Proof. assert (X : forall u la lb, wf la -> wf lb -> l_shape la = [0%nat] -> l_shape lb = [0; 0]%nat -> 0 <= l_offset la <= Z.of_nat (length a) -> 0 <= l_offset lb <= Z.of_nat (length b) -> pack_tri_kernel a la b lb u = Ok a).
  { clear. intros u la lb Wa Wb Sa Sb Oa Ob. unfold pack_tri_kernel, pack_tri_setup. change (-1) with (- (1)). change (-2) with (- (2)). rewrite (split_tail la [] _ 1 Sa) by (cbn; lia). rewrite (split_tail lb [] _ 2 Sb) by (cbn; lia). cbn [bind fst snd].
    unfold head_of. cbn [length firstn]. destruct (scalar_batches Dyn (l_offset la) (l_offset lb)) as (full & pss & E & E1 & E2); try lia. rewrite E. cbn [bind]. rewrite E1. cbn [bind fst snd]. rewrite E2. cbn [fold_res]. rewrite bind_id.
    unfold extent, tail_of. cbn [skipn l_shape]. rewrite Sb. cbn [nth]. destruct u, (_ && _); cbn [pack_one]; unfold pack_triu_contig, pack_tril_contig, pack_triu_general, pack_tril_general; try (replace (_ && _) with true by lia); reflexivity. }
  intros Wa Wb Sa Sb Oa Ob. destruct o; cbn [device_pack_tri]; [now apply X|]. apply X; auto using reverse_wf; cbn [reverse_axes l_shape l_offset]; auto; rewrite ?Sa, ?Sb; auto. Qed.
Lemma device_unpack_empty {T} (zero : T) conj opp o (a : list (option T)) la (b : list T) lb u sy : wf la -> wf lb -> l_shape lb = [0%nat] -> l_shape la = [0; 0]%nat -> 0 <= l_offset la <= Z.of_nat (length a) -> 0 <= l_offset lb <= Z.of_nat (length b) -> device_unpack_tri zero conj opp o a la b lb u sy = Ok a.
Proof. assert (X : forall u la lb, wf la -> wf lb -> l_shape lb = [0%nat] -> l_shape la = [0; 0]%nat -> 0 <= l_offset la <= Z.of_nat (length a) -> 0 <= l_offset lb <= Z.of_nat (length b) -> unpack_tri_kernel zero conj opp a la b lb u sy = Ok a).
  { clear. intros u la lb Wa Wb Sb Sa Oa Ob. unfold unpack_tri_kernel, unpack_tri_setup. change (-1) with (- (1)). change (-2) with (- (2)). rewrite (split_tail lb [] _ 1 Sb) by (cbn; lia). rewrite (split_tail la [] _ 2 Sa) by (cbn; lia). cbn [bind fst snd].
    unfold head_of. cbn [length firstn]. destruct (scalar_batches Dyn (l_offset la) (l_offset lb)) as (full & pss & E & E1 & E2); try lia. rewrite E. cbn [bind]. rewrite E1. cbn [bind fst snd]. rewrite E2. cbn [fold_res]. rewrite bind_id.
    unfold extent, tail_of. cbn [skipn l_shape]. rewrite Sa. cbn [nth]. destruct (_ && _); cbn [unpack_one]; unfold unpack_contig, unpack_general; try (replace (_ && _) with true by lia); destruct u; reflexivity. }
  intros Wa Wb Sa Sb Oa Ob. destruct o; cbn [device_unpack_tri]; [now apply X|]. apply X; auto using reverse_wf; cbn [reverse_axes l_shape l_offset]; auto; rewrite ?Sa, ?Sb; auto. Qed.
Lemma pack_tri_empty {T} o (t : tensor T) u : wf (t_layout t) -> l_shape (t_layout t) = [0; 0]%nat -> 0 <= l_offset (t_layout t) <= Z.of_nat (length (t_data t)) ->
  exists r, pack_tri_f o t u = Ok r /\ tensor_ok r /\ l_shape (t_layout r) = [0%nat] /\ l_offset (t_layout r) = 0.
Proof. intros W Sh Off. unfold pack_tri_f. cbv zeta.
  assert (X : match o with
            | RowMajor => let* p := dim_split_at (t_layout t) (-2) in
                          let* _ := check (extent (snd p) 0 =? extent (snd p) 1)%nat InvalidLayout in
                          Ok (l_shape (fst p) ++ [(extent (snd p) 0 * (extent (snd p) 0 + 1) / 2)%nat])
            | ColMajor => let* p := dim_split_at (t_layout t) 2 in
                          let* _ := check (extent (fst p) 0 =? extent (fst p) 1)%nat InvalidLayout in
                          Ok ((extent (fst p) 0 * (extent (fst p) 0 + 1) / 2)%nat :: l_shape (snd p))
            end = Ok [0%nat]).
  { destruct o; unfold dim_split_at, ndim; rewrite Sh; reflexivity. }
  rewrite X. cbn [bind]. clear X. destruct (tri_out o (t_layout t) [0%nat]) as (o' & ->). destruct (contig_facts Dyn [0%nat] o') as (Ga & J & Cv & Sa & O). destruct (bounds_covers _ _ (proj1 Ga) O Cv) as (lo & ->). cbn [bind snd].
  rewrite device_pack_empty; auto; [|apply Ga|rewrite O; cbn; lia]. cbn [bind]. change (uninit T (Z.of_nat (size [0%nat]))) with (@nil (option T)). cbn [assume_init map_res bind].
  rewrite (tensor_new_ok (@nil T) _ Ga) by (auto; now apply covers_inside). eexists. split; [reflexivity|]. split; auto. apply tensor_ok_good. split; auto. now apply covers_inside. Qed.
Lemma unpack_tri_empty {T} (zero : T) conj opp o (t : tensor T) u sy : wf (t_layout t) -> l_shape (t_layout t) = [0%nat] -> 0 <= l_offset (t_layout t) <= Z.of_nat (length (t_data t)) ->
  exists r, unpack_tri_f zero conj opp o t u sy = Ok r /\ tensor_ok r /\ l_shape (t_layout r) = [0; 0]%nat /\ l_offset (t_layout r) = 0.
Proof. intros W Sh Off. unfold unpack_tri_f. cbv zeta.
  assert (X : match o with
              | RowMajor => let* p := dim_split_at (t_layout t) (-1) in
                            let* _ := check (Nat.sqrt (2 * extent (snd p) 0) * (Nat.sqrt (2 * extent (snd p) 0) + 1) / 2 =? extent (snd p) 0)%nat InvalidLayout in
                            Ok (l_shape (fst p) ++ [Nat.sqrt (2 * extent (snd p) 0); Nat.sqrt (2 * extent (snd p) 0)])
              | ColMajor => let* p := dim_split_at (t_layout t) 1 in
                            let* _ := check (Nat.sqrt (2 * extent (fst p) 0) * (Nat.sqrt (2 * extent (fst p) 0) + 1) / 2 =? extent (fst p) 0)%nat InvalidLayout in
                            Ok (Nat.sqrt (2 * extent (fst p) 0) :: Nat.sqrt (2 * extent (fst p) 0) :: l_shape (snd p))
              end = Ok [0; 0]%nat).
  { destruct o; unfold dim_split_at, ndim; rewrite Sh; reflexivity. }
  rewrite X. cbn [bind]. clear X. destruct (tri_out o (t_layout t) [0; 0]%nat) as (o' & ->). destruct (contig_facts Dyn [0; 0]%nat o') as (Ga & J & Cv & Sa & O). destruct (bounds_covers _ _ (proj1 Ga) O Cv) as (lo & ->). cbn [bind snd].
  rewrite device_unpack_empty; auto; [|apply Ga|rewrite O; cbn; lia]. cbn [bind]. change (uninit T (Z.of_nat (size [0; 0]%nat))) with (@nil (option T)). cbn [assume_init map_res bind].
  rewrite (tensor_new_ok (@nil T) _ Ga) by (auto; now apply covers_inside). eexists. split; [reflexivity|]. split; auto. apply tensor_ok_good. split; auto. now apply covers_inside. Qed.
