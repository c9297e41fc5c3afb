(** Proofs about triangular packing: the operations. *)
From Verif Require Import Base Spec Spec_Matmul Spec_Tri P_Index P_List M_Layout P_Layout P_Bounds P_Contig P_Strides M_Indexer P_Indexer M_Broadcast P_Broadcast M_Rearr P_Rearr P_BinOp M_Iter P_Iter M_Kernel P_Kernel Q_Kernel M_Tensor P_Tensor Q_Tensor Q_Copy P_Arg P_Axes M_Matmul P_Matmul P_Matmul2 P_Matmul3 P_Matmul4 Q_Matmul M_Tri P_Tri P_Tri2.
Local Open Scope Z_scope.

Lemma cells_nonempty o u n : n <> 0%nat -> length (tri_cells o u n) <> 0%nat.
Proof. intro H. pose proof (tri_len o u n). nia. Qed.
Lemma size_1 n : size [n] = n. Proof. rewrite size_cons. change (size []) with 1%nat. lia. Qed.
Lemma size_2 m n : size [m; n] = (m * n)%nat. Proof. now rewrite size_cons, size_1. Qed.

Lemma pack_setup {T} la (b : list T) lb u B n : n <> 0%nat -> good la -> good lb -> l_shape la = B ++ [length (tri_cells RowMajor u n)] -> l_shape lb = B ++ [n; n] ->
  exists ixs, Permutation ixs (row_major B) /\ pack_tri_setup la b lb u = Ok (map (fun bx => [addr (head_of la (length B)) bx; addr (head_of lb (length B)) bx]) ixs,
    pack_one u (c_contig (tail_of la (length B)) && c_contig (tail_of lb (length B))) (tail_of la (length B)) (tail_of lb (length B)) b n).
Proof. intros Hn Ga Gb Sa Sb. destruct (batches Dyn la lb B _ _ Ga Gb Sa Sb) as (full & ixs & pss & E & P & E1 & E2). { rewrite size_1. now apply cells_nonempty. } { rewrite size_2. nia. }
  exists ixs. split; auto. unfold pack_tri_setup. change (-1) with (- (1)). change (-2) with (- (2)). rewrite (split_tail la B _ 1 Sa) by (cbn; lia). rewrite (split_tail lb B _ 2 Sb) by (cbn; lia). cbn [bind fst snd].
  rewrite E. cbn [bind]. rewrite E1. cbn [bind]. rewrite E2. unfold extent. rewrite (tail_shape _ _ _ Sb). reflexivity. Qed.
Lemma pack_serial_row {T} (a : list (option T)) la (b : list T) lb u B n : n <> 0%nat -> good la -> good lb -> injective la -> l_shape la = B ++ [length (tri_cells RowMajor u n)] -> l_shape lb = B ++ [n; n] ->
  inside la (length a) -> inside lb (length b) -> exists a', pack_tri_kernel a la b lb u = Ok a' /\ untouched_outside la a a' /\ is_packed RowMajor u n B b lb a' la.
Proof. intros Hn Ga Gb J Sa Sb Ia Ib. destruct (pack_setup la b lb u B n Hn Ga Gb Sa Sb) as (ixs & P & E). unfold pack_tri_kernel. rewrite E. cbn [bind fst snd]. rewrite fold_res_map. apply pack_fold; auto. Qed.
Lemma pack_rayon_row {T} (a : list (option T)) la (b : list T) lb u B n r : n <> 0%nat -> good la -> good lb -> injective la -> l_shape la = B ++ [length (tri_cells RowMajor u n)] -> l_shape lb = B ++ [n; n] ->
  inside la (length a) -> inside lb (length b) -> pack_tri_rayon a la b lb u r -> exists a', r = Ok a' /\ untouched_outside la a a' /\ is_packed RowMajor u n B b lb a' la.
Proof. intros Hn Ga Gb J Sa Sb Ia Ib. destruct (pack_setup la b lb u B n Hn Ga Gb Sa Sb) as (ixs & P & E). unfold pack_tri_rayon. rewrite E. cbn [fst snd]. intros (steps & Ps & ->).
  apply Permutation_map_inv in Ps as (ixs' & -> & P'). rewrite fold_res_map. apply pack_fold; auto. now rewrite <- P', P. Qed.

Section Unpack.
  Context {T : Type} (zero : T) (conj opp : T -> T).
  Lemma unpack_setup la (b : list T) lb u sy B n : n <> 0%nat -> good la -> good lb -> l_shape lb = B ++ [length (tri_cells RowMajor u n)] -> l_shape la = B ++ [n; n] ->
    exists ixs, Permutation ixs (row_major B) /\ unpack_tri_setup zero conj opp la b lb u sy = Ok (map (fun bx => [addr (head_of la (length B)) bx; addr (head_of lb (length B)) bx]) ixs,
      unpack_one zero conj opp u sy (c_contig (tail_of la (length B)) && c_contig (tail_of lb (length B))) (tail_of la (length B)) (tail_of lb (length B)) b n).
  Proof. intros Hn Ga Gb Sb Sa. destruct (batches Dyn la lb B _ _ Ga Gb Sa Sb) as (full & ixs & pss & E & P & E1 & E2). { rewrite size_2. nia. } { rewrite size_1. now apply cells_nonempty. }
    exists ixs. split; auto. unfold unpack_tri_setup. change (-1) with (- (1)). change (-2) with (- (2)). rewrite (split_tail lb B _ 1 Sb) by (cbn; lia). rewrite (split_tail la B _ 2 Sa) by (cbn; lia). cbn [bind fst snd].
    rewrite E. cbn [bind]. rewrite E1. cbn [bind]. rewrite E2. unfold extent. rewrite (tail_shape _ _ _ Sa). reflexivity. Qed.
  Lemma unpack_serial_row (a : list (option T)) la (b : list T) lb u sy B n : n <> 0%nat -> sy <> NoSymm -> good la -> good lb -> injective la -> l_shape lb = B ++ [length (tri_cells RowMajor u n)] -> l_shape la = B ++ [n; n] ->
    inside la (length a) -> inside lb (length b) -> exists a', unpack_tri_kernel zero conj opp a la b lb u sy = Ok a' /\ untouched_outside la a a' /\ is_unpacked zero conj opp RowMajor u sy n B b lb a' la.
  Proof. intros Hn Hs Ga Gb J Sa Sb Ia Ib. destruct (unpack_setup la b lb u sy B n Hn Ga Gb Sa Sb) as (ixs & P & E). unfold unpack_tri_kernel. rewrite E. cbn [bind fst snd]. rewrite fold_res_map. apply unpack_fold; auto. Qed.
  Lemma unpack_rayon_row (a : list (option T)) la (b : list T) lb u sy B n r : n <> 0%nat -> sy <> NoSymm -> good la -> good lb -> injective la -> l_shape lb = B ++ [length (tri_cells RowMajor u n)] -> l_shape la = B ++ [n; n] ->
    inside la (length a) -> inside lb (length b) -> unpack_tri_rayon zero conj opp a la b lb u sy r -> exists a', r = Ok a' /\ untouched_outside la a a' /\ is_unpacked zero conj opp RowMajor u sy n B b lb a' la.
  Proof. intros Hn Hs Ga Gb J Sa Sb Ia Ib. destruct (unpack_setup la b lb u sy B n Hn Ga Gb Sa Sb) as (ixs & P & E). unfold unpack_tri_rayon. rewrite E. cbn [fst snd]. intros (steps & Ps & ->).
    apply Permutation_map_inv in Ps as (ixs' & -> & P'). rewrite fold_res_map. apply unpack_fold; auto. now rewrite <- P', P. Qed.
End Unpack.

(** ** column-major *)
Lemma elem_rev {C} (c : list C) l ix : length (l_stride l) = length ix -> elem c (reverse_axes l) ix = elem c l (rev ix).
Proof. intro H. unfold elem. now rewrite reverse_addr'. Qed.
Lemma rev_untouched {C} l (c c' : list C) : wf l -> untouched_outside (reverse_axes l) c c' -> untouched_outside l c c'.
Proof. intros [L _] [H1 H2]. split; auto. intros p H. apply H2. intros ix V. pose proof (valid_length _ _ V) as LV. cbn [reverse_axes l_shape] in V, LV. rewrite rev_length in LV. apply valid_rev in V. rewrite rev_involutive in V. rewrite reverse_addr' by lia. auto. Qed.
Lemma len_flip o u n : length (tri_cells o (flip_uplo u) n) = length (tri_cells o u n).
Proof. pose proof (tri_len o u n). pose proof (tri_len o (flip_uplo u) n). lia. Qed.
Lemma len_order o u n : length (tri_cells o u n) = length (tri_cells RowMajor u n).
Proof. pose proof (tri_len o u n). pose proof (tri_len RowMajor u n). lia. Qed.
Lemma nth_col u n p i j : nth_error (tri_cells ColMajor u n) p = Some (i, j) <-> nth_error (tri_cells RowMajor (flip_uplo u) n) p = Some (j, i).
Proof. rewrite tri_flip, nth_error_map. destruct (nth_error _ p) as [[x y]|]; unfold swap2; cbn; split; intro H; try discriminate H; injection H as -> ->; reflexivity. Qed.
Lemma col_shapes {la : layout} {s} : l_shape la = s -> l_shape (reverse_axes la) = rev s.
Proof. intros <-. reflexivity. Qed.

Lemma device_pack_ok {T} o (a : list (option T)) la (b : list T) lb u B n : n <> 0%nat -> good la -> good lb -> injective la -> l_shape la = vec o B (length (tri_cells o u n)) -> l_shape lb = mat o B n n ->
  inside la (length a) -> inside lb (length b) -> exists a', device_pack_tri o a la b lb u = Ok a' /\ untouched_outside la a a' /\ is_packed o u n B b lb a' la.
Proof. intros Hn Ga Gb J Sa Sb Ia Ib. destruct o; cbn [device_pack_tri]. { now apply pack_serial_row. }
  pose proof (proj1 Ga) as Wa. pose proof (proj1 Gb) as Wb. apply col_shapes in Sa. apply col_shapes in Sb. rewrite rev_vec in Sa. rewrite rev_mat in Sb. cbn [vec mat] in Sa, Sb.
  destruct (pack_serial_row a (reverse_axes la) b (reverse_axes lb) (flip_uplo u) (rev B) n) as (a' & E & U & Q); auto using good_reverse, rev_injective, rev_inside.
  { rewrite Sa. now rewrite len_flip, (len_order ColMajor). }
  exists a'. split; auto. split; [now apply rev_untouched|]. intros bx p i j V H. apply nth_col in H. destruct (Q (rev bx) p j i) as (x & Hx & Ha); auto. { now apply valid_rev. }
  exists x. pose proof (valid_length _ _ V). assert (La : length (l_stride la) = S (length B)). { rewrite (proj1 Wa), <- (rev_length (l_shape la)). change (rev (l_shape la)) with (l_shape (reverse_axes la)). rewrite Sa, app_length, rev_length. cbn. lia. }
  assert (Lb : length (l_stride lb) = S (S (length B))). { rewrite (proj1 Wb), <- (rev_length (l_shape lb)). change (rev (l_shape lb)) with (l_shape (reverse_axes lb)). rewrite Sb, app_length, rev_length. cbn. lia. }
  rewrite elem_rev in Hx by (cbn [mat]; rewrite app_length, rev_length; cbn; lia). rewrite elem_rev in Ha by (cbn [vec]; rewrite app_length, rev_length; cbn; lia). rewrite rev_mat, rev_involutive in Hx. rewrite rev_vec, rev_involutive in Ha. auto. Qed.
Lemma device_unpack_ok {T} (zero : T) conj opp o (a : list (option T)) la (b : list T) lb u sy B n : n <> 0%nat -> sy <> NoSymm -> good la -> good lb -> injective la -> l_shape lb = vec o B (length (tri_cells o u n)) -> l_shape la = mat o B n n ->
  inside la (length a) -> inside lb (length b) -> exists a', device_unpack_tri zero conj opp o a la b lb u sy = Ok a' /\ untouched_outside la a a' /\ is_unpacked zero conj opp o u sy n B b lb a' la.
Proof. intros Hn Hs Ga Gb J Sb Sa Ia Ib. destruct o; cbn [device_unpack_tri]. { now apply unpack_serial_row. }
  pose proof (proj1 Ga) as Wa. pose proof (proj1 Gb) as Wb. apply col_shapes in Sa. apply col_shapes in Sb. rewrite rev_vec in Sb. rewrite rev_mat in Sa. cbn [vec mat] in Sa, Sb.
  destruct (unpack_serial_row zero conj opp a (reverse_axes la) b (reverse_axes lb) (flip_uplo u) sy (rev B) n) as (a' & E & U & Q); auto using good_reverse, rev_injective, rev_inside.
  { rewrite Sb. now rewrite len_flip, (len_order ColMajor). }
  exists a'. split; auto. split; [now apply rev_untouched|]. intros bx p i j V H. apply nth_col in H. destruct (Q (rev bx) p j i) as (x & Hx & Ha1 & Ha2); auto. { now apply valid_rev. }
  exists x. pose proof (valid_length _ _ V). assert (Lb : length (l_stride lb) = S (length B)). { rewrite (proj1 Wb), <- (rev_length (l_shape lb)). change (rev (l_shape lb)) with (l_shape (reverse_axes lb)). rewrite Sb, app_length, rev_length. cbn. lia. }
  assert (La : length (l_stride la) = S (S (length B))). { rewrite (proj1 Wa), <- (rev_length (l_shape la)). change (rev (l_shape la)) with (l_shape (reverse_axes la)). rewrite Sa, app_length, rev_length. cbn. lia. }
  assert (X : forall i j, elem a' (reverse_axes la) (mat RowMajor (rev bx) j i) = elem a' la (mat ColMajor bx i j)). { intros i0 j0. rewrite elem_rev by (cbn [mat]; rewrite app_length, rev_length; cbn; lia). now rewrite rev_mat, rev_involutive. }
  rewrite X in Ha1. rewrite !X in Ha2. rewrite elem_rev in Hx by (cbn [vec]; rewrite app_length, rev_length; cbn; lia). rewrite rev_vec, rev_involutive in Hx. split; [exact Hx|]. split; intro Hij; [apply Ha1|apply Ha2]; congruence. Qed.

(** ** the tensor operations *)
Lemma tri_out o lb s : exists o', tri_out_layout o lb s = new_contig Dyn s 0 o'.
Proof. unfold tri_out_layout. destruct (c_prefer lb), (f_prefer lb), o; try (now exists RowMajor); now exists ColMajor. Qed.
Lemma contig_facts k s o : good (new_contig k s 0 o) /\ injective (new_contig k s 0 o) /\ covers (new_contig k s 0 o) (size s) /\ l_shape (new_contig k s 0 o) = s /\ l_offset (new_contig k s 0 o) = 0.
Proof. split; [apply contig_good; lia|]. split; [eapply perm_injective, contig_perm|]. split; [apply perm_covers, contig_perm|]. now destruct o. Qed.
Lemma dim_split_front l T B (n : Z) : l_shape l = T ++ B -> n = Z.of_nat (length T) -> dim_split_at l n = Ok (head_of l (length T), tail_of l (length T)).
Proof. intros S ->. unfold dim_split_at, ndim. rewrite S, app_length. replace (_ <? 0) with false by lia. replace (negb _) with false by lia. rewrite Nat2Z.id. unfold head_of, tail_of. now rewrite S. Qed.

Lemma vec_valid o B N bx p : valid B bx -> (p < N)%nat -> valid (vec o B N) (vec o bx p).
Proof. intros V H. pose proof (valid_length _ _ V). destruct o; cbn [vec]. - now apply valid_vec. - now apply valid_cons. Qed.
Lemma mat_valid o B M N bx i j : valid B bx -> (i < M)%nat -> (j < N)%nat -> valid (mat o B M N) (mat o bx i j).
Proof. intros V H H'. pose proof (valid_length _ _ V). destruct o; cbn [mat]. - now apply valid_mat. - now rewrite !valid_cons. Qed.
Lemma vec_valid_inv o B N ix : valid (vec o B N) ix -> exists bx p, ix = vec o bx p /\ valid B bx /\ (p < N)%nat.
Proof. destruct o; cbn [vec]; intro V. - now apply valid_vec_inv in V. - apply valid_cons_inv in V as (p & bx & -> & H & V). eauto. Qed.
Lemma mat_valid_inv o B M N ix : valid (mat o B M N) ix -> exists bx i j, ix = mat o bx i j /\ valid B bx /\ (i < M)%nat /\ (j < N)%nat.
Proof. destruct o; cbn [mat]; intro V. - now apply valid_mat_inv in V. - apply valid_cons_inv in V as (i & r & -> & H & V). apply valid_cons_inv in V as (j & bx & -> & H' & V). exists bx, i, j. auto. Qed.
Lemma vec_inj o bx p bx' p' : vec o bx p = vec o bx' p' -> bx = bx' /\ p = p'.
Proof. destruct o; cbn [vec]; intro E. - apply app_inj_2 in E as (-> & [= ->]); auto. - now injection E as -> ->. Qed.
Lemma mat_inj o bx i j bx' i' j' : mat o bx i j = mat o bx' i' j' -> bx = bx' /\ i = i' /\ j = j'.
Proof. destruct o; cbn [mat]; intro E. - now apply app2_inj in E. - now injection E as -> -> ->. Qed.

Lemma pack_tri_ok {T} o (t : tensor T) u B n : tensor_ok t -> n <> 0%nat -> l_shape (t_layout t) = mat o B n n ->
  exists r, pack_tri_f o t u = Ok r /\ tensor_ok r /\ l_shape (t_layout r) = vec o B (length (tri_cells o u n)) /\
    forall bx p i j, valid B bx -> nth_error (tri_cells o u n) p = Some (i, j) -> at_ r (vec o bx p) = at_ t (mat o bx i j) /\ at_ t (mat o bx i j) <> None.
Proof. intros Ok0 Hn Sh. apply tensor_ok_good in Ok0 as (Gb & Ib). unfold pack_tri_f.
  assert (X : match o with
            | RowMajor => let* p := dim_split_at (t_layout t) (-2) in
                          let* _ := check (extent (snd p) 0 =? extent (snd p) 1)%nat InvalidLayout in
                          let n := extent (snd p) 0 in Ok (l_shape (fst p) ++ [(n * (n + 1) / 2)%nat])
            | ColMajor => let* p := dim_split_at (t_layout t) 2 in
                          let* _ := check (extent (fst p) 0 =? extent (fst p) 1)%nat InvalidLayout in
                          let n := extent (fst p) 0 in Ok ((n * (n + 1) / 2)%nat :: l_shape (snd p))
            end = Ok (vec o B (length (tri_cells o u n)))).
  { pose proof (tri_len_div o u n) as D. destruct o; cbn [mat vec] in *.
    - change (-2) with (- (2)). rewrite (split_tail _ B [n; n] 2 Sh) by (cbn; lia). cbn [bind fst snd]. unfold extent. rewrite (tail_shape _ _ _ Sh), (head_shape _ _ _ Sh). cbn [nth]. rewrite Nat.eqb_refl. cbn [check bind]. now rewrite D.
    - rewrite (dim_split_front _ [n; n] B 2 Sh) by reflexivity. cbn [bind fst snd]. unfold extent. rewrite (tail_shape _ [n; n] B Sh), (head_shape _ [n; n] B Sh). cbn [nth]. rewrite Nat.eqb_refl. cbn [check bind]. now rewrite D. }
  cbv zeta in X |- *. rewrite X. cbn [bind]. clear X. destruct (tri_out o (t_layout t) (vec o B (length (tri_cells o u n)))) as (o' & ->).
  destruct (contig_facts Dyn (vec o B (length (tri_cells o u n))) o') as (Ga & J & Cv & Sa & O). set (la := new_contig Dyn _ 0 o') in *.
  destruct (bounds_covers la _ (proj1 Ga) O Cv) as (lo & ->). cbn [bind snd]. set (N := size (vec o B (length (tri_cells o u n)))) in *.
  assert (LU : length (uninit T (Z.of_nat N)) = N) by (rewrite uninit_length by lia; lia).
  destruct (device_pack_ok o (uninit T (Z.of_nat N)) la (t_data t) (t_layout t) u B n) as (a' & E & [L U] & Q); auto. { rewrite LU. now apply covers_inside. }
  rewrite E. cbn [bind]. destruct (fresh_result la a' (fun ix v => forall bx p i j, ix = vec o bx p -> valid B bx -> nth_error (tri_cells o u n) p = Some (i, j) -> elem (t_data t) (t_layout t) (mat o bx i j) = Some v)) as (d & E1 & E2 & L2 & I2 & Q2); auto.
  { now rewrite L, LU. }
  { intros ix V. rewrite Sa in V. apply vec_valid_inv in V as (bx & p & -> & V & Hp). destruct (nth_error (tri_cells o u n) p) as [[i j]|] eqn:Ec. 2:{ apply nth_error_None in Ec. lia. }
    destruct (Q bx p i j V Ec) as (x & Hx & Ha). exists x. split; auto. intros bx' p' i' j' Ev V' Ec'. apply vec_inj in Ev as (<- & <-). congruence. }
  rewrite E1. cbn [bind]. rewrite E2. exists (mkTensor d la). split; auto. split. { apply tensor_ok_good. auto. } split; auto.
  intros bx p i j V Ec. destruct (Q2 (vec o bx p)) as (v & Hv & Pv). { rewrite Sa. apply vec_valid; auto. apply nth_error_Some. congruence. }
  specialize (Pv bx p i j eq_refl V Ec). unfold at_. cbn [t_data t_layout]. split; congruence. Qed.

Lemma rank_short l (k : Z) : (Z.of_nat (ndim l) < Z.abs k) -> exists e, dim_split_at l k = Err e.
Proof. intro H. unfold dim_split_at. destruct (k <? 0) eqn:E; replace (negb _) with true by lia; eauto. Qed.
Lemma pack_tri_err {T} o (t : tensor T) u : (ndim (t_layout t) < 2)%nat \/ (exists B m n, l_shape (t_layout t) = mat o B m n /\ m <> n) -> exists e, pack_tri_f o t u = Err e.
Proof. intros [H|(B & m & n & Sh & H)]; unfold pack_tri_f.
  - destruct o; [destruct (rank_short (t_layout t) (-2)) as (e & ->)|destruct (rank_short (t_layout t) 2) as (e & ->)]; try lia; cbn [bind]; eauto.
  - destruct o; cbn [mat] in Sh.
    + change (-2) with (- (2)). rewrite (split_tail _ B [m; n] 2 Sh) by (cbn; lia). cbn [bind fst snd]. unfold extent. rewrite (tail_shape _ _ _ Sh). cbn [nth]. replace (m =? n)%nat with false by lia. cbn [check bind]. eauto.
    + rewrite (dim_split_front _ [m; n] B 2 Sh) by reflexivity. cbn [bind fst snd]. unfold extent. rewrite (head_shape _ [m; n] B Sh). cbn [nth]. replace (m =? n)%nat with false by lia. cbn [check bind]. eauto. Qed.

Lemma sqrt_tri N n : (2 * N = n * (n + 1))%nat -> Nat.sqrt (2 * N) = n.
Proof. intro H. apply Nat.sqrt_unique. rewrite H. split; nia. Qed.

Lemma unpack_tri_ok {T} (zero : T) conj opp o (t : tensor T) u sy B n : tensor_ok t -> n <> 0%nat -> sy <> NoSymm -> l_shape (t_layout t) = vec o B (length (tri_cells o u n)) ->
  exists r, unpack_tri_f zero conj opp o t u sy = Ok r /\ tensor_ok r /\ l_shape (t_layout r) = mat o B n n /\
    forall bx p i j, valid B bx -> nth_error (tri_cells o u n) p = Some (i, j) -> exists x, at_ t (vec o bx p) = Some x /\
      (i = j -> at_ r (mat o bx i j) = Some (on_diagonal zero conj sy x)) /\
      (i <> j -> at_ r (mat o bx i j) = Some x /\ at_ r (mat o bx j i) = Some (mirrored conj opp sy x)).
Proof. intros Ok0 Hn Hsy Sh. apply tensor_ok_good in Ok0 as (Gb & Ib). unfold unpack_tri_f.
  assert (X : match o with
              | RowMajor => let* p := dim_split_at (t_layout t) (-1) in
                            let n_tp := extent (snd p) 0 in
                            let n := Nat.sqrt (2 * n_tp) in
                            let* _ := check (n * (n + 1) / 2 =? n_tp)%nat InvalidLayout in
                            Ok (l_shape (fst p) ++ [n; n])
              | ColMajor => let* p := dim_split_at (t_layout t) 1 in
                            let n_tp := extent (fst p) 0 in
                            let n := Nat.sqrt (2 * n_tp) in
                            let* _ := check (n * (n + 1) / 2 =? n_tp)%nat InvalidLayout in
                            Ok (n :: n :: l_shape (snd p))
              end = Ok (mat o B n n)).
  { pose proof (tri_len_div o u n) as D. pose proof (sqrt_tri _ _ (tri_len o u n)) as Q. destruct o; cbn [mat vec] in *.
    - change (-1) with (- (1)). rewrite (split_tail _ B _ 1 Sh) by (cbn; lia). cbn [bind fst snd]. unfold extent. rewrite (tail_shape _ _ _ Sh), (head_shape _ _ _ Sh). cbn [nth]. cbv zeta. rewrite Q, D, Nat.eqb_refl. reflexivity.
    - rewrite (dim_split_front _ [length (tri_cells ColMajor u n)] B 1 Sh) by reflexivity. cbn [bind fst snd]. unfold extent. rewrite (tail_shape _ [_] B Sh), (head_shape _ [_] B Sh). cbn [nth]. cbv zeta. rewrite Q, D, Nat.eqb_refl. reflexivity. }
  cbv zeta in X |- *. rewrite X. cbn [bind]. clear X. destruct (tri_out o (t_layout t) (mat o B n n)) as (o' & ->).
  destruct (contig_facts Dyn (mat o B n n) o') as (Ga & J & Cv & Sa & O). set (la := new_contig Dyn _ 0 o') in *.
  destruct (bounds_covers la _ (proj1 Ga) O Cv) as (lo & ->). cbn [bind snd]. set (N := size (mat o B n n)) in *.
  assert (LU : length (uninit T (Z.of_nat N)) = N) by (rewrite uninit_length by lia; lia).
  destruct (device_unpack_ok zero conj opp o (uninit T (Z.of_nat N)) la (t_data t) (t_layout t) u sy B n) as (a' & E & [L U] & Q); auto. { rewrite LU. now apply covers_inside. }
  rewrite E. cbn [bind]. destruct (fresh_result la a' (fun ix v => elem a' la ix = Some (Some v))) as (d & E1 & E2 & L2 & I2 & Q2); auto.
  { now rewrite L, LU. }
  { intros ix V. rewrite Sa in V. apply mat_valid_inv in V as (bx & i & j & -> & V & Hi & Hj).
    assert (In (i, j) (tri_cells o u n) \/ In (j, i) (tri_cells o u n)) as [H|H]. { rewrite !tri_in_prod. cbn [fst snd]. destruct u; cbn; lia. }
    - apply In_nth_error in H as (p & H). destruct (Q bx p i j V H) as (x & _ & H1 & H2). destruct (Nat.eq_dec i j) as [e|e]; [specialize (H1 e)|specialize (H2 e) as (H2 & _)]; eauto.
    - apply In_nth_error in H as (p & H). destruct (Q bx p j i V H) as (x & _ & H1 & H2). destruct (Nat.eq_dec j i) as [e|e]; [specialize (H1 e); subst i|specialize (H2 e) as (_ & H2)]; eauto. }
  rewrite E1. cbn [bind]. rewrite E2. exists (mkTensor d la). split; auto. split. { apply tensor_ok_good. auto. } split; auto.
  assert (R : forall bx i j v, valid B bx -> (i < n)%nat -> (j < n)%nat -> elem a' la (mat o bx i j) = Some (Some v) -> elem d la (mat o bx i j) = Some v).
  { intros bx i j v V Hi Hj H. destruct (Q2 (mat o bx i j)) as (w & Hw & H'); [rewrite Sa; now apply mat_valid|]. congruence. }
  intros bx p i j V H. destruct (Q bx p i j V H) as (x & Hx & H1 & H2). exists x. apply nth_error_In, tri_in_prod in H. cbn [fst snd] in H. unfold at_. cbn [t_data t_layout]. split; auto. split.
  - intro e. apply R; auto; lia. - intro e. destruct (H2 e) as (Ha & Hb). split; apply R; auto; lia. Qed.
Lemma unpack_tri_err {T} (zero : T) conj opp o (t : tensor T) u sy : ndim (t_layout t) = 0%nat \/ (exists B N, l_shape (t_layout t) = vec o B N /\ forall n, N <> length (tri_cells o u n)) -> exists e, unpack_tri_f zero conj opp o t u sy = Err e.
Proof. intros [H|(B & N & Sh & H)]; unfold unpack_tri_f; cbv zeta.
  - destruct o; [destruct (rank_short (t_layout t) (-1)) as (e & ->)|destruct (rank_short (t_layout t) 1) as (e & ->)]; try lia; cbn [bind]; eauto.
  - assert (X : (Nat.sqrt (2 * N) * (Nat.sqrt (2 * N) + 1) / 2 =? N)%nat = false). { apply Nat.eqb_neq. intro E. apply (H (Nat.sqrt (2 * N))). rewrite <- (tri_len_div o u (Nat.sqrt (2 * N))). auto. }
    destruct o; cbn [vec] in Sh.
    + change (-1) with (- (1)). rewrite (split_tail _ B [N] 1 Sh) by (cbn; lia). cbn [bind fst snd]. unfold extent. rewrite (tail_shape _ _ _ Sh). cbn [nth]. rewrite X. cbn [check bind]. eauto.
    + rewrite (dim_split_front _ [N] B 1 Sh) by reflexivity. cbn [bind fst snd]. unfold extent. rewrite (head_shape _ [N] B Sh). cbn [nth]. rewrite X. cbn [check bind]. eauto. Qed.

(** ** round trips *)
Lemma unpack_pack_ok {T} (zero : T) conj opp o (t : tensor T) u B n : tensor_ok t -> n <> 0%nat -> l_shape (t_layout t) = vec o B (length (tri_cells o u n)) ->
  exists m r, unpack_tri_f zero conj opp o t u Sy = Ok m /\ pack_tri_f o m u = Ok r /\ l_shape (t_layout r) = l_shape (t_layout t) /\ forall ix, valid (l_shape (t_layout t)) ix -> at_ r ix = at_ t ix.
Proof. intros Ht Hn Sh. destruct (unpack_tri_ok zero conj opp o t u Sy B n Ht Hn) as (m & Em & Om & Sm & Qm); auto; [discriminate|]. destruct (pack_tri_ok o m u B n Om Hn Sm) as (r & Er & Or & Sr & Qr).
  exists m, r. split; auto. split; auto. split; [congruence|]. intros ix V. rewrite Sh in V. apply vec_valid_inv in V as (bx & p & -> & V & Hp). destruct (nth_error (tri_cells o u n) p) as [[i j]|] eqn:Ec. 2:{ apply nth_error_None in Ec. lia. }
  destruct (Qr bx p i j V Ec) as (-> & _). destruct (Qm bx p i j V Ec) as (x & -> & H1 & H2). destruct (Nat.eq_dec i j) as [e|e]; [now apply H1|now apply H2]. Qed.
Lemma pack_unpack_ok {T} (zero : T) conj opp o (t : tensor T) u B n : tensor_ok t -> n <> 0%nat -> l_shape (t_layout t) = mat o B n n ->
  (forall bx i j, valid B bx -> (i < n)%nat -> (j < n)%nat -> at_ t (mat o bx i j) = at_ t (mat o bx j i)) ->
  exists m r, pack_tri_f o t u = Ok m /\ unpack_tri_f zero conj opp o m u Sy = Ok r /\ l_shape (t_layout r) = l_shape (t_layout t) /\ forall ix, valid (l_shape (t_layout t)) ix -> at_ r ix = at_ t ix.
Proof. intros Ht Hn Sh Sym. destruct (pack_tri_ok o t u B n Ht Hn Sh) as (m & Em & Om & Sm & Qm). destruct (unpack_tri_ok zero conj opp o m u Sy B n Om Hn) as (r & Er & Or & Sr & Qr); auto; [discriminate|].
  exists m, r. split; auto. split; auto. split; [congruence|]. intros ix V. rewrite Sh in V. apply mat_valid_inv in V as (bx & i & j & -> & V & Hi & Hj).
  assert (In (i, j) (tri_cells o u n) \/ In (j, i) (tri_cells o u n)) as [H|H]. { rewrite !tri_in_prod. cbn [fst snd]. destruct u; cbn; lia. }
  - apply In_nth_error in H as (p & H). destruct (Qm bx p i j V H) as (Ea & _). destruct (Qr bx p i j V H) as (x & Hx & H1 & H2). rewrite <- Ea, Hx. destruct (Nat.eq_dec i j) as [e|e]; [now apply H1|now apply H2].
  - apply In_nth_error in H as (p & H). rewrite Sym by auto. destruct (Qm bx p j i V H) as (Ea & _). destruct (Qr bx p j i V H) as (x & Hx & H1 & H2). rewrite <- Ea, Hx. destruct (Nat.eq_dec j i) as [e|e]; [subst i; now apply H1|now apply H2]. Qed.
