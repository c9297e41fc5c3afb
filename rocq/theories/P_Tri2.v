(** Proofs about triangular packing: stacks of matrices. *)
From Verif Require Import Base Spec Spec_Matmul Spec_Tri P_Index P_List M_Layout P_Layout P_Bounds P_Contig P_Strides M_Indexer P_Indexer M_Broadcast P_Broadcast M_Rearr P_Rearr P_BinOp M_Iter P_Iter M_Kernel P_Kernel Q_Kernel M_Tensor P_Tensor Q_Tensor Q_Copy P_Arg P_Axes M_Matmul P_Matmul P_Matmul2 P_Matmul3 P_Matmul4 Q_Matmul M_Tri P_Tri.
Local Open Scope Z_scope.

(** ** writing at the places of a list of indices *)
Lemma put_steps {I C} (c : list C) lc (tgt : I -> list nat) (w : I -> res C) steps : inside lc (length c) -> injective lc -> (forall i, In i steps -> valid (l_shape lc) (tgt i)) ->
  (forall i, In i steps -> exists y, w i = Ok y) -> (forall i j, In i steps -> In j steps -> tgt i = tgt j -> w i = w j) ->
  exists c', fold_res (fun c i => let* y := w i in zset c (addr lc (tgt i)) y) steps c = Ok c' /\ untouched_outside lc c c' /\
    (forall i, In i steps -> exists y, w i = Ok y /\ elem c' lc (tgt i) = Some y) /\
    (forall ix, valid (l_shape lc) ix -> (forall i, In i steps -> tgt i <> ix) -> elem c' lc ix = elem c lc ix).
Proof. intros I0 J V T K. assert (R : forall i, In i steps -> 0 <= addr lc (tgt i) < Z.of_nat (length c)) by (intros; apply I0; auto).
  rewrite (put_fold (fun i => addr lc (tgt i)) w steps c R). destruct (write_fold (fun i => addr lc (tgt i)) w steps c) as (c' & E & L & Q & U); auto.
  exists c'. split; auto. split.
  { split; auto. intros p H. apply U. intros X. apply in_map_iff in X as (i & Ei & Hi). apply (H (tgt i)); auto. }
  split. { intros i Hi. destruct (Q i Hi) as (y & Hy & P). exists y. auto. }
  intros ix Vx H. apply U. intros X. apply in_map_iff in X as (i & Ei & Hi). apply (H i Hi). apply J; auto. Qed.

(** ** the batch axes *)
Lemma pick_seq_firstn {A} (d : A) n l : (n <= length l)%nat -> pick (seq 0 n) d l = firstn n l.
Proof. intro H. apply nth_ext with (d := d) (d' := d). { unfold pick. rewrite map_length, seq_length, firstn_length. lia. }
  intros k Hk. unfold pick in *. rewrite map_length, seq_length in Hk. rewrite nth_indep with (d' := nth 0 l d) by (rewrite map_length, seq_length; lia). rewrite (map_nth (fun k => nth k l d) (seq 0 n) 0%nat k), seq_nth by lia. cbn [plus].
  rewrite <- (firstn_skipn n l) at 1. rewrite app_nth1; auto. rewrite firstn_length. lia. Qed.
Lemma head_good l B T : good l -> l_shape l = B ++ T -> size T <> 0%nat -> good (head_of l (length B)).
Proof. intros G S Z. pose proof (proj1 (proj1 G)) as L. destruct (Nat.eq_dec (size B) 0) as [E|E].
  - apply good_intro. { rewrite (head_shape _ _ _ S). cbn. rewrite firstn_length, L, S, app_length. lia. } rewrite (head_shape _ _ _ S). congruence.
  - assert (X : head_of l (length B) = sub (seq 0 (length B)) l). { unfold head_of, sub. rewrite !pick_seq_firstn; auto; rewrite ?L, S, app_length; lia. }
    rewrite X. apply (sub_good l _ (seq (length B) (length T))); auto. { rewrite S, size_app. nia. } unfold ndim. rewrite S, app_length, seq_app. reflexivity. Qed.
Lemma batches k la lb B TA TB : good la -> good lb -> l_shape la = B ++ TA -> l_shape lb = B ++ TB -> size TA <> 0%nat -> size TB <> 0%nat ->
  exists full ixs pss, translate_to_col_major RowMajor [head_of la (length B); head_of lb (length B)] OK = Ok full /\ Permutation ixs (row_major B) /\ map_res (dispatch_positions k) full = Ok pss /\
    zip_all pss = map (fun bx => [addr (head_of la (length B)) bx; addr (head_of lb (length B)) bx]) ixs.
Proof. intros Ga Gb Sa Sb Za Zb. destruct (joint_steps k [head_of la (length B); head_of lb (length B)] B) as (full & ixs & pss & E & P & E1 & E2 & _).
  - discriminate. - constructor; [|constructor; [|constructor]]; eapply head_good; eauto. - constructor; [|constructor; [|constructor]]; eapply head_shape; eauto. - exists full, ixs, pss. auto. Qed.
Lemma tail_inside l B T n bx : wf l -> l_shape l = B ++ T -> inside l n -> valid B bx -> inside (at_offset (tail_of l (length B)) (addr (head_of l (length B)) bx)) n.
Proof. intros W S I V y Vy. cbn [at_offset l_shape] in Vy. change (skipn (length B) (l_shape l)) with (l_shape (tail_of l (length B))) in Vy. rewrite (tail_shape _ _ _ S) in Vy.
  pose proof (valid_length _ _ V). rewrite (addr_split l B T) by auto. apply I. rewrite S. apply valid_app; auto. Qed.
Lemma tail_strides l B T : wf l -> l_shape l = B ++ T -> length (l_stride (tail_of l (length B))) = length T.
Proof. intros [L _] S. cbn. rewrite skipn_length, L, S, app_length. lia. Qed.
(** ** pack *)
Definition pack_write {T} (b : list T) (lb : layout) (s : list nat * (nat * (nat * nat))) : res (option T) :=
  let* x := zget b (addr lb (fst s ++ [fst (snd (snd s)); snd (snd (snd s))])) in Ok (Some x).
Lemma pack_fold {T} u (a : list (option T)) la (b : list T) lb B n ixs : n <> 0%nat -> good la -> good lb -> injective la -> l_shape la = B ++ [length (tri_cells RowMajor u n)] -> l_shape lb = B ++ [n; n] ->
  inside la (length a) -> inside lb (length b) -> Permutation ixs (row_major B) ->
  exists a', fold_res (fun a bx => pack_one u (c_contig (tail_of la (length B)) && c_contig (tail_of lb (length B))) (tail_of la (length B)) (tail_of lb (length B)) b n a
      [addr (head_of la (length B)) bx; addr (head_of lb (length B)) bx]) ixs a = Ok a' /\ untouched_outside la a a' /\
    forall bx p i j, valid B bx -> nth_error (tri_cells RowMajor u n) p = Some (i, j) -> exists x, elem b lb (bx ++ [i; j]) = Some x /\ elem a' la (bx ++ [p]) = Some (Some x).
Proof. intros Hn Ga Gb J Sa Sb Ia Ib P. pose proof (proj1 Ga) as Wa. pose proof (proj1 Gb) as Wb. assert (VB : forall bx, In bx ixs <-> valid B bx). { intro bx. rewrite <- in_row_major. split; apply Permutation_in; auto. now symmetry. }
  set (steps := flat_map (fun bx => map (pair bx) (numbered (tri_cells RowMajor u n))) ixs).
  assert (Sx : forall bx p i j, In (bx, (p, (i, j))) steps <-> valid B bx /\ nth_error (tri_cells RowMajor u n) p = Some (i, j)).
  { intros bx p i j. unfold steps. rewrite in_flat_map. rewrite <- VB, <- in_numbered. split.
    - intros (y & Hy & H). apply in_map_iff in H as (z & [= <- <-] & H). auto. - intros (H1 & H2). exists bx. split; auto. now apply in_map. }
  assert (Rg : forall p i j, nth_error (tri_cells RowMajor u n) p = Some (i, j) -> (p < length (tri_cells RowMajor u n))%nat /\ (i < n)%nat /\ (j < n)%nat).
  { intros p i j H. split; [apply nth_error_Some; congruence|]. apply nth_error_In, tri_in_prod in H. cbn in H. lia. }
  assert (EQ : fold_res (fun a bx => pack_one u (c_contig (tail_of la (length B)) && c_contig (tail_of lb (length B))) (tail_of la (length B)) (tail_of lb (length B)) b n a
      [addr (head_of la (length B)) bx; addr (head_of lb (length B)) bx]) ixs a = fold_res (fun a s => let* y := pack_write b lb s in zset a (addr la (fst s ++ [fst (snd s)])) y) steps a).
  { unfold steps. rewrite <- (fold_pairs (fun a s => let* y := pack_write b lb s in zset a (addr la (fst s ++ [fst (snd s)])) y) (fun _ => numbered (tri_cells RowMajor u n))).
    apply (fold_res_inv (fun s => length s = length a)); auto.
    - intros bx s Hb Ls. apply VB in Hb. pose proof (valid_length _ _ Hb). rewrite pack_one_cells; eauto using tail_shape.
      + apply fold_res_ext'. intros s' [p [i j]]. unfold pack_put, pack_write. cbn [fst snd]. now rewrite (addr_split la B _ bx _ Wa Sa), (addr_split lb B _ bx _ Wb Sb) by auto.
      + now rewrite (tail_strides la B _ Wa Sa). + now rewrite (tail_strides lb B _ Wb Sb). + rewrite Ls. eapply tail_inside; eauto. + eapply tail_inside; eauto.
    - intros bx s s' _ Ls E. eapply (fold_res_keeps (fun s => length s = length a)); [|exact Ls|exact E]. intros c s1 s2 _ L1 E1. apply bind_ok in E1 as (y & _ & E1). apply zset_length in E1. congruence. }
  assert (TB : forall bx p i j, valid B bx -> nth_error (tri_cells RowMajor u n) p = Some (i, j) -> exists x, elem b lb (bx ++ [i; j]) = Some x).
  { intros bx p i j V H. apply peek_inside, Ib. rewrite Sb. apply valid_app; [now apply valid_length in V|]. split; auto. apply Rg in H. now apply valid_tuple2. }
  destruct (put_steps a la (fun s => fst s ++ [fst (snd s)]) (pack_write b lb) steps) as (a' & E & U & Q & _); auto.
  - intros (bx & p & i & j) H. apply Sx in H as (V & H). cbn [fst snd]. rewrite Sa. apply valid_app; [now apply valid_length in V|]. split; auto. apply valid_tuple1. now apply Rg in H.
  - intros (bx & p & i & j) H. apply Sx in H as (V & H). destruct (TB _ _ _ _ V H) as (x & Hx). exists (Some x). unfold pack_write. cbn [fst snd]. now rewrite (proj2 (zget_peek _ _ _) Hx).
  - intros (bx & p & i & j) (bx' & p' & i' & j') H H' Et. apply Sx in H as (V & H). apply Sx in H' as (V' & H'). cbn [fst snd] in Et. apply app_inj_2 in Et as (-> & [= ->]); auto. congruence.
  - exists a'. split; [congruence|]. split; auto. intros bx p i j V H. destruct (Q (bx, (p, (i, j)))) as (y & Hy & Ey); [now apply Sx|]. cbn [fst snd] in Ey. destruct (TB _ _ _ _ V H) as (x & Hx). exists x. split; auto.
    unfold pack_write in Hy. cbn [fst snd] in Hy. rewrite (proj2 (zget_peek _ _ _) Hx) in Hy. cbn in Hy. congruence. Qed.

(** ** unpack *)
Lemma upd_upd {A} (l : list A) k x y : upd (upd l k x) k y = upd l k y.
Proof. revert k; induction l as [|z l IH]; intros [|k]; cbn; auto. now rewrite IH. Qed.
Lemma zset_twice {A} (l : list A) p x y : (let* l' := zset l p x in zset l' p y) = zset l p y.
Proof. unfold zset. destruct (p <? 0); cbn [bind]; auto. unfold vset. destruct (_ <? _)%nat eqn:E; cbn [bind]; auto. rewrite upd_length, E. now rewrite upd_upd. Qed.
Lemma range_snoc i : range 0 (i + 1) = range 0 i ++ [i].
Proof. rewrite !range_0, seq_app. reflexivity. Qed.
Lemma range_cons i n : (i < n)%nat -> range i n = i :: range (i + 1) n.
Proof. intro H. unfold range. replace (n - i)%nat with (S (n - (i + 1))) by lia. cbn [seq]. now rewrite Nat.add_1_r. Qed.
Lemma in_range i lo hi : In i (range lo hi) <-> (lo <= i < hi)%nat.
Proof. unfold range. rewrite in_seq. lia. Qed.

Section Unpack.
  Context {T : Type} (zero : T) (conj opp : T -> T).
  (** the writes for one cell of the triangle: to the cell, and, off the diagonal, to the mirrored one *)
  Definition cell_writes (s : nat * (nat * nat)) : list (bool * (nat * (nat * nat))) :=
    if (fst (snd s) =? snd (snd s))%nat then [(false, s)] else [(false, s); (true, s)].
  Definition target (w : bool * (nat * (nat * nat))) : nat * nat := let '(m, (_, (i, j))) := w in if m then (j, i) else (i, j).
  Definition cell_value (sy : symm) (b : list T) (pb : nat -> Z) (w : bool * (nat * (nat * nat))) : res (option T) :=
    let '(m, (p, (i, j))) := w in
    if (i =? j)%nat && anti sy then Ok (Some zero)
    else let* x := zget b (pb p) in Ok (Some (if m then mirrored conj opp sy x else if (i =? j)%nat then on_diagonal zero conj sy x else x)).
  Definition unpack_put (sy : symm) (pa : nat -> nat -> Z) (b : list T) (pb : nat -> Z) (a : list (option T)) (w : bool * (nat * (nat * nat))) : res (list (option T)) :=
    let* y := cell_value sy b pb w in zset a (pa (fst (target w)) (snd (target w))) y.
  Definition unpack_puts sy pa b pb (a : list (option T)) (k : nat) (c : nat * nat) : res (list (option T)) :=
    fold_res (unpack_put sy pa b pb) (cell_writes (k, c)) a.
  Lemma cell_off sy pa b pb i s j : sy <> NoSymm -> i <> j -> unpack_cell conj opp sy pa b pb i s j = let* a := unpack_puts sy pa b pb (fst s) (snd s) (i, j) in Ok (a, S (snd s)).
  Proof. intros Hs Hij. unfold unpack_cell, unpack_puts, cell_writes. cbn [fst snd]. replace (i =? j)%nat with false by lia. cbn [fold_res]. unfold unpack_put, cell_value, target. cbn [fst snd]. replace (i =? j)%nat with false by lia. cbn [andb].
    rewrite !bind_assoc. destruct (zget b (pb (snd s))) as [x| |]; cbn [bind]; auto. apply bind_ext. intro a1.
    destruct sy; cbn [mirror mirrored]; try congruence; now rewrite bind_id. Qed.
  Lemma cell_diag sy pa b pb i s : sy <> NoSymm -> anti sy = false -> unpack_cell conj opp sy pa b pb i s i = let* a := unpack_puts sy pa b pb (fst s) (snd s) (i, i) in Ok (a, S (snd s)).
  Proof. intros Hs Ha. unfold unpack_cell, unpack_puts, cell_writes. cbn [fst snd]. rewrite Nat.eqb_refl. cbn [fold_res]. unfold unpack_put, cell_value, target. cbn [fst snd]. rewrite Nat.eqb_refl, Ha. cbn [andb].
    rewrite !bind_assoc. destruct (zget b (pb (snd s))) as [x| |]; cbn [bind]; auto.
    assert (X : forall y, (let* a := zset (fst s) (pa i i) (Some x) in let* a0 := zset a (pa i i) (Some y) in Ok (a0, S (snd s))) = let* a := zset (fst s) (pa i i) (Some y) in Ok (a, S (snd s))).
    { intro y. rewrite <- bind_assoc. now rewrite zset_twice. }
    destruct sy; cbn [mirror on_diagonal anti] in *; try congruence; apply X. Qed.
  Lemma diag_anti sy pa b pb i s : anti sy = true -> unpack_diag zero pa i s = let* a := unpack_puts sy pa b pb (fst s) (snd s) (i, i) in Ok (a, S (snd s)).
  Proof. intros Ha. unfold unpack_diag, unpack_puts, cell_writes. cbn [fst snd]. rewrite Nat.eqb_refl. cbn [fold_res]. unfold unpack_put, cell_value, target. cbn [fst snd]. rewrite Nat.eqb_refl, Ha. cbn [andb bind]. rewrite bind_assoc. cbn [bind]. reflexivity. Qed.

  Lemma unpack_loop_cells u sy pa b pb n a : sy <> NoSymm -> unpack_loop zero conj opp u sy pa b pb n a = fold_res (unpack_put sy pa b pb) (flat_map cell_writes (numbered (tri_cells RowMajor u n))) a.
  Proof. intro Hs. set (f := fun (s : list (option T)) (k : nat) (c : nat * nat) => unpack_puts sy pa b pb s k c).
    set (step := fun (s : list (option T) * nat) (x : nat * nat) => let* s' := f (fst s) (snd s) x in Ok (s', S (snd s))).
    assert (END : forall g, tri_cells RowMajor u n = flat_map (fun i => map (pair i) (g i)) (seq 0 n) ->
      (let* s := fold_res (fun s i => fold_res (fun s j => step s (i, j)) (g i) s) (seq 0 n) (a, 0%nat) in Ok (fst s)) = fold_res (unpack_put sy pa b pb) (flat_map cell_writes (numbered (tri_cells RowMajor u n))) a).
    { intros g Eg. rewrite (fold_pairs step g), <- Eg. unfold step. rewrite counter_fold, bind_fst, fold_res_flat_map. unfold numbered. apply fold_res_ext'. now intros s [p c]. }
    assert (OFF : forall i lo hi s, ~ (lo <= i < hi)%nat -> fold_res (unpack_cell conj opp sy pa b pb i) (range lo hi) s = fold_res (fun s j => step s (i, j)) (range lo hi) s).
    { intros i lo hi s Hi. apply fold_res_ext. intros j s' Hj. apply in_range in Hj. unfold step, f. apply cell_off; auto. intros ->. now apply Hi. }
    destruct u; cbn [unpack_loop]; unfold unpack_tril_loop, unpack_triu_loop.
    - rewrite <- (END (fun i => range i n) (cells_upper n)). f_equal. apply fold_res_ext. intros i s Hi. apply in_seq in Hi. rewrite (range_cons i n) by lia. cbn [fold_res]. destruct (anti sy) eqn:Ea.
      + rewrite (diag_anti sy pa b pb i s Ea). apply bind_ext. intro s'. apply OFF. lia.
      + rewrite (cell_diag sy pa b pb i s Hs Ea). apply bind_ext. intro s'. apply OFF. lia.
    - rewrite <- (END (fun i => range 0 (i + 1)) (cells_lower n)). f_equal. apply fold_res_ext. intros i s Hi. apply in_seq in Hi. rewrite range_snoc. rewrite !fold_res_app. destruct (anti sy) eqn:Ea.
      + rewrite OFF by lia. apply bind_ext. intro s'. cbn [fold_res]. rewrite bind_id. apply (diag_anti sy pa b pb i s' Ea).
      + rewrite OFF by lia. apply bind_ext. intro s'. cbn [fold_res]. rewrite !bind_id. apply (cell_diag sy pa b pb i s' Hs Ea). Qed.

  Lemma in_writes u n w : In w (flat_map cell_writes (numbered (tri_cells RowMajor u n))) <->
    nth_error (tri_cells RowMajor u n) (fst (snd w)) = Some (snd (snd w)) /\ (fst w = true -> fst (snd (snd w)) <> snd (snd (snd w))).
  Proof. destruct w as (m & p & i & j). cbn [fst snd]. rewrite in_flat_map. split.
    - intros ((p' & i' & j') & H & W). apply in_numbered in H. unfold cell_writes in W. cbn [fst snd] in W. destruct (i' =? j')%nat eqn:E; destruct W as [W|W]; try (destruct W as [W|W]); try easy; injection W as <- <- <- <-; split; auto; try discriminate. intros _. lia.
    - intros (H & Hm). exists (p, (i, j)). split; [now apply in_numbered|]. unfold cell_writes. cbn [fst snd]. destruct (i =? j)%nat eqn:E; cbn [In]; destruct m; auto. apply Nat.eqb_eq in E. now elim Hm. Qed.

  (** the step for one matrix *)
  Lemma unpack_one_cells u sy (la lb : layout) (b : list T) n (a : list (option T)) oa ob : n <> 0%nat -> sy <> NoSymm -> l_shape lb = [length (tri_cells RowMajor u n)] -> l_shape la = [n; n] -> length (l_stride lb) = 1%nat -> length (l_stride la) = 2%nat ->
    inside (at_offset la oa) (length a) -> inside (at_offset lb ob) (length b) ->
    unpack_one zero conj opp u sy (c_contig la && c_contig lb) la lb b n a [oa; ob] =
    fold_res (unpack_put sy (fun i j => addr (at_offset la oa) [i; j]) b (fun p => addr (at_offset lb ob) [p])) (flat_map cell_writes (numbered (tri_cells RowMajor u n))) a.
  Proof. intros Hn Hsy Sb Sa Lb La Ia Ib. remember (length (tri_cells RowMajor u n)) as N eqn:EN. assert (HN : N <> 0%nat). { pose proof (tri_len RowMajor u n). rewrite <- EN in H. nia. }
    destruct (c_contig la && c_contig lb) eqn:Cg; cbn [unpack_one].
    2:{ unfold unpack_general. rewrite unpack_loop_cells by auto. apply fold_res_ext'. intros s (m & p & i & j). unfold unpack_put, cell_value. cbn [fst snd]. now rewrite !index_uncheck_addr. }
    apply andb_true_iff in Cg as [Ca Cb].
    assert (Ob : 0 <= ob). { specialize (Ib [0%nat]). unfold addr in Ib. cbn [at_offset l_shape l_offset l_stride] in Ib. rewrite Sb in Ib. specialize (Ib ltac:(apply valid_tuple1; lia)). destruct (l_stride lb) as [|x [|y r]]; cbn [dot length] in *; lia. }
    assert (Oa : 0 <= oa). { specialize (Ia [0%nat; 0%nat]). unfold addr in Ia. cbn [at_offset l_shape l_offset l_stride] in Ia. rewrite Sa in Ia. specialize (Ia ltac:(apply valid_tuple2; lia)). destruct (l_stride la) as [|x [|y [|w r]]]; cbn [dot length] in *; lia. }
    assert (Ab : forall p, (p < N)%nat -> addr (at_offset lb ob) [p] = ob + Z.of_nat p).
    { intros p Hp. rewrite contig_addr; cbn [at_offset l_shape l_offset]; rewrite ?Sb.
      - f_equal. f_equal. cbn. lia. - split; cbn; [now rewrite Sb|auto]. - cbn. lia. - exact Cb. - now apply valid_tuple1. }
    assert (Aa : forall i j, (i < n)%nat -> (j < n)%nat -> addr (at_offset la oa) [i; j] = oa + Z.of_nat (i * n + j)).
    { intros i j Hi Hj. rewrite contig_addr; cbn [at_offset l_shape l_offset]; rewrite ?Sa.
      - f_equal. f_equal. cbn. lia. - split; cbn; [now rewrite Sa|auto]. - cbn. nia. - exact Ca. - now apply valid_tuple2. }
    assert (Rb : ob + Z.of_nat N <= Z.of_nat (length b)). { specialize (Ib [(N - 1)%nat]). rewrite Ab in Ib by lia. cbn [at_offset l_shape] in Ib. rewrite Sb in Ib. specialize (Ib ltac:(apply valid_tuple1; lia)). lia. }
    assert (Ra : oa <= Z.of_nat (length a)). { specialize (Ia [0%nat; 0%nat]). rewrite Aa in Ia by lia. cbn [at_offset l_shape] in Ia. rewrite Sa in Ia. specialize (Ia ltac:(apply valid_tuple2; lia)). lia. }
    unfold unpack_contig. replace (_ && _) with true by lia. rewrite unpack_loop_cells by auto. apply fold_res_ext. intros (m & p & i & j) s Hc. apply in_writes in Hc as (Hc & _). cbn [fst snd] in Hc.
    unfold unpack_put, cell_value. rewrite Ab by (rewrite EN; apply nth_error_Some; congruence). apply nth_error_In, tri_in_prod in Hc. cbn [fst snd] in Hc. destruct m; cbn [target fst snd]; now rewrite Aa by lia. Qed.

  Lemma unpack_fold u sy (a : list (option T)) la (b : list T) lb B n ixs : n <> 0%nat -> sy <> NoSymm -> good la -> good lb -> injective la -> l_shape lb = B ++ [length (tri_cells RowMajor u n)] -> l_shape la = B ++ [n; n] ->
    inside la (length a) -> inside lb (length b) -> Permutation ixs (row_major B) ->
    exists a', fold_res (fun a bx => unpack_one zero conj opp u sy (c_contig (tail_of la (length B)) && c_contig (tail_of lb (length B))) (tail_of la (length B)) (tail_of lb (length B)) b n a
        [addr (head_of la (length B)) bx; addr (head_of lb (length B)) bx]) ixs a = Ok a' /\ untouched_outside la a a' /\
      forall bx p i j, valid B bx -> nth_error (tri_cells RowMajor u n) p = Some (i, j) -> exists x, elem b lb (bx ++ [p]) = Some x /\
        (i = j -> elem a' la (bx ++ [i; j]) = Some (Some (on_diagonal zero conj sy x))) /\
        (i <> j -> elem a' la (bx ++ [i; j]) = Some (Some x) /\ elem a' la (bx ++ [j; i]) = Some (Some (mirrored conj opp sy x))).
  Proof. intros Hn Hsy Ga Gb J Sb Sa Ia Ib P. pose proof (proj1 Ga) as Wa. pose proof (proj1 Gb) as Wb. assert (VB : forall bx, In bx ixs <-> valid B bx). { intro bx. rewrite <- in_row_major. split; apply Permutation_in; auto. now symmetry. }
    set (ws := flat_map cell_writes (numbered (tri_cells RowMajor u n))).
    set (steps := flat_map (fun bx => map (pair bx) ws) ixs).
    assert (Sx : forall bx w, In (bx, w) steps <-> valid B bx /\ In w ws).
    { intros bx w. unfold steps. rewrite in_flat_map. rewrite <- VB. split.
      - intros (y & Hy & H). apply in_map_iff in H as (z & [= <- <-] & H). auto. - intros (H1 & H2). exists bx. split; auto. now apply in_map. }
    assert (Rg : forall p i j, nth_error (tri_cells RowMajor u n) p = Some (i, j) -> (p < length (tri_cells RowMajor u n))%nat /\ (i < n)%nat /\ (j < n)%nat /\ in_triangle u i j = true).
    { intros p i j H. split; [apply nth_error_Some; congruence|]. apply nth_error_In, tri_in_prod in H. exact H. }
    set (tgt := fun s : list nat * (bool * (nat * (nat * nat))) => fst s ++ [fst (target (snd s)); snd (target (snd s))]).
    set (w := fun s : list nat * (bool * (nat * (nat * nat))) => cell_value sy b (fun p => addr lb (fst s ++ [p])) (snd s)).
    assert (EQ : fold_res (fun a bx => unpack_one zero conj opp u sy (c_contig (tail_of la (length B)) && c_contig (tail_of lb (length B))) (tail_of la (length B)) (tail_of lb (length B)) b n a
        [addr (head_of la (length B)) bx; addr (head_of lb (length B)) bx]) ixs a = fold_res (fun a s => let* y := w s in zset a (addr la (tgt s)) y) steps a).
    { unfold steps. rewrite <- (fold_pairs (fun a s => let* y := w s in zset a (addr la (tgt s)) y) (fun _ => ws)).
      apply (fold_res_inv (fun s => length s = length a)); auto.
      - intros bx s Hb Ls. apply VB in Hb. pose proof (valid_length _ _ Hb). rewrite unpack_one_cells; eauto using tail_shape.
        + apply fold_res_ext'. intros s' (m & p & i & j). unfold unpack_put, w, tgt, cell_value. cbn [fst snd]. now rewrite (addr_split la B _ bx _ Wa Sa), (addr_split lb B _ bx _ Wb Sb) by auto.
        + now rewrite (tail_strides lb B _ Wb Sb). + now rewrite (tail_strides la B _ Wa Sa). + rewrite Ls. eapply tail_inside; eauto. + eapply tail_inside; eauto.
      - intros bx s s' _ Ls E. eapply (fold_res_keeps (fun s => length s = length a)); [|exact Ls|exact E]. intros c s1 s2 _ L1 E1. apply bind_ok in E1 as (y & _ & E1). apply zset_length in E1. congruence. }
    assert (TB : forall bx p i j, valid B bx -> nth_error (tri_cells RowMajor u n) p = Some (i, j) -> exists x, elem b lb (bx ++ [p]) = Some x).
    { intros bx p i j V H. apply peek_inside, Ib. rewrite Sb. apply valid_app; [now apply valid_length in V|]. split; auto. apply Rg in H. apply valid_tuple1. apply H. }
    destruct (put_steps a la tgt w steps) as (a' & E & U & Q & _); auto.
    - intros (bx & m & p & i & j) H. apply Sx in H as (V & H). apply in_writes in H as (H & _). cbn [fst snd] in H. apply Rg in H. unfold tgt. cbn [fst snd]. rewrite Sa. apply valid_app; [now apply valid_length in V|]. split; auto. destruct m; cbn [target fst snd]; apply valid_tuple2; lia.
    - intros (bx & m & p & i & j) H. apply Sx in H as (V & H). apply in_writes in H as (H & _). cbn [fst snd] in H. destruct (TB _ _ _ _ V H) as (x & Hx). unfold w, cell_value. cbn [fst snd]. rewrite (proj2 (zget_peek _ _ _) Hx). cbn [bind]. destruct ((i =? j)%nat && anti sy); eexists; reflexivity.
    - intros (bx & m & p & i & j) (bx' & m' & p' & i' & j') H H' Et. apply Sx in H as (V & H). apply Sx in H' as (V' & H'). apply in_writes in H as (H & Hm). apply in_writes in H' as (H' & Hm'). cbn [fst snd] in *.
      unfold tgt in Et. cbn [fst snd] in Et. apply app_inj_2 in Et as (-> & Et); auto. pose proof (Rg _ _ _ H) as (_ & _ & _ & I1). pose proof (Rg _ _ _ H') as (_ & _ & _ & I2).
      assert (X : m = m' /\ i = i' /\ j = j'). { destruct m, m'; cbn [target fst snd] in Et; injection Et as -> ->; auto; exfalso; destruct u; cbn in I1, I2; try (apply Hm; auto; lia); apply Hm'; auto; lia. }
      destruct X as (-> & -> & ->). assert (p = p'); [|congruence]. apply (proj1 (NoDup_nth_error (tri_cells RowMajor u n)) (tri_nodup RowMajor u n)); [apply nth_error_Some|]; congruence.
    - exists a'. split; [congruence|]. split; auto. intros bx p i j V H. destruct (TB _ _ _ _ V H) as (x & Hx). exists x. split; auto. split.
      + intros ->. destruct (Q (bx, (false, (p, (j, j))))) as (y & Hy & Ey). { apply Sx. split; auto. apply in_writes. cbn. split; auto. discriminate. }
        unfold tgt in Ey. cbn [fst snd target] in Ey. rewrite Ey. unfold w, cell_value in Hy. cbn [fst snd] in Hy. rewrite Nat.eqb_refl, (proj2 (zget_peek _ _ _) Hx) in Hy. cbn [andb bind] in Hy. destruct (anti sy) eqn:Ea; [|congruence]. destruct sy; cbn in *; congruence.
      + intro Hij. assert (F : (i =? j)%nat = false) by lia. split.
        * destruct (Q (bx, (false, (p, (i, j))))) as (y & Hy & Ey). { apply Sx. split; auto. apply in_writes. cbn. split; auto. }
          unfold tgt in Ey. cbn [fst snd target] in Ey. rewrite Ey. unfold w, cell_value in Hy. cbn [fst snd] in Hy. rewrite F, (proj2 (zget_peek _ _ _) Hx) in Hy. cbn [andb bind] in Hy. congruence.
        * destruct (Q (bx, (true, (p, (i, j))))) as (y & Hy & Ey). { apply Sx. split; auto. apply in_writes. cbn. split; auto. }
          unfold tgt in Ey. cbn [fst snd target] in Ey. rewrite Ey. unfold w, cell_value in Hy. cbn [fst snd] in Hy. rewrite F, (proj2 (zget_peek _ _ _) Hx) in Hy. cbn [andb bind] in Hy. congruence. Qed.
End Unpack.
