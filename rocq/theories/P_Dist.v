(** Proofs about cdist *)
From Verif Require Import Base Spec Spec_Blas Spec_Dist P_List P_Index P_Contig M_Layout M_Kernel M_Tensor M_Rearr M_Matmul M_Blas Spec_BlasApi P_Layout P_Strides P_Kernel P_Tensor P_Tri3 P_Rearr Q_Copy P_Fast P_Blas M_Dist.
Local Open Scope Z_scope.

(** ** the cells of the batches *)
Lemma in_step_by n b x : (0 < b)%nat -> (x < n)%nat -> exists s, In s (step_by n b) /\ (s <= x < Nat.min (s + b) n)%nat.
Proof. intros B X. exists (x / b * b)%nat. assert (D : x = (b * (x / b) + x mod b)%nat) by (apply Nat.div_mod; lia). assert (U : (x mod b < b)%nat) by (apply Nat.mod_upper_bound; lia).
  assert (L : (x / b < (n + b - 1) / b)%nat). { apply Nat.lt_le_trans with (S (x / b)); [apply Nat.lt_succ_diag_r|]. replace (S (x / b)) with ((x + 1 * b) / b)%nat by (rewrite Nat.div_add; [apply Nat.add_1_r|lia]). apply Nat.div_le_mono; lia. }
  remember (x / b)%nat as q. remember (x mod b)%nat as r. split.
  - unfold step_by. apply in_map_iff. exists q. split; auto. apply in_seq. lia.
  - rewrite (Nat.mul_comm q b). lia. Qed.
Lemma in_batches m n b i j : (0 < b)%nat -> In (i, j) (batch_cells m n b) <-> (i < m)%nat /\ (j < n)%nat.
Proof. intro B. unfold batch_cells. rewrite in_flat_map. split.
  - intros (i0 & _ & H). apply in_flat_map in H as (j0 & _ & H). apply in_flat_map in H as (i' & Hi & H). apply in_map_iff in H as (j' & E & Hj). injection E as -> ->.
    apply in_seq in Hi, Hj. lia.
  - intros (Hi & Hj). destruct (in_step_by m b i B Hi) as (i0 & I0 & Ri). destruct (in_step_by n b j B Hj) as (j0 & J0 & Rj). exists i0. split; auto. apply in_flat_map. exists j0. split; auto.
    apply in_flat_map. exists i. split; [apply in_seq; lia|]. apply in_map_iff. exists j. split; auto. apply in_seq. lia. Qed.
Lemma batch_size_ok s k : s <> 0%nat -> k <> 0%nat -> exists b, batch_size s k = Ok b /\ (0 < b)%nat.
Proof. intros Hs Hk. unfold batch_size. destruct (Nat.eqb_spec (s * k) 0) as [E|E]; [apply Nat.mul_eq_0 in E; lia|]. eexists. split; [reflexivity|]. remember (262144 / _ / 2) as q. lia. Qed.

(** ** rows *)
Lemma row_length {T} k (A : nat -> nat -> T) i : length (row k A i) = k. Proof. unfold row. now rewrite map_length, seq_length. Qed.
Lemma read_row {T} (d : list T) l m k A i : holds d l m k A -> (i < m)%nat -> init_row d l i = Ok (row k A i).
Proof. intros (E & H) Hi. unfold init_row, row, extent. rewrite E. cbn [nth]. apply map_res_map. intros j Hj. apply in_seq in Hj. apply zget_peek. apply (H i j); lia. Qed.
Lemma read_strided {T} (d : list T) l m k A i : wf l -> holds d l m k A -> (i < m)%nat -> strided_of d (l_offset l + Z.of_nat i * nth 0 (l_stride l) 0) (nth 1 (l_stride l) 0) k = Ok (row k A i).
Proof. intros W (E & H) Hi. destruct (layout2 l m k W E) as (s & t & El). unfold strided_of, row. apply map_res_map. intros j Hj. apply in_seq in Hj. apply zget_peek. rewrite <- (H i j) by lia. unfold elem. f_equal. rewrite El, addr2. cbn [l_offset l_stride nth]. lia. Qed.
Lemma slice_strided {T} (d : list T) off k : slice_of d off k = strided_of d off 1 k.
Proof. unfold slice_of, strided_of. induction (seq 0 k) as [|x l IH]; cbn; auto. rewrite Z.mul_1_r, IH. reflexivity. Qed.
Lemma vget_map {A} (f : nat -> A) n i : (i < n)%nat -> vget (map f (seq 0 n)) i = Ok (f i).
Proof. intro H. unfold vget. rewrite nth_error_map. replace (nth_error (seq 0 n) i) with (Some i); auto. symmetry. rewrite nth_error_nth' with (d := 0%nat) by (rewrite seq_length; auto). now rewrite seq_nth. Qed.
Lemma vget_list {A} (w : list A) k : length w = k -> map_res (fun i => vget w i) (seq 0 k) = Ok w.
Proof. intros <-. assert (G : forall pre, map_res (fun i => vget (pre ++ w) i) (seq (length pre) (length w)) = Ok w); [|exact (G [])]. induction w as [|x w IH]; intro pre; [reflexivity|].
  cbn [length seq map_res]. unfold vget at 1. rewrite nth_error_app2, Nat.sub_diag by lia. cbn [nth_error bind]. specialize (IH (pre ++ [x])). rewrite app_length, Nat.add_1_r, <- app_assoc in IH. cbn [app] in IH. rewrite IH. reflexivity. Qed.

(** ** the weights *)
Lemma fold_length {S X} (body : list S -> X -> res (list S)) l : (forall s x s', body s x = Ok s' -> length s' = length s) -> forall s s', fold_res body l s = Ok s' -> length s' = length s.
Proof. intro H. induction l as [|x l IH]; intros s s'; cbn [fold_res]; [congruence|]. destruct (body s x) as [s1| |] eqn:E; cbn [bind]; try discriminate. intro F. rewrite (IH _ _ F). eauto. Qed.
Lemma zset_length {A} (l : list A) p v l' : zset l p v = Ok l' -> length l' = length l.
Proof. intro H. destruct (Z_lt_le_dec p 0) as [N|N]; [unfold zset in H; replace (p <? 0) with true in H by lia; discriminate|]. destruct (Z_lt_le_dec p (Z.of_nat (length l))) as [I|I].
  - destruct (zset_ok l p v (conj N I)) as (l2 & E & L & _). congruence.
  - exfalso. unfold zset in H. replace (p <? 0) with false in H by lia. unfold vset in H. replace (Z.to_nat p <? length l)%nat with false in H by lia. discriminate. Qed.
Lemma cell2_length {A C} (a : list A) (f : C -> A -> C) c x c' : cell2 a f c x = Ok c' -> length c' = length c.
Proof. unfold cell2. destruct x as [|p [|q [|? ?]]]; try discriminate. destruct (zget c p) as [u| |]; cbn [bind]; try discriminate. destruct (zget a q) as [v| |]; cbn [bind]; try discriminate. apply zset_length. Qed.
Lemma arbitary_length {A C} k (cast : A -> C) c lc (a : list A) la o c' : assign_arbitary k cast c lc a la o = Ok c' -> length c' = length c.
Proof. unfold assign_arbitary. assert (L := fold_length (cell2 a (fun (_ : C) y => cast y))). destruct (match o with RowMajor => _ | ColMajor => _ end).
  - destruct (_ && _); [|discriminate]. apply L. intros s x s'. apply cell2_length.
  - destruct (translate_unary RowMajor lc _) as [l1| |]; cbn [bind]; try discriminate. destruct (translate_unary RowMajor la _) as [l2| |]; cbn [bind]; try discriminate. unfold dispatch.
    destruct (map_res _ _) as [pss| |]; cbn [bind]; try discriminate. apply L. intros s x s'. apply cell2_length. Qed.
Lemma assume_length {T} (l : list (option T)) d : assume_init l = Ok d -> length d = length l.
Proof. revert d. unfold assume_init. induction l as [|x l IH]; intros d; cbn [map_res]; [intros [= <-]; reflexivity|]. destruct x; cbn [bind]; try discriminate. destruct (map_res _ l) as [d'| |]; cbn [bind]; try discriminate. intros [= <-]. cbn. now rewrite (IH d'). Qed.
Lemma peek_all {T} (d ws : list T) : length d = length ws -> (forall j, (j < length ws)%nat -> peek d (Z.of_nat j) = nth_error ws j) -> d = ws.
Proof. intros L H. apply peek_ext; auto. intro p. unfold peek at 2. destruct (Z.ltb_spec p 0) as [N|N]; [unfold peek; now replace (p <? 0) with true by lia|].
  destruct (Nat.lt_ge_cases (Z.to_nat p) (length ws)) as [I|I]; [rewrite <- H by auto; now rewrite Z2Nat.id|]. unfold peek. replace (p <? 0) with false by lia. transitivity (@None T); [apply nth_error_None; lia|symmetry; apply nth_error_None; lia]. Qed.
Lemma contig_weights {W} dev (w : tensor W) ws : tensor_ok w -> lists (t_data w) (t_layout w) ws -> ws <> [] -> own_storage (t_layout w) (length (t_data w)) (length ws) ->
  exists c, change_contig Fixed dev w RowMajor = Ok c /\ t_data c = ws.
Proof. intros Hw (E & H) N Own. assert (K : length ws <> 0%nat) by (destruct ws; cbn; [congruence|lia]). assert (Sz : size (t_shape w) = length ws) by (unfold t_shape; rewrite E; unfold size; cbn; lia).
  destruct (l_change_contig W Fixed dev w RowMajor Hw) as (c & Ec & Tc & Sc & _ & Ln & Q); [left; lia|]. exists c. split; auto.
  assert (Lc : t_layout c = mkLayout [length ws] [1] 0). { unfold change_contig in Ec. apply change_layout_layout in Ec. rewrite Ec, E. reflexivity. }
  assert (L : length (t_data c) = length ws).
  { destruct Ln as [Ln|Ln]; [lia|]. destruct Own as [Own|Own]; [congruence|]. unfold change_contig, change_layout in Ec. rewrite E in Ec. destruct (check _ _); cbn [bind] in Ec; try discriminate.
    set (l0 := new_contig Fixed [length ws] 0 RowMajor) in *. assert (F : layout_eqb (t_layout w) l0 = false).
    { destruct (layout_eqb (t_layout w) l0) eqn:F; auto. exfalso. unfold layout_eqb in F. destruct (negb (_ =? _)%nat); try discriminate. destruct (Z.eqb_spec (l_offset (t_layout w)) (l_offset l0)) as [O|O]; cbn [negb] in F; try discriminate. cbn in O.
      destruct Own as [Own|(K1 & Own)]; [congruence|]. destruct Hw as (Aw & _). apply good_accepted, good_wf in Aw. destruct Aw as (Lw & _). rewrite E in Lw, F. destruct (l_stride (t_layout w)) as [|s [|? ?]]; cbn in Lw; try discriminate.
      cbn in F. destruct (length ws) as [|[|n]]; try lia. cbn in F. destruct (Z.eqb_spec s 1) as [->|]; [congruence|]. cbn in F. rewrite ?Nat.eqb_refl in F. cbn in F. discriminate. }
    rewrite F in Ec. destruct (contig_facts Fixed [length ws] RowMajor) as (G0 & _ & C0 & _ & O0). change (new_contig Fixed [length ws] 0 RowMajor) with l0 in G0, C0, O0.
    destruct (bounds_covers l0 _ (good_wf _ G0) O0 C0) as (lo & Eb). rewrite Eb in Ec. cbn [bind snd] in Ec. destruct (assign_arbitary _ _ _ _ _ _ _) as [c1| |] eqn:E1; cbn [bind] in Ec; try discriminate.
    destruct (assume_init c1) as [c2| |] eqn:E2; cbn [bind] in Ec; try discriminate. injection Ec as <-. cbn [t_data]. rewrite (assume_length _ _ E2), (arbitary_length _ _ _ _ _ _ _ _ E1). unfold uninit. rewrite repeat_length, Nat2Z.id. unfold size. cbn. lia. }
  apply peek_all; auto. intros j Hj. rewrite <- (H j Hj). specialize (Q [j]). unfold at_, elem in Q. rewrite Lc in Q. unfold elem. rewrite <- Q.
  - f_equal. unfold addr. cbn [l_offset l_stride dot]. lia.
  - unfold t_shape. rewrite E. repeat constructor. exact Hj. Qed.

(** ** the table *)
Lemma zset_after_get {A} (l : list A) p v : (let* _ := zget l p in zset l p v) = zset l p v.
Proof. unfold zget, zset. destruct (p <? 0); auto. unfold vget, vset. destruct (nth_error l (Z.to_nat p)) eqn:E; cbn [bind]; auto. apply nth_error_None in E. now replace (Z.to_nat p <? length l)%nat with false by lia. Qed.
Lemma repeat_peek {A} (x : A) n p : 0 <= p < Z.of_nat n -> peek (repeat x n) p = Some x.
Proof. intro H. unfold peek. replace (p <? 0) with false by lia. rewrite nth_error_nth' with (d := x) by (rewrite repeat_length; lia). now rewrite nth_repeat. Qed.
Lemma cell_addr m n o i j : (i < m)%nat -> (j < n)%nat -> addr (new_contig Fixed [m; n] 0 o) [i; j] = Z.of_nat (match o with RowMajor => i * n + j | ColMajor => i + j * m end).
Proof. intros Hi Hj. rewrite contig_pair. destruct o; rewrite addr2; [replace (Nat.max n 1) with n by lia|replace (Nat.max m 1) with m by lia]; lia. Qed.
Lemma valid_pair m n ix : valid [m; n] ix -> exists i j, ix = [i; j] /\ (i < m)%nat /\ (j < n)%nat.
Proof. intro V. destruct ix as [|i [|j [|? ?]]]; [inversion V|inversion V; subst; inversion H4|exists i, j; split; auto; inversion V; subst; inversion H4; now subst|inversion V; subst; inversion H4; subst; inversion H6]. Qed.
Lemma table {O} m n (o : order) (cells : list (nat * nat)) (F : nat * nat -> res O) (V : nat -> nat -> O) : (forall i j, In (i, j) cells <-> (i < m)%nat /\ (j < n)%nat) -> (forall i j, (i < m)%nat -> (j < n)%nat -> F (i, j) = Ok (V i j)) ->
  exists d, (let* d := fold_res (fun d ij => let* x := F ij in zset d (Z.of_nat (match o with RowMajor => fst ij * n + snd ij | ColMajor => fst ij + snd ij * m end)%nat) (Some x)) cells (repeat None (m * n)) in assume_init d) = Ok d /\
    length d = (m * n)%nat /\ holds d (new_contig Fixed [m; n] 0 o) m n V.
Proof. intros In_ HF. pose (pos := fun ij : nat * nat => Z.of_nat (match o with RowMajor => fst ij * n + snd ij | ColMajor => fst ij + snd ij * m end)%nat).
  assert (Pos : forall ij, In ij cells -> pos ij = addr (new_contig Fixed [m; n] 0 o) [fst ij; snd ij] /\ valid [m; n] [fst ij; snd ij]).
  { intros (i, j) H. apply In_ in H as (Hi & Hj). split; [symmetry; now apply cell_addr|]. repeat constructor; auto. }
  destruct (contig_facts Fixed [m; n] o) as (G & Inj & C & Sh & Off). assert (Sz : size [m; n] = (m * n)%nat) by (unfold size; cbn; lia). rewrite Sz in C.
  destruct (write_fold pos (fun ij => let* x := F ij in Ok (Some x)) cells (repeat None (m * n))) as (c & E & L & A & _).
  - intros ij H. rewrite repeat_length. destruct (Pos ij H) as (-> & V0). apply C. exists [fst ij; snd ij]. rewrite Sh. auto.
  - intros (i, j) H. apply In_ in H as (Hi & Hj). rewrite HF by auto. cbn. eauto.
  - intros (i, j) (i', j') H H' Q. destruct (Pos _ H) as (P1 & V1), (Pos _ H') as (P2 & V2). rewrite P1, P2 in Q. cbn [fst snd] in *. apply Inj in Q; [|rewrite Sh; auto|rewrite Sh; auto]. now injection Q as -> ->.
  - rewrite repeat_length in L. assert (W : forall i j, (i < m)%nat -> (j < n)%nat -> peek c (addr (new_contig Fixed [m; n] 0 o) [i; j]) = Some (Some (V i j))).
    { intros i j Hi Hj. assert (H : In (i, j) cells) by (apply In_; auto). destruct (A _ H) as (y & Ey & Py). rewrite HF in Ey by auto. cbn in Ey. injection Ey as <-. destruct (Pos _ H) as (P1 & _). cbn [fst snd] in P1. now rewrite P1 in Py. }
    destruct (all_some c) as (d & ->).
    { intros p Hp. rewrite L in Hp. apply C in Hp as (ix & V0 & <-). rewrite Sh in V0. apply valid_pair in V0 as (i & j & -> & Hi & Hj). exists (V i j). auto. }
    exists d. split; [|split; [now rewrite map_length in L|split; [exact Sh|]]].
    + assert (E' : fold_res (fun d0 ij => let* x := F ij in zset d0 (Z.of_nat (match o with RowMajor => fst ij * n + snd ij | ColMajor => fst ij + snd ij * m end)%nat) (Some x)) cells (repeat None (m * n)) = Ok (map Some d)).
      { rewrite <- E. apply fold_res_ext. intros (i, j) s H. apply In_ in H as (Hi & Hj). unfold modify. rewrite HF by auto. cbn [bind]. symmetry. apply zset_after_get. }
      rewrite E'. cbn [bind]. apply assume_some.
    + intros i j Hi Hj. specialize (W i j Hi Hj). unfold elem. rewrite peek_map in W. destruct (peek d _); cbn in W; congruence. Qed.

Definition value {T W P S O} (M : metric T W P S O) (w : list W) (wt : W) (u v : list T) : O := m_finish M (m_stat M w u) (m_stat M w v) wt (accumulate M (m_stat M w u) (m_stat M w v) (triples u v w)).
Section Table.
  Context {T W P S O : Type} (M : metric T W P S O) (zero one : W) (add : W -> W -> W) (of_size : nat -> W).
  Lemma initialize_ok (d : list T) l m k A w : holds d l m k A -> initialize M d l w = Ok (map (fun i => m_stat M w (row k A i)) (seq 0 m)).
  Proof. intro H. unfold initialize. replace (extent l 0) with m by (unfold extent; now rewrite (proj1 H)). apply map_res_map. intros i Hi. apply in_seq in Hi. rewrite (read_row d l m k A i H) by lia. reflexivity. Qed.
  Lemma vectors (d : list T) l m k A i (strided : bool) : wf l -> holds d l m k A -> (i < m)%nat -> (strided = false -> nth 1 (l_stride l) 0 = 1) ->
    (if strided then strided_of d (l_offset l + Z.of_nat i * nth 0 (l_stride l) 0) (nth 1 (l_stride l) 0) k else slice_of d (l_offset l + Z.of_nat i * nth 0 (l_stride l) 0) k) = Ok (row k A i).
  Proof. intros Wf H Hi N. destruct strided; [|rewrite slice_strided, <- N by auto]; now apply read_strided with (m := m). Qed.
  Lemma cdist_cells_ok sigma size_t (xa xb : list T) la lb m n k A B (w : option (list W)) o : wf la -> wf lb -> holds xa la m k A -> holds xb lb n k B -> k <> 0%nat -> size_t <> 0%nat ->
    (forall cells, Permutation (sigma cells) cells) -> (forall ws, w = Some ws -> length ws = k) -> m_fits M k k = true ->
    let ws := match w with Some w => w | None => repeat one k end in
    let wt := match w with Some w => fold_left add w zero | None => of_size k end in
    exists d, cdist_cells M zero one add of_size sigma size_t xa xb la lb w o = Ok d /\ length d = (m * n)%nat /\ holds d (new_contig Fixed [m; n] 0 o) m n (fun i j => value M ws wt (row k A i) (row k B j)).
  Proof. intros Wa Wb Ha Hb Hk Hs Sg Lw Fit ws wt. assert (Lws : length ws = k) by (unfold ws; destruct w; [now apply Lw|apply repeat_length]). unfold cdist_cells. cbv zeta.
    assert (Ea : extent la 1 = k) by (unfold extent; now rewrite (proj1 Ha)). assert (Eb : extent lb 1 = k) by (unfold extent; now rewrite (proj1 Hb)).
    assert (Ma : extent la 0 = m) by (unfold extent; now rewrite (proj1 Ha)). assert (Mb : extent lb 0 = n) by (unfold extent; now rewrite (proj1 Hb)).
    rewrite Ea, Eb, Ma, Mb, Nat.eqb_refl. fold ws. fold wt. rewrite Lws, Fit. cbn [check bind]. rewrite (initialize_ok _ _ _ _ _ ws Ha), (initialize_ok _ _ _ _ _ ws Hb). cbn [bind]. destruct (batch_size_ok size_t k Hs Hk) as (b & -> & Hb0). cbn [bind].
    set (strided := negb _ || negb _). assert (Na : strided = false -> nth 1 (l_stride la) 0 = 1) by (unfold strided; lia). assert (Nb : strided = false -> nth 1 (l_stride lb) 0 = 1) by (unfold strided; lia). clearbody strided.
    pose (F := fun ij : nat * nat =>
        let ou := l_offset la + Z.of_nat (fst ij) * nth 0 (l_stride la) 0 in let ov := l_offset lb + Z.of_nat (snd ij) * nth 0 (l_stride lb) 0 in
        let* pu := vget (map (fun i => m_stat M ws (row k A i)) (seq 0 m)) (fst ij) in let* pv := vget (map (fun i => m_stat M ws (row k B i)) (seq 0 n)) (snd ij) in
        match w with
        | Some w => weighted_distance M strided xa xb ou ov (nth 1 (l_stride la) 0) (nth 1 (l_stride lb) 0) k w pu pv wt
        | None => distance M one strided xa xb ou ov (nth 1 (l_stride la) 0) (nth 1 (l_stride lb) 0) k pu pv wt
        end).
    destruct (table m n o (sigma (batch_cells m n b)) F (fun i j => value M ws wt (row k A i) (row k B j))) as (d & E & L & Hd).
    - intros i j. rewrite <- (in_batches m n b i j Hb0). split; apply Permutation_in; [apply Sg|symmetry; apply Sg].
    - intros i j Hi Hj. unfold F. cbn [fst snd]. rewrite !vget_map by auto. cbn [bind]. destruct w as [w|].
      + unfold weighted_distance. rewrite (vectors xa la m k A i strided), (vectors xb lb n k B j strided) by auto. cbn [bind]. assert (Ew : (if strided then map_res (fun i => vget w i) (seq 0 k) else Ok w) = Ok w) by (destruct strided; auto; now apply vget_list). rewrite Ew. reflexivity.
      + unfold distance. rewrite (vectors xa la m k A i strided), (vectors xb lb n k B j strided) by auto. reflexivity.
    - exists d. split; auto. rewrite <- E. f_equal. apply fold_res_ext. intros (i, j) s _. cbn [fst snd]. unfold F. cbn [fst snd]. rewrite !bind_assoc. apply bind_ext. intro pu. rewrite bind_assoc. reflexivity. Qed.
  Lemma cdist_ok sigma size_t dev (a b : tensor T) m n k A B (w : option (tensor W)) ws : tensor_ok a -> tensor_ok b -> holds (t_data a) (t_layout a) m k A -> holds (t_data b) (t_layout b) n k B -> k <> 0%nat -> size_t <> 0%nat ->
    (forall cells, Permutation (sigma cells) cells) -> m_fits M k k = true ->
    match w with None => ws = repeat one k | Some w => length ws = k /\ tensor_ok w /\ lists (t_data w) (t_layout w) ws /\ own_storage (t_layout w) (length (t_data w)) k end ->
    let wt := match w with Some _ => fold_left add ws zero | None => of_size k end in
    exists t, cdist M zero one add of_size sigma size_t dev a b w = Ok t /\ tensor_ok t /\ length (t_data t) = (m * n)%nat /\ t_layout t = new_contig Fixed [m; n] 0 dev /\ holds (t_data t) (t_layout t) m n (fun i j => value M ws wt (row k A i) (row k B j)).
  Proof. intros Ta Tb Ha Hb Hk Hs Sg Fit Hw wt. unfold cdist. unfold ndim. rewrite (proj1 Ha), (proj1 Hb). cbn [length Nat.eqb check bind].
    assert (Ma : extent (t_layout a) 0 = m) by (unfold extent; now rewrite (proj1 Ha)). assert (Mb : extent (t_layout b) 0 = n) by (unfold extent; now rewrite (proj1 Hb)). rewrite Ma, Mb.
    assert (E : exists w', match w with None => Ok None | Some w => let* _ := check (length (l_shape (t_layout w)) =? 1)%nat InvalidLayout in let* w := change_contig Fixed dev w RowMajor in Ok (Some (t_data w)) end = Ok w' /\
      (forall x, w' = Some x -> length x = k) /\ match w' with Some w => w | None => repeat one k end = ws /\ match w' with Some w => fold_left add w zero | None => of_size k end = wt).
    { destruct w as [w|]; [|exists None; subst ws; repeat split; auto; discriminate]. destruct Hw as (L & Tw & Hl & Own). rewrite <- L in Own. destruct (contig_weights dev w ws Tw Hl) as (c & Ec & Dc); auto. { intros ->. cbn in L. congruence. }
      rewrite (proj1 Hl). cbn [length Nat.eqb check bind]. rewrite Ec. cbn [bind]. exists (Some ws). rewrite Dc. split; auto. split; [intros x [= <-]; auto|]. auto. }
    destruct E as (w' & -> & L' & Ew & Et). cbn [bind]. assert (Wa : wf (t_layout a)) by (apply good_wf, good_accepted, Ta). assert (Wb : wf (t_layout b)) by (apply good_wf, good_accepted, Tb).
    destruct (cdist_cells_ok sigma size_t (t_data a) (t_data b) (t_layout a) (t_layout b) m n k A B w' dev Wa Wb Ha Hb Hk Hs Sg L' Fit) as (d & -> & L & Hd). rewrite Ew, Et in Hd. cbn [bind].
    destruct (contig_facts Fixed [m; n] dev) as (G & _ & C & Sh & Off). assert (Sz : size [m; n] = (m * n)%nat) by (unfold size; cbn; lia). rewrite Sz, <- L in C. apply covers_inside in C.
    rewrite tensor_new_ok by auto. eexists. split; [reflexivity|]. split; [split; [now apply good_accepted|exact C]|]. cbn [t_data t_layout]. auto. Qed.
End Table.
