(** Proofs about triangular packing. *)
From Verif Require Import Base Spec Spec_Matmul Spec_Tri P_Index P_List M_Layout P_Layout P_Bounds P_Contig P_Strides M_Indexer P_Indexer M_Broadcast P_Broadcast M_Rearr P_Rearr P_BinOp M_Iter P_Iter M_Kernel P_Kernel Q_Kernel M_Tensor P_Tensor Q_Tensor Q_Copy P_Arg P_Axes M_Matmul P_Matmul P_Matmul2 P_Matmul3 P_Matmul4 Q_Matmul M_Tri.
Local Open Scope Z_scope.

Lemma contig_addr l ix : wf l -> size (l_shape l) <> 0%nat -> c_contig l = true -> valid (l_shape l) ix -> addr l ix = l_offset l + Z.of_nat (rav_c (l_shape l) ix).
Proof. intros W S C V. apply c_contig_iff in C; auto. unfold consecutive in C. rewrite <- map_rav_c_row_major, map_map in C. apply (ext_in_map C). now apply in_row_major. Qed.

(** ** folds *)
Lemma fold_res_inv {A S} (P : S -> Prop) (f g : S -> A -> res S) l : (forall x s, In x l -> P s -> f s x = g s x) -> (forall x s s', In x l -> P s -> g s x = Ok s' -> P s') -> forall s, P s -> fold_res f l s = fold_res g l s.
Proof. induction l as [|x l IH]; intros H K s Ps; cbn [fold_res]; auto. rewrite H; auto using in_eq. destruct (g s x) eqn:E; cbn [bind]; auto. apply IH; auto using in_cons. - intros; eapply K; eauto using in_cons. - eapply K; eauto using in_eq. Qed.
Lemma fold_res_keeps {A S} (P : S -> Prop) (g : S -> A -> res S) l : (forall x s s', In x l -> P s -> g s x = Ok s' -> P s') -> forall s s', P s -> fold_res g l s = Ok s' -> P s'.
Proof. induction l as [|x l IH]; intros K s s' Ps E; cbn [fold_res] in E. - injection E as <-; auto. - apply bind_ok in E as (s1 & E1 & E). apply (IH ltac:(intros; eapply K; eauto using in_cons) s1); auto. eapply K; eauto using in_eq. Qed.
(** a counter that goes up by one at every step *)
Lemma counter_fold {A S} (f : S -> nat -> A -> res S) l : forall s k,
  fold_res (fun s x => let* s' := f (fst s) (snd s) x in Ok (s', Datatypes.S (snd s))) l (s, k) =
  let* s' := fold_res (fun s kx => f s (fst kx) (snd kx)) (combine (seq k (length l)) l) s in Ok (s', (k + length l)%nat).
Proof. induction l as [|x l IH]; intros s k; cbn [fold_res length seq combine].
  - cbn [bind]. now rewrite Nat.add_0_r.
  - cbn [fst snd]. destruct (f s k x) as [s'| |]; cbn [bind]; auto. rewrite IH. now rewrite Nat.add_succ_comm. Qed.
Lemma fold_pairs {A B S} (f : S -> A * B -> res S) (g : A -> list B) l s : fold_res (fun s i => fold_res (fun s j => f s (i, j)) (g i) s) l s = fold_res f (flat_map (fun i => map (pair i) (g i)) l) s.
Proof. rewrite fold_res_flat_map. apply fold_res_ext'. intros s' x. now rewrite fold_res_map. Qed.
Lemma bind_fst {A B} (r : res A) (k : B) : (let* s := (let* a := r in Ok (a, k)) in Ok (fst s)) = r.
Proof. now destruct r. Qed.

(** ** the cells of a triangle *)
Lemma range_0 n : range 0 n = seq 0 n. Proof. unfold range. now rewrite Nat.sub_0_r. Qed.
Lemma filter_all {A} (p : A -> bool) l : (forall x, In x l -> p x = true) -> filter p l = l.
Proof. induction l as [|x l IH]; cbn; intro H; auto. rewrite H by auto. f_equal. auto. Qed.
Lemma filter_le i n : (i < n)%nat -> filter (fun j => (j <=? i)%nat) (seq 0 n) = range 0 (i + 1).
Proof. intro H. rewrite range_0. replace n with ((i + 1) + (n - (i + 1)))%nat by lia. rewrite seq_app, filter_app. rewrite filter_all, filter_false; [apply app_nil_r| |]; intros x Hx; apply in_seq in Hx; lia. Qed.
Lemma filter_ge i n : (i < n)%nat -> filter (fun j => (i <=? j)%nat) (seq 0 n) = range i n.
Proof. intro H. unfold range. replace n with (i + (n - i))%nat at 1 by lia. rewrite seq_app, filter_app. rewrite filter_false, filter_all; [reflexivity| |]; intros x Hx; apply in_seq in Hx; lia. Qed.
Lemma list_prod_flat {A B} (l : list A) (m : list B) : list_prod l m = flat_map (fun i => map (pair i) m) l.
Proof. induction l as [|x l IH]; auto. cbn [list_prod flat_map]. now rewrite IH. Qed.
Lemma filter_map_comm {A B} (f : A -> B) p l : filter p (map f l) = map f (filter (fun x => p (f x)) l).
Proof. induction l as [|x l IH]; cbn; auto. destruct (p (f x)); cbn; congruence. Qed.
Lemma cells_lower n : tri_cells RowMajor Lower n = flat_map (fun i => map (pair i) (range 0 (i + 1))) (seq 0 n).
Proof. unfold tri_cells. rewrite list_prod_flat, filter_flat_map. apply flat_map_ext_in. intros i Hi. apply in_seq in Hi. rewrite filter_map_comm. cbn [fst snd in_triangle]. now rewrite filter_le by lia. Qed.
Lemma cells_upper n : tri_cells RowMajor Upper n = flat_map (fun i => map (pair i) (range i n)) (seq 0 n).
Proof. unfold tri_cells. rewrite list_prod_flat, filter_flat_map. apply flat_map_ext_in. intros i Hi. apply in_seq in Hi. rewrite filter_map_comm. cbn [fst snd in_triangle]. now rewrite filter_ge by lia. Qed.
Lemma tri_in_prod o u n c : In c (tri_cells o u n) <-> (fst c < n)%nat /\ (snd c < n)%nat /\ in_triangle u (fst c) (snd c) = true.
Proof. unfold tri_cells. rewrite filter_In. destruct c as [i j]. cbn [fst snd]. split; intros [H K].
  - assert (X : (i < n /\ j < n)%nat); [|tauto]. destruct o; [|apply in_map_iff in H as ([x y] & [= <- <-] & H)]; cbn in *; apply in_prod_iff in H as [H1 H2]; apply in_seq in H1, H2; lia.
  - destruct K as [K1 K2]. split; auto. destruct o; [apply in_prod; apply in_seq; lia|]. apply in_map_iff. exists (j, i). split; auto. apply in_prod; apply in_seq; lia. Qed.
Lemma tri_nodup o u n : NoDup (tri_cells o u n).
Proof. unfold tri_cells. apply NoDup_filter. destruct o; [|apply FinFun.Injective_map_NoDup; [intros [a b] [c d] [= -> ->]; auto|]]; apply nodup_prod; apply seq_NoDup. Qed.
Lemma len_lower n : (2 * length (tri_cells RowMajor Lower n) = n * (n + 1))%nat.
Proof. rewrite cells_lower. induction n as [|n IH]; auto. rewrite seq_S, flat_map_app, app_length. cbn [flat_map]. rewrite app_nil_r, map_length, range_0, seq_length. cbn [plus] in *. lia. Qed.
Definition swap2 (c : nat * nat) : nat * nat := (snd c, fst c).
Lemma swap2_inj c d : swap2 c = swap2 d -> c = d. Proof. destruct c, d. unfold swap2. cbn. congruence. Qed.
Lemma tri_len o u n : (2 * length (tri_cells o u n) = n * (n + 1))%nat.
Proof. rewrite <- len_lower. f_equal. destruct u; [rewrite <- (map_length swap2)|]; apply Permutation_length; (apply NoDup_Permutation; [|apply tri_nodup|]).
  - apply FinFun.Injective_map_NoDup; [intros x y; apply swap2_inj|apply tri_nodup].
  - intros [i j]. rewrite in_map_iff. rewrite tri_in_prod. cbn [fst snd in_triangle]. split.
    + intros ([x y] & [= <- <-] & H). apply tri_in_prod in H. cbn in H. cbn. lia.
    + intro H. exists (j, i). split; auto. apply tri_in_prod. cbn. lia.
  - apply tri_nodup.
  - intros c. now rewrite !tri_in_prod. Qed.
Lemma tri_len_div o u n : (n * (n + 1) / 2 = length (tri_cells o u n))%nat.
Proof. rewrite <- (tri_len o u n), Nat.mul_comm. now rewrite Nat.div_mul. Qed.
Lemma tri_flip u n : tri_cells ColMajor u n = map swap2 (tri_cells RowMajor (flip_uplo u) n).
Proof. unfold tri_cells. rewrite filter_map_comm. unfold swap2. f_equal. apply filter_ext. intros [i j]. now destruct u. Qed.

(** numbered cells *)
Definition numbered {A} (l : list A) : list (nat * A) := combine (seq 0 (length l)) l.
Lemma in_numbered {A} (l : list A) p x : In (p, x) (numbered l) <-> nth_error l p = Some x.
Proof. unfold numbered. split.
  - intro H. apply in_combine_nth in H as (k & H1 & H2). assert (k < length l)%nat by (apply nth_error_Some; congruence). assert (p = k); [|congruence].
    apply nth_error_nth with (d := 0%nat) in H1. rewrite seq_nth in H1 by auto. lia.
  - intro H. apply combine_nth_error with (k := p); auto. assert (p < length l)%nat by (apply nth_error_Some; congruence). rewrite nth_error_nth' with (d := 0%nat) by (rewrite seq_length; lia). f_equal. now rewrite seq_nth. Qed.

(** ** pack kernels as one list of writes *)
Definition pack_put {T} (pa : nat -> Z) (b : list T) (pb : nat -> nat -> Z) (a : list (option T)) (s : nat * (nat * nat)) : res (list (option T)) :=
  let* y := (let* x := zget b (pb (fst (snd s)) (snd (snd s))) in Ok (Some x)) in zset a (pa (fst s)) y.
Lemma pack_cells {T} pa (b : list T) pb (g : nat -> list nat) n a : 
  (let* s := fold_res (fun s i => fold_res (pack_cell pa b pb i) (g i) s) (seq 0 n) (a, 0%nat) in Ok (fst s)) = fold_res (pack_put pa b pb) (numbered (flat_map (fun i => map (pair i) (g i)) (seq 0 n))) a.
Proof. set (f := fun (s : list (option T)) (k : nat) (c : nat * nat) => pack_put pa b pb s (k, c)).
  erewrite fold_res_ext'. 2:{ intros s i. apply (fold_res_ext' _ (fun s j => (fun s x => let* s' := f (fst s) (snd s) x in Ok (s', S (snd s))) s (i, j))). intros s' j. unfold pack_cell, f, pack_put. cbn [fst snd]. rewrite !bind_assoc. reflexivity. }
  rewrite (fold_pairs (fun s x => let* s' := f (fst s) (snd s) x in Ok (s', S (snd s))) g), counter_fold, bind_fst. unfold numbered. apply fold_res_ext'. now intros s [p c]. Qed.

Lemma zset_length {T} (c : list T) p v c' : zset c p v = Ok c' -> length c' = length c.
Proof. unfold zset, vset. destruct (p <? 0); [discriminate|]. destruct (_ <? _)%nat; [|discriminate]. intros [= <-]. apply upd_length. Qed.
Lemma pack_put_length {T} pa (b : list T) pb a s a' : pack_put pa b pb a s = Ok a' -> length a' = length a.
Proof. unfold pack_put. intro E. apply bind_ok in E as (y & _ & E). now apply zset_length in E. Qed.
Lemma numbered_app {A} (l1 l2 : list A) : numbered (l1 ++ l2) = numbered l1 ++ combine (seq (length l1) (length l2)) l2.
Proof. unfold numbered. rewrite app_length, seq_app. apply combine_app. now rewrite seq_length. Qed.
Lemma combine_seq_map {A} (f : nat -> A) k n : combine (seq k n) (map f (seq 0 n)) = map (fun t => ((k + t)%nat, f t)) (seq 0 n).
Proof. assert (E : seq k n = map (fun t => (k + t)%nat) (seq 0 n)). { clear. induction n as [|n IH] in k |- *; cbn; auto. f_equal; [lia|]. rewrite IH, <- seq_shift, map_map. apply map_ext. intro; lia. } rewrite E. apply combine_map. Qed.

Lemma tril_contig_cells {T} (a : list (option T)) oa (b : list T) ob n : 0 <= oa -> 0 <= ob -> oa + Z.of_nat (length (tri_cells RowMajor Lower n)) <= Z.of_nat (length a) -> ob + Z.of_nat (n * n) <= Z.of_nat (length b) ->
  pack_tril_contig a oa b ob n = fold_res (pack_put (fun p => oa + Z.of_nat p) b (fun i j => ob + Z.of_nat (i * n + j))) (numbered (tri_cells RowMajor Lower n)) a.
Proof. intros Ha Hb La Lb. unfold pack_tril_contig. replace (_ && _) with true by lia. set (put := pack_put _ _ _).
  set (cells := fun m => flat_map (fun i => map (pair i) (range 0 (i + 1))) (seq 0 m)).
  assert (Mono : forall m, (m < n)%nat -> (length (cells m) + (m + 1) <= length (cells n))%nat).
  { intros m Hm. unfold cells. replace n with (S m + (n - S m))%nat by lia. rewrite seq_app, flat_map_app, app_length, seq_S, flat_map_app, app_length. cbn [flat_map]. rewrite app_nil_r, map_length, range_0, seq_length. cbn [plus]. lia. }
  assert (X : forall m, (m <= n)%nat -> fold_res (fun s i => let '(a, pa, pb) := s in
        if (pa + Z.of_nat (i + 1) <=? Z.of_nat (length a)) && (pb + Z.of_nat n <=? Z.of_nat (length b)) then
          let* a := fold_res (fun a t => let* x := zget b (pb + Z.of_nat t) in zset a (pa + Z.of_nat t) (Some x)) (seq 0 (Nat.min (i + 1) n)) a in
          Ok (a, pa + Z.of_nat (i + 1), pb + Z.of_nat n)
        else Panic) (seq 0 m) (a, oa, ob) = let* a' := fold_res put (numbered (cells m)) a in Ok (a', oa + Z.of_nat (length (cells m)), ob + Z.of_nat (m * n))).
  { induction m as [|m IH]; intro Hm. { cbn. now rewrite !Z.add_0_r. }
    rewrite seq_S, fold_res_app, IH by lia. cbn [plus]. assert (Ec : cells (S m) = cells m ++ map (pair m) (seq 0 (m + 1))). { unfold cells. rewrite seq_S, flat_map_app. cbn [flat_map plus]. now rewrite app_nil_r, range_0. }
    rewrite Ec, numbered_app, fold_res_app. destruct (fold_res put (numbered (cells m)) a) as [a'| |] eqn:Ea; cbn [bind]; auto.
    assert (L : length a' = length a). { apply (fold_res_keeps (fun s => length s = length a) put (numbered (cells m))) with (s := a); auto. intros x s s' _ E1 E2. apply pack_put_length in E2. congruence. }
    cbn [fold_res]. specialize (Mono m ltac:(lia)). rewrite cells_lower in La. fold (cells n) in La.
    assert (m * n + n <= n * n)%nat by nia. replace (_ && _) with true by (symmetry; rewrite L; apply andb_true_iff; split; apply Z.leb_le; lia). replace (Nat.min (m + 1) n) with (m + 1)%nat by lia.
    rewrite map_length, seq_length, combine_seq_map, fold_res_map. rewrite bind_assoc.
    erewrite fold_res_ext'. 2:{ intros s t. instantiate (1 := fun s t => put s ((length (cells m) + t)%nat, (m, t))). unfold put, pack_put. cbn [fst snd]. rewrite bind_assoc. cbn [bind]. now replace (oa + Z.of_nat (length (cells m)) + Z.of_nat t) with (oa + Z.of_nat (length (cells m) + t)) by lia; replace (ob + Z.of_nat (m * n) + Z.of_nat t) with (ob + Z.of_nat (m * n + t)) by lia. }
    apply bind_ext. intro a2. cbn [bind]. rewrite app_length, map_length, seq_length. f_equal. f_equal; [f_equal|]; lia. }
  rewrite X by lia. rewrite bind_assoc. cbn [bind fst]. rewrite bind_id. now rewrite cells_lower. Qed.

(** the step for one matrix *)
Lemma pack_one_cells {T} u (la lb : layout) (b : list T) n (a : list (option T)) oa ob : n <> 0%nat -> l_shape la = [length (tri_cells RowMajor u n)] -> l_shape lb = [n; n] -> length (l_stride la) = 1%nat -> length (l_stride lb) = 2%nat ->
  inside (at_offset la oa) (length a) -> inside (at_offset lb ob) (length b) ->
  pack_one u (c_contig la && c_contig lb) la lb b n a [oa; ob] =
  fold_res (pack_put (fun p => addr (at_offset la oa) [p]) b (fun i j => addr (at_offset lb ob) [i; j])) (numbered (tri_cells RowMajor u n)) a.
Proof. intros Hn Sa Sb La Lb Ia Ib. remember (length (tri_cells RowMajor u n)) as N eqn:EN. assert (HN : N <> 0%nat). { pose proof (tri_len RowMajor u n). rewrite <- EN in H. nia. }
  assert (GEN : forall g, tri_cells RowMajor u n = flat_map (fun i => map (pair i) (g i)) (seq 0 n) ->
    (let* s := fold_res (fun s i => fold_res (pack_cell (fun p => index_uncheck (at_offset la oa) [p]) b (fun i j => index_uncheck (at_offset lb ob) [i; j]) i) (g i) s) (seq 0 n) (a, 0%nat) in Ok (fst s)) =
    fold_res (pack_put (fun p => addr (at_offset la oa) [p]) b (fun i j => addr (at_offset lb ob) [i; j])) (numbered (tri_cells RowMajor u n)) a).
  { intros g Eg. rewrite pack_cells, <- Eg. apply fold_res_ext'. intros s c. unfold pack_put. now rewrite !index_uncheck_addr. }
  destruct (c_contig la && c_contig lb) eqn:Cg.
  2:{ destruct u; cbn [pack_one]; unfold pack_triu_general, pack_tril_general; apply GEN; [apply cells_upper|apply cells_lower]. }
  apply andb_true_iff in Cg as [Ca Cb].
  assert (Oa : 0 <= oa). { specialize (Ia [0%nat]). unfold addr in Ia. cbn [at_offset l_shape l_offset l_stride] in Ia. rewrite Sa in Ia. specialize (Ia ltac:(apply valid_tuple1; lia)). destruct (l_stride la) as [|x [|y r]]; cbn [dot length] in *; lia. }
  assert (Ob : 0 <= ob). { specialize (Ib [0%nat; 0%nat]). unfold addr in Ib. cbn [at_offset l_shape l_offset l_stride] in Ib. rewrite Sb in Ib. specialize (Ib ltac:(apply valid_tuple2; lia)). destruct (l_stride lb) as [|x [|y [|w r]]]; cbn [dot length] in *; lia. }
  assert (Aa : forall p, (p < N)%nat -> addr (at_offset la oa) [p] = oa + Z.of_nat p).
  { intros p Hp. rewrite contig_addr; cbn [at_offset l_shape l_offset]; rewrite ?Sa.
    - f_equal. f_equal. cbn. lia. - split; cbn; [now rewrite Sa|auto]. - cbn. lia. - exact Ca. - now apply valid_tuple1. }
  assert (Ab : forall i j, (i < n)%nat -> (j < n)%nat -> addr (at_offset lb ob) [i; j] = ob + Z.of_nat (i * n + j)).
  { intros i j Hi Hj. rewrite contig_addr; cbn [at_offset l_shape l_offset]; rewrite ?Sb.
    - f_equal. f_equal. cbn. lia. - split; cbn; [now rewrite Sb|auto]. - cbn. nia. - exact Cb. - now apply valid_tuple2. }
  assert (Ra : oa + Z.of_nat N <= Z.of_nat (length a)). { specialize (Ia [(N - 1)%nat]). rewrite Aa in Ia by lia. cbn [at_offset l_shape] in Ia. rewrite Sa in Ia. specialize (Ia ltac:(apply valid_tuple1; lia)). lia. }
  assert (Rb : ob + Z.of_nat (n * n) <= Z.of_nat (length b)). { specialize (Ib [(n - 1)%nat; (n - 1)%nat]). rewrite Ab in Ib by lia. cbn [at_offset l_shape] in Ib. rewrite Sb in Ib. specialize (Ib ltac:(apply valid_tuple2; lia)). assert (n * n = (n - 1) * n + n)%nat by nia. lia. }
  assert (EQ : fold_res (pack_put (fun p => oa + Z.of_nat p) b (fun i j => ob + Z.of_nat (i * n + j))) (numbered (tri_cells RowMajor u n)) a =
    fold_res (pack_put (fun p => addr (at_offset la oa) [p]) b (fun i j => addr (at_offset lb ob) [i; j])) (numbered (tri_cells RowMajor u n)) a).
  { apply fold_res_ext. intros [p [i j]] s Hc. apply in_numbered in Hc. unfold pack_put. cbn [fst snd]. rewrite Aa by (rewrite EN; apply nth_error_Some; congruence). apply nth_error_In, tri_in_prod in Hc. cbn in Hc. now rewrite Ab by lia. }
  destruct u; cbn [pack_one].
  - unfold pack_triu_contig. replace (_ && _) with true by lia. rewrite pack_cells, <- cells_upper. exact EQ.
  - rewrite tril_contig_cells; auto. now rewrite <- EN. Qed.
