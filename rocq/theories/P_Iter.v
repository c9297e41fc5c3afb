(** Proofs about M_Iter. *)
From Verif Require Import Base Spec P_Index P_List M_Layout P_Layout P_Bounds P_Contig M_Indexer M_Broadcast M_Rearr M_Iter.
Local Open Scope Z_scope.

(** ** unravelling for any position, the one past the end included *)
Lemma unravel_f_loop_any s k : size s <> 0%nat -> unravel_f_loop s k = Ok (unrav_f s k).
Proof. revert k; induction s as [|d s IH]; intros k H; [reflexivity|]. destruct s as [|e s]; [reflexivity|]. rewrite size_cons in H.
  rewrite unrav_f_cons by discriminate. change (unravel_f_loop (d :: e :: s) k) with (if (d =? 0)%nat then Panic else let* r := unravel_f_loop (e :: s) (k / d)%nat in Ok ((k mod d)%nat :: r)).
  destruct (Nat.eqb_spec d 0) as [->|Hd]; [lia|]. rewrite IH. reflexivity. intro X; rewrite X in H; lia. Qed.
Lemma unravel_f_fixed_any s k : size s <> 0%nat -> unravel_f_fixed s k = Ok (unrav_f s k).
Proof. intro Hk. destruct s as [|a [|b [|c [|d [|e s]]]]]; try reflexivity.
  - rewrite !size_cons in Hk. assert (a <> 0%nat) by (intros ->; lia).
    cbn [unravel_f_fixed]. rewrite ndiv_ok, nmod_ok by auto. reflexivity.
  - rewrite !size_cons in Hk. assert (a <> 0%nat) by (intros ->; lia). assert (b <> 0%nat) by (intros ->; lia).
    assert (a * b <> 0)%nat by (clear Hk; nia). destruct (div3 k a b) as [E1 E2]; auto.
    cbn [unravel_f_fixed]. repeat (rewrite ndiv_ok by auto; cbn [bind]). repeat (rewrite nmod_ok by auto; cbn [bind]).
    rewrite !ndiv_ok by auto. cbn [bind]. rewrite ?nmod_ok by auto. cbn [bind unrav_f].
    rewrite E1, E2, Nat.div_div by auto. reflexivity.
  - rewrite !size_cons in Hk. assert (a <> 0%nat) by (intros ->; lia). assert (b <> 0%nat) by (intros ->; lia).
    assert (c <> 0%nat) by (intros ->; lia).
    assert (a * b <> 0)%nat by (clear Hk; nia). assert (a * b * c <> 0)%nat by (clear Hk; nia).
    set (k1 := (k mod (a * b * c))%nat).
    destruct (div3 k (a * b) c) as [E1 E2]; auto. fold k1 in E1, E2.
    destruct (div3 k1 a b) as [E3 E4]; auto.
    destruct (div3 k a b) as [E5 E6]; auto.
    cbn [unravel_f_fixed]. rewrite ndiv_ok by auto; cbn [bind]. rewrite nmod_ok by auto; cbn [bind]. fold k1.
    rewrite ndiv_ok by auto; cbn [bind]. rewrite nmod_ok by auto; cbn [bind].
    rewrite ndiv_ok by auto; cbn [bind]. rewrite nmod_ok by auto; cbn [bind unrav_f].
    rewrite E2 in *. rewrite E5, E6, E1. rewrite !Nat.div_div by auto. reflexivity.
  - now apply unravel_f_loop_any. Qed.
(** position [k] of the walk in order [o] *)
Definition unrav (o : order) (s : list nat) (k : nat) : list nat := fastest o (unrav_f (fastest o s) k).
Lemma unravel_any o ty s k : size s <> 0%nat -> unravel o ty s k = Ok (unrav o s k).
Proof. intro H. unfold unravel, unrav, fastest. destruct o, ty; cbn [unravel_index_c unravel_index_f].
  - rewrite unravel_c_fixed_f. assert (E : unravel_c_loop s k = Ok (rev (unrav_f (rev s) k))) by (unfold unravel_c_loop; now rewrite unravel_f_loop_any by now rewrite size_rev).
    destruct (length s) as [|[|[|[|[|n]]]]]; auto; now rewrite unravel_f_fixed_any by now rewrite size_rev.
  - unfold unravel_c_loop. now rewrite unravel_f_loop_any by now rewrite size_rev.
  - now apply unravel_f_fixed_any.
  - now apply unravel_f_loop_any. Qed.
Lemma unrav_f_length s k : length (unrav_f s k) = length s.
Proof. revert k; induction s as [|d s IH]; intro k; auto. destruct s as [|e s]; auto. rewrite unrav_f_cons by discriminate. cbn [length]. now rewrite IH. Qed.

(** ** stepping *)
Lemma combine_map_snd {A B} (a : list A) (b : list B) : length a = length b -> map snd (combine a b) = b.
Proof. apply combine_snd. Qed.
Lemma step_up_ok wrap s st k off : length st = length s -> (k < size s)%nat -> (wrap = true -> S k < size s)%nat ->
  step_up wrap (combine (combine s st) (unrav_f s k)) (off + dot st (unrav_f s k)) = (unrav_f s (S k), off + dot st (unrav_f s (S k))).
Proof. revert st k off; induction s as [|d s IH]; intros [|t st] k off Hl Hk Hw; try discriminate; [cbn; f_equal; lia|].
  cbn in Hl. injection Hl as Hl. rewrite size_cons in *. destruct s as [|e s].
  - destruct st; [|discriminate]. cbn [unrav_f combine step_up length dot]. change (size []) with 1%nat in *. replace ((S k =? d)%nat && (wrap || negb (0 =? 0)%nat)) with false.
    + cbn [map]. f_equal. lia.
    + change (negb (0 =? 0)%nat) with false. destruct wrap; [specialize (Hw eq_refl)|]; lia.
  - assert (NE : e :: s <> []) by discriminate. revert IH Hl Hk Hw NE. generalize (e :: s). clear e s. intros s' IH Hl Hk Hw NE. rename st into st'. rewrite !unrav_f_cons by auto.
    change (combine (combine (d :: s') (t :: st')) (k mod d :: unrav_f s' (k / d))%nat) with ((d, t, (k mod d)%nat) :: combine (combine s' st') (unrav_f s' (k / d))).
    cbn [step_up dot].
    assert (Lc : length (combine (combine s' st') (unrav_f s' (k / d)) : list axis) = length s') by (unfold axis; rewrite !combine_length, unrav_f_length; lia).
    rewrite Lc. replace (length s' =? 0)%nat with false by (destruct s'; [congruence|reflexivity]). rewrite orb_true_r, andb_true_r. assert (D : d <> 0%nat) by (intros ->; lia).
    pose proof (Nat.div_mod k d D) as E1. pose proof (Nat.mod_upper_bound k d D) as E2.
    destruct (Nat.eqb_spec (S (k mod d)) d) as [E|E].
    + assert (Q : (S k / d = S (k / d) /\ S k mod d = 0)%nat).
      { assert (X : (S k = S (k / d) * d)%nat) by nia. rewrite X. split; [apply Nat.div_mul; auto|apply Nat.mod_mul; auto]. }
      destruct Q as [-> ->].
      replace (off + (t * Z.of_nat (k mod d) + dot st' (unrav_f s' (k / d))) + t - Z.of_nat d * t) with (off + dot st' (unrav_f s' (k / d))) by (replace (Z.of_nat d) with (Z.of_nat (k mod d) + 1) by lia; ring).
      rewrite IH; cbn [fst snd]; auto.
      * f_equal. lia.
      * apply Nat.div_lt_upper_bound; lia.
      * intro W. specialize (Hw W). assert (S k = S (k / d) * d)%nat by nia. nia.
    + assert (Q : (S k / d = k / d /\ S k mod d = S (k mod d))%nat).
      { replace (S k) with (S (k mod d) + (k / d) * d)%nat by lia. rewrite Nat.div_add, Nat.mod_add by auto. rewrite Nat.div_small, Nat.mod_small by lia. split; lia. }
      destruct Q as [-> ->]. rewrite combine_map_snd by (rewrite combine_length, unrav_f_length; lia). f_equal. lia. Qed.
Lemma step_down_ok wrap s st k off : length st = length s -> (k < size s)%nat ->
  step_down wrap (combine (combine s st) (unrav_f s (S k))) (off + dot st (unrav_f s (S k))) = Ok (unrav_f s k, off + dot st (unrav_f s k)).
Proof. revert st k off; induction s as [|d s IH]; intros [|t st] k off Hl Hk; try discriminate; [cbn; do 2 f_equal; lia|].
  cbn in Hl. injection Hl as Hl. rewrite size_cons in *. destruct s as [|e s].
  - destruct st; [|discriminate]. cbn [unrav_f combine step_down length dot]. cbn [Nat.eqb andb]. cbn [map]. do 2 f_equal; [f_equal; lia|lia].
  - assert (NE : e :: s <> []) by discriminate. revert IH Hl Hk NE. generalize (e :: s). clear e s. intros s' IH Hl Hk NE. rename st into st'. rewrite !unrav_f_cons by auto.
    change (combine (combine (d :: s') (t :: st')) (S k mod d :: unrav_f s' (S k / d))%nat) with ((d, t, (S k mod d)%nat) :: combine (combine s' st') (unrav_f s' (S k / d))).
    cbn [step_down dot].
    assert (Lc : length (combine (combine s' st') (unrav_f s' (S k / d)) : list axis) = length s') by (unfold axis; rewrite !combine_length, unrav_f_length; lia).
    rewrite Lc. replace (length s' =? 0)%nat with false by (destruct s'; [congruence|reflexivity]). rewrite orb_true_r, andb_true_r. assert (D : d <> 0%nat) by (intros ->; lia).
    pose proof (Nat.div_mod k d D) as E1. pose proof (Nat.mod_upper_bound k d D) as E2.
    destruct (Nat.eq_dec (S (k mod d)) d) as [E|E].
    + assert (Q : (S k / d = S (k / d) /\ S k mod d = 0)%nat).
      { assert (X : (S k = S (k / d) * d)%nat) by nia. rewrite X. split; [apply Nat.div_mul; auto|apply Nat.mod_mul; auto]. }
      destruct Q as [-> ->]. rewrite Nat.eqb_refl. replace (d =? 0)%nat with false by lia.
      replace (off + (t * Z.of_nat 0 + dot st' (unrav_f s' (S (k / d)))) + Z.of_nat (d - 1) * t) with ((off + Z.of_nat (d - 1) * t) + dot st' (unrav_f s' (S (k / d)))) by (cbn; ring).
      rewrite IH; cbn [bind fst snd]; auto.
      * do 2 f_equal; [f_equal; lia|]. replace (Z.of_nat (d - 1)) with (Z.of_nat (k mod d)) by lia. ring.
      * apply Nat.div_lt_upper_bound; lia.
    + assert (Q : (S k / d = k / d /\ S k mod d = S (k mod d))%nat).
      { replace (S k) with (S (k mod d) + (k / d) * d)%nat by lia. rewrite Nat.div_add, Nat.mod_add by auto. rewrite Nat.div_small, Nat.mod_small by lia. split; lia. }
      destruct Q as [-> ->]. cbn [Nat.eqb]. rewrite combine_map_snd by (rewrite combine_length, unrav_f_length; lia). do 2 f_equal; [f_equal; lia|]. lia. Qed.

(** in terms of a layout and an order *)
Lemma fastest_length {A} o (l : list A) : length (fastest o l) = length l.
Proof. destruct o; cbn; auto. apply rev_length. Qed.
Lemma fastest_invol {A} o (l : list A) : fastest o (fastest o l) = l.
Proof. destruct o; cbn; auto. apply rev_involutive. Qed.
Lemma fastest_combine {A B} o (a : list A) (b : list B) : length a = length b -> fastest o (combine a b) = combine (fastest o a) (fastest o b).
Proof. destruct o; cbn; auto. intro H. symmetry. now apply combine_rev. Qed.
Lemma size_fastest o s : size (fastest o s) = size s.
Proof. destruct o; cbn; auto. apply size_rev. Qed.
Lemma dot_fastest o st ix : length st = length ix -> dot (fastest o st) (fastest o ix) = dot st ix.
Proof. destruct o; cbn; auto. apply dot_rev. Qed.
Lemma unrav_length o s k : length (unrav o s k) = length s.
Proof. unfold unrav. now rewrite fastest_length, unrav_f_length, fastest_length. Qed.
Lemma axes_of_unrav o l k : length (l_stride l) = length (l_shape l) ->
  axes_of o l (unrav o (l_shape l) k) = combine (combine (fastest o (l_shape l)) (fastest o (l_stride l))) (unrav_f (fastest o (l_shape l)) k).
Proof. intro H. unfold axes_of. rewrite !fastest_combine by (rewrite ?combine_length, ?unrav_length; lia). unfold unrav. now rewrite fastest_invol. Qed.
Lemma addr_unrav o l k : length (l_stride l) = length (l_shape l) ->
  addr l (unrav o (l_shape l) k) = l_offset l + dot (fastest o (l_stride l)) (unrav_f (fastest o (l_shape l)) k).
Proof. intro H. unfold addr. f_equal. rewrite <- (dot_fastest o). - unfold unrav. now rewrite fastest_invol. - rewrite unrav_length. auto. Qed.
Lemma next_step o l k : length (l_stride l) = length (l_shape l) -> (k < size (l_shape l))%nat -> (wraps l = true -> S k < size (l_shape l))%nat ->
  step_up (wraps l) (axes_of o l (unrav o (l_shape l) k)) (addr l (unrav o (l_shape l) k)) = (fastest o (unrav o (l_shape l) (S k)), addr l (unrav o (l_shape l) (S k))).
Proof. intros H Hk Hw. rewrite axes_of_unrav, !addr_unrav by auto. rewrite step_up_ok; rewrite ?fastest_length, ?size_fastest; auto. unfold unrav. now rewrite fastest_invol. Qed.
Lemma back_step o l k : length (l_stride l) = length (l_shape l) -> (k < size (l_shape l))%nat ->
  step_down (wraps l) (axes_of o l (unrav o (l_shape l) (S k))) (addr l (unrav o (l_shape l) (S k))) = Ok (fastest o (unrav o (l_shape l) k), addr l (unrav o (l_shape l) k)).
Proof. intros H Hk. rewrite axes_of_unrav, !addr_unrav by auto. rewrite step_down_ok; rewrite ?fastest_length, ?size_fastest; auto. unfold unrav. now rewrite fastest_invol. Qed.
Lemma enum_nth o s k : (k < size s)%nat -> nth_error (enum o s) k = Some (unrav o s k).
Proof. intro H. unfold enum, unrav, fastest. destruct o; [now apply nth_row_major|now apply nth_col_major]. Qed.
Lemma enum_length o s : length (enum o s) = size s.
Proof. destruct o; [apply length_row_major|apply length_col_major]. Qed.
Lemma in_enum o s ix : In ix (enum o s) <-> valid s ix.
Proof. destruct o; [apply in_row_major|apply in_col_major]. Qed.
Lemma addrs_nth o l k : (k < size (l_shape l))%nat -> nth_error (addrs o l) k = Some (addr l (unrav o (l_shape l) k)).
Proof. intro H. unfold addrs. now rewrite nth_error_map, enum_nth. Qed.
Lemma addrs_length o l : length (addrs o l) = size (l_shape l).
Proof. unfold addrs. now rewrite map_length, enum_length. Qed.
Lemma unrav_valid o s k : (k < size s)%nat -> valid s (unrav o s k).
Proof. intro H. apply (in_enum o). eapply nth_error_In. now apply enum_nth. Qed.

(** ** the invariant: [it] still has to yield positions number [it_start .. it_end - 1] of the enumeration *)
Definition pending (o : order) (it : iter) : list Z := firstn (it_end it - it_start it) (skipn (it_start it) (addrs o (it_layout it))).
Definition inv (o : order) (it : iter) : Prop :=
  let l := it_layout it in
  wf l /\ nonneg l /\ (it_start it <= it_end it)%nat /\ (it_end it <= size (l_shape l))%nat /\
  ((it_start it < it_end it)%nat -> it_istart it = unrav o (l_shape l) (it_start it) /\ it_ostart it = addr l (it_istart it)
     /\ it_iend it = unrav o (l_shape l) (it_end it) /\ it_oend it = addr l (it_iend it)).

Lemma firstn_skipn_cons {A} (L : list A) s e x : (s < e)%nat -> nth_error L s = Some x -> firstn (e - s) (skipn s L) = x :: firstn (e - S s) (skipn (S s) L).
Proof. revert s e; induction L as [|y L IH]; intros s e H E; [destruct s; discriminate|]. destruct s as [|s].
  - cbn in E. injection E as <-. destruct e; [lia|]. cbn. now rewrite Nat.sub_0_r.
  - destruct e; [lia|]. cbn [Nat.sub skipn]. rewrite (IH s e); [|lia|auto]. reflexivity. Qed.
Lemma firstn_snoc {A} (L : list A) n x : nth_error L n = Some x -> firstn (S n) L = firstn n L ++ [x].
Proof. revert n; induction L; intros [|n] H; try discriminate; cbn in *; [congruence|]. f_equal. auto. Qed.
Lemma firstn_skipn_snoc {A} (L : list A) s e x : (s <= e)%nat -> nth_error L e = Some x -> firstn (S e - s) (skipn s L) = firstn (e - s) (skipn s L) ++ [x].
Proof. intros H E. replace (S e - s)%nat with (S (e - s)) by lia. apply firstn_snoc. rewrite <- E. clear E. revert s e H. induction L as [|y L IH]; intros s e H.
  - rewrite skipn_nil. now destruct (e - s)%nat, e.
  - destruct s; [cbn; now rewrite Nat.sub_0_r|]. destruct e; [lia|]. cbn. apply IH. lia. Qed.

Lemma iter_new_inv o k l : wf l -> nonneg l -> exists it, iter_new o k l = Ok it /\ inv o it /\ it_layout it = l /\ pending o it = addrs o l.
Proof. intros W N. unfold iter_new, l_size.
  assert (P : forall it, it_layout it = l -> it_start it = 0%nat -> it_end it = size (l_shape l) -> pending o it = addrs o l).
  { intros it E1 E2 E3. unfold pending. rewrite E1, E2, E3. cbn [skipn]. rewrite Nat.sub_0_r, <- (addrs_length o). apply firstn_all. }
  destruct (Nat.eqb_spec (size (l_shape l)) 0) as [E|E]; cbn [bind].
  - eexists. split; [reflexivity|]. split; [|split; [auto|now apply P]]. unfold inv; cbn. repeat split; try apply W; auto; try lia.
  - rewrite unravel_any by auto. cbn [bind]. eexists. split; [reflexivity|]. split; [|split; [auto|now apply P]]. unfold inv; cbn. split; auto. split; auto. split; [lia|]. split; [lia|]. intros _.
    assert (Z0 : repeat 0%nat (ndim l) = unrav o (l_shape l) 0). { unfold unrav, ndim. rewrite <- (fastest_length o (l_shape l)).
      assert (G : forall s, unrav_f s 0 = repeat 0%nat (length s)). { induction s as [|d s IH]; auto. destruct s as [|e s]; auto. rewrite unrav_f_cons by discriminate. destruct d; [cbn in *; now rewrite IH|]. rewrite Nat.mod_0_l, Nat.div_0_l by lia. cbn in *. now rewrite IH. }
      rewrite G. destruct o; cbn; auto. generalize (length (rev (l_shape l))). induction n; cbn; auto. rewrite <- IHn. clear. induction n; cbn; auto. now rewrite <- IHn at 1. }
    split; auto. split; [|split; auto]. unfold addr. rewrite dot_zeros. lia. Qed.

(** ** what each call does to the pending positions *)
Lemma pending_length o it : inv o it -> length (pending o it) = (it_end it - it_start it)%nat.
Proof. intros (W & N & H1 & H2 & _). unfold pending. rewrite firstn_length, skipn_length, addrs_length. lia. Qed.
Lemma pending_nil o it : (it_end it <= it_start it)%nat -> pending o it = [].
Proof. intro H. unfold pending. now replace (it_end it - it_start it)%nat with 0%nat by lia. Qed.
Lemma iter_next_ok o it : inv o it -> exists it', iter_next o it = Ok (hd_error (pending o it), it') /\ inv o it' /\ it_layout it' = it_layout it
   /\ pending o it' = tl (pending o it).
Proof. intro I. pose proof I as (W & N & H1 & H2 & H3). unfold iter_next. destruct (Nat.leb_spec (it_end it) (it_start it)) as [L|L].
  - exists it. rewrite pending_nil by auto. auto.
  - destruct (H3 L) as (E1 & E2 & E3 & E4). set (l := it_layout it) in *. set (k := it_start it) in *.
    assert (K : (k < size (l_shape l))%nat) by lia.
    assert (Pc : pending o it = it_ostart it :: firstn (it_end it - S k) (skipn (S k) (addrs o l))).
    { unfold pending. apply firstn_skipn_cons; auto. fold l k. rewrite addrs_nth by auto. now rewrite E2, E1. }
    rewrite Pc. assert (NN : 0 <= it_ostart it). { rewrite E2. apply N. rewrite E1. now apply unrav_valid. }
    unfold to_usize. replace (it_ostart it <? 0) with false by lia. cbn [bind hd_error tl].
    eexists. split; [reflexivity|]. split; [|split; [reflexivity|reflexivity]].
    unfold inv; cbn [it_layout it_istart it_start it_ostart it_iend it_end it_oend]. fold l. split; auto. split; auto. split; [lia|]. split; [lia|]. intro L2.
    rewrite E2, E1, next_step by (try apply W; lia). cbn [fst snd]. rewrite fastest_invol. auto. Qed.
Lemma rev_snoc_hd {A} (l : list A) x : hd_error (rev (l ++ [x])) = Some x /\ rev (tl (rev (l ++ [x]))) = l.
Proof. rewrite rev_app_distr. cbn. now rewrite rev_involutive. Qed.
Lemma iter_back_ok o it : inv o it -> exists it', iter_next_back o it = Ok (hd_error (rev (pending o it)), it') /\ inv o it' /\ it_layout it' = it_layout it
   /\ pending o it' = rev (tl (rev (pending o it))).
Proof. intro I. pose proof I as (W & N & H1 & H2 & H3). unfold iter_next_back. destruct (Nat.leb_spec (it_end it) (it_start it)) as [L|L].
  - exists it. rewrite pending_nil by auto. auto.
  - destruct (H3 L) as (E1 & E2 & E3 & E4). set (l := it_layout it) in *. destruct (it_end it) as [|k] eqn:Ek; [lia|].
    assert (K : (k < size (l_shape l))%nat) by lia.
    assert (Pc : pending o it = firstn (k - it_start it) (skipn (it_start it) (addrs o l)) ++ [addr l (unrav o (l_shape l) k)]).
    { unfold pending. rewrite Ek. apply firstn_skipn_snoc; [lia|]. fold l. now apply addrs_nth. }
    rewrite Pc. destruct (rev_snoc_hd (firstn (k - it_start it) (skipn (it_start it) (addrs o l))) (addr l (unrav o (l_shape l) k))) as [-> ->].
    rewrite E4, E3, back_step by (try apply W; lia). cbn [bind fst snd].
    assert (NN : 0 <= addr l (unrav o (l_shape l) k)) by (apply N; now apply unrav_valid).
    unfold to_usize. replace (addr l (unrav o (l_shape l) k) <? 0) with false by lia. cbn [bind].
    eexists. split; [reflexivity|]. replace (S k - 1)%nat with k by lia. split; [|split; [reflexivity|reflexivity]].
    unfold inv; cbn [it_layout it_istart it_start it_ostart it_iend it_end it_oend]. fold l. split; auto. split; auto. split; [lia|]. split; [lia|]. intro L2.
    rewrite fastest_invol. auto. Qed.
Lemma skipn_skipn' {A} (l : list A) a b : skipn a (skipn b l) = skipn (b + a) l.
Proof. revert l; induction b; intros [|x l]; cbn; auto. now rewrite skipn_nil. Qed.
Lemma index_uncheck_addr l ix : index_uncheck l ix = addr l ix.
Proof. reflexivity. Qed.
Lemma iter_split_ok o k it n : inv o it -> size (l_shape (it_layout it)) <> 0%nat -> (n <= length (pending o it))%nat ->
  exists a b, iter_split_at o k it n = Ok (a, b) /\ inv o a /\ inv o b /\ it_layout a = it_layout it /\ it_layout b = it_layout it
    /\ pending o a = firstn n (pending o it) /\ pending o b = skipn n (pending o it).
Proof. intros I S0 Hn. rewrite pending_length in Hn by auto. destruct I as (W & N & H1 & H2 & H3). unfold iter_split_at. rewrite unravel_any by auto. cbn [bind].
  do 2 eexists. split; [reflexivity|]. set (l := it_layout it) in *.
  assert (Dec : forall i, (i < it_end it)%nat -> (it_start it <= i)%nat -> (it_start it < it_end it)%nat) by (intros; lia).
  split; [|split; [|split; [reflexivity|split; [reflexivity|]]]].
  - unfold inv; cbn [it_layout it_istart it_start it_ostart it_iend it_end it_oend]. fold l. split; auto. split; auto. split; [lia|]. split; [lia|]. intro L. destruct H3 as (E1 & E2 & E3 & E4); [lia|]. repeat split; auto.
  - unfold inv; cbn [it_layout it_istart it_start it_ostart it_iend it_end it_oend]. fold l. split; auto. split; auto. split; [lia|]. split; [lia|]. intro L. destruct H3 as (E1 & E2 & E3 & E4); [lia|]. repeat split; auto.
  - unfold pending; cbn [it_layout it_istart it_start it_ostart it_iend it_end it_oend]. fold l. split.
    + rewrite firstn_firstn. f_equal. lia.
    + rewrite skipn_firstn_comm, skipn_skipn'. f_equal. lia. Qed.

(** ** the deque simulation *)
Lemma run_calls_ok k ops : forall it, inv (il_order it) (il_iter it) ->
  size (l_shape (it_layout (il_iter it))) <> 0%nat \/ Forall (fun op => op = Front \/ op = Back) ops ->
  splits_within ops (pending (il_order it) (il_iter it)) ->
  exists it', run_calls k ops it = Ok (fst (deque ops (pending (il_order it) (il_iter it))), it')
    /\ il_order it' = il_order it /\ it_layout (il_iter it') = it_layout (il_iter it) /\ inv (il_order it') (il_iter it')
    /\ pending (il_order it') (il_iter it') = snd (deque ops (pending (il_order it) (il_iter it))).
Proof. induction ops as [|op ops IH]; intros [o it] I S0 SW; cbn [il_order il_iter] in *.
  - exists (mkIterLayout o it). cbn. auto.
  - assert (S1 : size (l_shape (it_layout it)) <> 0%nat \/ Forall (fun op => op = Front \/ op = Back) ops) by (destruct S0 as [S0|S0]; [auto|right; now inversion S0]).
    destruct op as [| |n|n]; cbn [run_calls].
    + destruct (iter_next_ok o it I) as (it' & E & I' & L' & P'). unfold il_next. cbn [il_order il_iter]. rewrite E. cbn [bind fst snd].
      destruct (IH (mkIterLayout o it')) as (r & Er & Or & Lr & Ir & Pr); cbn [il_order il_iter]; auto; [now rewrite L'| |].
      { cbn [splits_within deque] in SW. rewrite P'. destruct (pending o it); auto. }
      cbn [il_order il_iter] in *. rewrite Er. cbn [bind fst snd]. exists r. rewrite P' in *. rewrite L' in *.
      cbn [deque]. destruct (pending o it) as [|x xs]; cbn [hd_error tl fst snd] in *; auto.
    + destruct (iter_back_ok o it I) as (it' & E & I' & L' & P'). unfold il_next_back. cbn [il_order il_iter]. rewrite E. cbn [bind fst snd].
      destruct (IH (mkIterLayout o it')) as (r & Er & Or & Lr & Ir & Pr); cbn [il_order il_iter]; auto; [now rewrite L'| |].
      { cbn [splits_within deque] in SW. rewrite P'. destruct (rev (pending o it)); auto. }
      cbn [il_order il_iter] in *. rewrite Er. cbn [bind fst snd]. exists r. rewrite P' in *. rewrite L' in *.
      cbn [deque]. destruct (rev (pending o it)) as [|x xs]; cbn [hd_error tl fst snd rev] in *; auto.
    + cbn [splits_within] in SW. destruct SW as [SW1 SW2]. destruct S0 as [S0|S0]; [|inversion S0 as [|? ? [X|X]]; discriminate].
      destruct (iter_split_ok o k it n I S0 SW1) as (a & b & E & Ia & Ib & La & Lb & Pa & Pb). unfold il_split_at. cbn [il_order il_iter]. rewrite E. cbn [bind fst snd].
      destruct (IH (mkIterLayout o a)) as (r & Er & Or & Lr & Ir & Pr); cbn [il_order il_iter]; auto; [now left; rewrite La|now rewrite Pa|].
      cbn [il_order il_iter] in *. exists r. rewrite Pa in *. rewrite La in *. cbn [deque]. auto.
    + cbn [splits_within] in SW. destruct SW as [SW1 SW2]. destruct S0 as [S0|S0]; [|inversion S0 as [|? ? [X|X]]; discriminate].
      destruct (iter_split_ok o k it n I S0 SW1) as (a & b & E & Ia & Ib & La & Lb & Pa & Pb). unfold il_split_at. cbn [il_order il_iter]. rewrite E. cbn [bind fst snd].
      destruct (IH (mkIterLayout o b)) as (r & Er & Or & Lr & Ir & Pr); cbn [il_order il_iter]; auto; [now left; rewrite Lb|now rewrite Pb|].
      cbn [il_order il_iter] in *. exists r. rewrite Pb in *. rewrite Lb in *. cbn [deque]. auto. Qed.
Lemma iter_len_ok o it : inv o it -> iter_len it = Ok (length (pending o it)).
Proof. intro I. rewrite pending_length by auto. destruct I as (_ & _ & H & _). unfold iter_len. replace (it_end it <? it_start it)%nat with false by lia. reflexivity. Qed.
Lemma collect_loop_ok fuel : forall it, inv (il_order it) (il_iter it) -> (length (pending (il_order it) (il_iter it)) < fuel)%nat ->
  collect_loop fuel it = Ok (pending (il_order it) (il_iter it)).
Proof. induction fuel as [|fuel IH]; intros [o it] I H; cbn [il_order il_iter] in *; [lia|]. cbn [collect_loop].
  destruct (iter_next_ok o it I) as (it' & E & I' & L' & P'). unfold il_next. cbn [il_order il_iter]. rewrite E. cbn [bind fst snd].
  destruct (pending o it) as [|x xs] eqn:Ep; cbn [hd_error tl length] in *; auto. rewrite IH; cbn [il_order il_iter]; auto; rewrite P'; cbn [bind]; auto. lia. Qed.
Lemma collect_ok it : inv (il_order it) (il_iter it) -> collect it = Ok (pending (il_order it) (il_iter it)).
Proof. intro I. unfold collect, il_len. rewrite (iter_len_ok (il_order it)) by auto. cbn [bind]. apply collect_loop_ok; auto. Qed.
Lemma dispatch_ok k l : wf l -> nonneg l -> dispatch_positions k l = Ok (addrs ColMajor l).
Proof. intros W N. unfold dispatch_positions. destruct (iter_new_inv ColMajor k l W N) as (it & -> & I & _ & P). cbn [bind]. rewrite collect_ok; cbn; auto. now rewrite P. Qed.
