(** Proofs about M_Reshape. *)
From Verif Require Import Base Spec P_Index P_List M_Layout P_Layout P_Bounds P_Contig P_Strides M_Reshape.
Local Open Scope Z_scope.

(** positions of an axis list, row-major ([false]) or column-major ([true]) *)
Definition A (f : bool) (ps : list (nat * Z)) : list Z :=
  map (dot (map snd ps)) ((if f then col_major else row_major) (map fst ps)).
Definition comp (f : bool) (X Y : list Z) : list Z :=
  if f then flat_map (fun b => map (Z.add b) X) Y else flat_map (fun a => map (Z.add a) Y) X.
Definition prog (n : nat) (t : Z) : list Z := map (fun k => Z.of_nat k * t) (seq 0 n).

Lemma A_nil f : A f [] = [0].
Proof. destruct f; reflexivity. Qed.
Lemma A_cons f d t ps : A f ((d, t) :: ps) = comp f (prog d t) (A f ps).
Proof. unfold A, comp, prog. destruct f; cbn [map fst snd row_major col_major].
  - rewrite map_flat_map, flat_map_map. apply flat_map_ext_in. intros ix _. rewrite !map_map. apply map_ext. intro k. cbn [dot]. lia.
  - rewrite map_flat_map, flat_map_map. apply flat_map_ext_in. intros ix _. rewrite !map_map. apply map_ext. intro k. cbn [dot]. lia. Qed.
Lemma comp_0_l f Y : comp f [0] Y = Y.
Proof. unfold comp. destruct f; cbn.
  - rewrite flat_map_concat_map. induction Y; cbn; auto. f_equal; [lia|auto].
  - rewrite app_nil_r. rewrite <- (map_id Y) at 2. apply map_ext. intros; lia. Qed.
Lemma comp_0_r f Y : comp f Y [0] = Y.
Proof. replace (comp f Y [0]) with (comp (negb f) [0] Y) by (destruct f; reflexivity). apply comp_0_l. Qed.
Lemma map_add_comp X Y x : map (Z.add x) (flat_map (fun a => map (Z.add a) Y) X) = flat_map (fun a => map (Z.add a) Y) (map (Z.add x) X).
Proof. rewrite map_flat_map, flat_map_map. apply flat_map_ext_in. intros a _. rewrite map_map. apply map_ext. intros; lia. Qed.
Lemma comp_assoc f X Y Z : comp f (comp f X Y) Z = comp f X (comp f Y Z).
Proof. unfold comp. destruct f.
  - rewrite flat_map_flat_map. apply flat_map_ext_in. intros z _. apply map_add_comp.
  - rewrite flat_map_flat_map. apply flat_map_ext_in. intros x _. symmetry. apply map_add_comp. Qed.
Lemma A_app f p q : A f (p ++ q) = comp f (A f p) (A f q).
Proof. induction p as [|[d t] p IH]; cbn [app]; [now rewrite A_nil, comp_0_l|]. now rewrite !A_cons, IH, comp_assoc. Qed.
Lemma map_add_seq m n a : map (fun k => (m + k)%nat) (seq a n) = seq (m + a) n.
Proof. revert a; induction n; intro a; cbn; auto. f_equal. rewrite IHn. f_equal. lia. Qed.
Lemma prog_1 t : prog 1 t = [0]. Proof. reflexivity. Qed.
Lemma prog_mul m n t : flat_map (fun a => map (Z.add a) (prog n t)) (prog m (Z.of_nat n * t)) = prog (m * n) t.
Proof. induction m as [|m IH]; [reflexivity|]. unfold prog in *. rewrite seq_S, map_app, flat_map_app, IH. cbn [map flat_map]. rewrite app_nil_r.
  replace (S m * n)%nat with (m * n + n)%nat by lia. rewrite seq_app, map_app. f_equal. cbn [plus].
  replace (seq (m * n) n) with (map (fun k => (m * n + k)%nat) (seq 0 n)) by (rewrite map_add_seq; f_equal; lia). rewrite !map_map. apply map_ext. intro k. rewrite Nat2Z.inj_add, Nat2Z.inj_mul. ring. Qed.
Lemma comp_prog_f d t n : comp true (prog d t) (prog n (Z.of_nat d * t)) = prog (d * n) t.
Proof. unfold comp. rewrite prog_mul. f_equal. lia. Qed.
Lemma comp_prog_c d n t : comp false (prog d (Z.of_nat n * t)) (prog n t) = prog (d * n) t.
Proof. unfold comp. apply prog_mul. Qed.

Notation dims ps := (map (@fst nat Z) ps).
Lemma combinable_f d t r : combinable true ((d, t) :: r) = true -> A true ((d, t) :: r) = prog (size (dims ((d, t) :: r))) t.
Proof. revert d t; induction r as [|[d' t'] r IH]; intros d t H; rewrite A_cons; cbn [map fst].
  - rewrite A_nil, comp_0_r. f_equal. cbn. lia.
  - cbn [combinable] in H. apply andb_true_iff in H. destruct H as [H1 H2]. rewrite (IH d' t' H2). apply Z.eqb_eq in H1. subst t'. rewrite comp_prog_f. rewrite !size_cons. cbn [map fst]. now rewrite size_cons. Qed.
Lemma combinable_c d t r : combinable false ((d, t) :: r) = true ->
  t = Z.of_nat (size (dims r)) * snd (last ((d, t) :: r) (0%nat, 0)) /\ A false ((d, t) :: r) = prog (size (dims ((d, t) :: r))) (snd (last ((d, t) :: r) (0%nat, 0))).
Proof. revert d t; induction r as [|[d' t'] r IH]; intros d t H; rewrite A_cons; cbn [map fst].
  - rewrite A_nil, comp_0_r. split; [cbn [map last snd]; change (size []) with 1%nat; lia|]. cbn [last snd]. rewrite size_cons. f_equal. change (size []) with 1%nat. lia.
  - cbn [combinable] in H. apply andb_true_iff in H. destruct H as [H1 H2]. destruct (IH d' t' H2) as [E1 E2]. rewrite E2. apply Z.eqb_eq in H1.
    change (last ((d, t) :: (d', t') :: r) (0%nat, 0)) with (last ((d', t') :: r) (0%nat, 0)). set (tl := snd (last ((d', t') :: r) (0%nat, 0))) in *. clearbody tl.
    rewrite !size_cons. cbn [map fst] in *. rewrite !size_cons in *.
    assert (E : t = Z.of_nat (d' * size (dims r)) * tl) by (rewrite H1, E1, Nat2Z.inj_mul; ring). split; auto. rewrite E at 1. apply comp_prog_c. Qed.

Lemma strides_up_length dl t : length (strides_up dl t) = length dl.
Proof. revert t; induction dl; intro t; cbn; auto. Qed.
Lemma strides_up_snoc dl d t : strides_up (dl ++ [d]) t = strides_up dl t ++ [t * Z.of_nat (size dl)].
Proof. revert t; induction dl as [|x dl IH]; intro t; cbn [app strides_up]; [now rewrite Z.mul_1_r|]. rewrite IH, size_cons, Nat2Z.inj_mul. do 3 f_equal. ring. Qed.
Lemma strides_f dl t : A true (combine dl (strides_up dl t)) = prog (size dl) t.
Proof. revert t; induction dl as [|d dl IH]; intro t; cbn [strides_up combine]; [reflexivity|]. rewrite A_cons, IH. rewrite Z.mul_comm, comp_prog_f. now rewrite size_cons. Qed.
Lemma strides_c dl t : A false (combine dl (rev (strides_up (rev dl) t))) = prog (size dl) t.
Proof. induction dl as [|d dl IH]; [reflexivity|]. cbn [rev]. rewrite strides_up_snoc, rev_app_distr. cbn [rev app combine]. rewrite A_cons, IH, size_rev, size_cons.
  rewrite Z.mul_comm. apply comp_prog_c. Qed.
Lemma group_ok f ng og : og <> [] -> combinable f og = true -> size ng = size (dims og) -> A f (combine ng (group_strides f ng og)) = A f og /\ length (group_strides f ng og) = length ng.
Proof. intros N C E. destruct og as [|[d t] r]; [congruence|]. unfold group_strides. destruct f.
  - cbn [hd snd]. rewrite strides_f, E, (combinable_f d t r C). split; auto. apply strides_up_length.
  - rewrite strides_c, E. destruct (combinable_c d t r C) as [_ ->]. split; auto. rewrite rev_length, strides_up_length. apply rev_length. Qed.

Lemma match_group_ok fuel np op ng nr og orr ng' nr' og' orr' : match_group fuel np op ng nr og orr = Some (ng', nr', og', orr') ->
  np = size ng -> op = size (dims og) ->
  exists x y, ng' = ng ++ x /\ nr = x ++ nr' /\ og' = og ++ y /\ orr = y ++ orr' /\ size ng' = size (dims og').
Proof. revert np op ng nr og orr; induction fuel as [|fuel IH]; intros np op ng nr og orr H E1 E2; cbn [match_group] in H.
  - destruct (Nat.eqb_spec np op); [|discriminate]. injection H as <- <- <- <-. exists [], []. rewrite !app_nil_r. repeat split; auto. congruence.
  - destruct (Nat.eqb_spec np op).
    + injection H as <- <- <- <-. exists [], []. rewrite !app_nil_r. repeat split; auto. congruence.
    + destruct (np <? op)%nat.
      * destruct nr as [|d nr]; [discriminate|]. apply IH in H; auto. 2:{ rewrite size_app, size_cons. change (size []) with 1%nat. lia. }
        destruct H as (x & y & -> & -> & -> & -> & E). exists (d :: x), y. rewrite <- app_assoc in *. repeat split; auto.
      * destruct orr as [|[d t] orr]; [discriminate|]. apply IH in H; auto. 2:{ rewrite map_app, size_app. cbn [map fst]. rewrite size_cons. change (size []) with 1%nat. lia. }
        destruct H as (x & y & -> & -> & -> & -> & E). exists x, ((d, t) :: y). rewrite <- app_assoc in *. repeat split; auto. Qed.

Lemma reshape_groups_ok fuel f new old acc acc' rest : (length new <= fuel)%nat -> reshape_groups fuel f new old acc = Some (acc', rest) ->
  exists newc st oldc oldr, acc' = acc ++ st /\ new = newc ++ rest /\ old = oldc ++ oldr /\ length st = length newc /\
    size newc = size (dims oldc) /\ A f (combine newc st) = A f oldc /\ (rest = [] \/ oldr = []).
Proof. revert new old acc; induction fuel as [|fuel IH]; intros new old acc Hf H; cbn [reshape_groups] in H.
  - destruct new; [|cbn in Hf; lia]. injection H as <- <-. exists [], [], [], old. rewrite app_nil_r. repeat split; auto.
  - destruct new as [|d nr].
    { injection H as <- <-. exists [], [], [], old. rewrite app_nil_r. repeat split; auto. }
    destruct old as [|[od ot] orr].
    { injection H as <- <-. exists [], [], [], []. rewrite app_nil_r. repeat split; auto. }
    destruct (match_group _ _ _ _ _ _ _) as [[[[ng nr'] og] orr']|] eqn:M; [|discriminate].
    apply match_group_ok in M. 2:{ rewrite size_cons. change (size []) with 1%nat. lia. } 2:{ cbn [map fst]. rewrite size_cons. change (size []) with 1%nat. lia. }
    destruct M as (x & y & -> & -> & -> & -> & E). destruct (combinable f _) eqn:C; [|discriminate].
    assert (N : [(od, ot)] ++ y <> []) by discriminate.
    destruct (group_ok f _ _ N C E) as [G1 G2]. apply IH in H. 2:{ cbn in Hf. rewrite app_length in Hf. lia. }
    destruct H as (newc & st & oldc & oldr & -> & -> & -> & L & S & Aeq & R).
    exists (([d] ++ x) ++ newc), (group_strides f ([d] ++ x) ([(od, ot)] ++ y) ++ st), (([(od, ot)] ++ y) ++ oldc), oldr.
    split; [now rewrite app_assoc|]. split; [cbn; now rewrite app_assoc|]. split; [cbn; now rewrite app_assoc|].
    split; [rewrite !app_length, L, G2, app_length; auto|]. split; [rewrite (map_app fst (_ ++ _)), (size_app (_ ++ _)), (size_app (dims _)), E, S; auto|]. split; auto.
    rewrite combine_app by auto. rewrite (A_app f (combine ([d] ++ x) _)), (A_app f ([(od, ot)] ++ y) oldc), G1, Aeq. reflexivity. Qed.

Lemma A_ones f ps : (forall p, In p ps -> fst p = 1%nat) -> A f ps = [0].
Proof. induction ps as [|[d t] ps IH]; intro H; [apply A_nil|]. rewrite A_cons, IH by (intros; apply H; now right). rewrite comp_0_r.
  specialize (H _ (or_introl eq_refl)). cbn in H. subst d. apply prog_1. Qed.
Lemma A_filter f ps : A f (filter (fun p => negb (fst p =? 1)%nat) ps) = A f ps.
Proof. induction ps as [|[d t] ps IH]; cbn [filter fst]; auto. destruct (Nat.eqb_spec d 1); cbn [negb]; rewrite !A_cons, ?IH; auto. subst. now rewrite prog_1, comp_0_l. Qed.
Lemma size_filter ps : size (dims (filter (fun p => negb (fst p =? 1)%nat) ps)) = size (dims ps).
Proof. induction ps as [|[d t] ps IH]; cbn [filter fst map]; auto. destruct (Nat.eqb_spec d 1); cbn [negb map fst]; rewrite !size_cons, ?IH; lia. Qed.
Lemma size_one s : size s = 1%nat -> forall d, In d s -> d = 1%nat.
Proof. induction s as [|x s IH]; intros H d Hd; [easy|]. rewrite size_cons in H. apply Nat.eq_mul_1 in H. destruct H as [-> H]. destruct Hd as [<-|Hd]; auto. Qed.

Lemma attempt_ok f sh st new st' : length st = length sh -> size sh <> 0%nat -> size sh = size new -> attempt_nocopy_reshape sh st new f = Some st' ->
  length st' = length new /\ A f (combine new st') = A f (combine sh st).
Proof. intros L N E H. unfold attempt_nocopy_reshape in H. set (old := filter _ _) in H.
  destruct (reshape_groups _ _ _ _ _) as [[acc rest]|] eqn:G; [|discriminate]. apply reshape_groups_ok in G; auto.
  destruct G as (newc & stc & oldc & oldr & Ea & En & Eo & Ls & Sz & Aeq & R). cbn in Ea. subst acc.
  set (ls := if (1 <=? length stc)%nat then _ else _) in H. clearbody ls. injection H as <-. subst new.
  split. { rewrite !app_length, repeat_length. lia. }
  rewrite <- (A_filter f (combine sh st)). fold old. rewrite combine_app by auto. rewrite Eo, !A_app, Aeq. f_equal.
  assert (So : size (dims old) = size sh). { unfold old. rewrite size_filter. rewrite combine_split_r; auto. }
  rewrite Eo, map_app, size_app in So. rewrite size_app, Sz in E.
  assert (Ez : size rest = size (dims oldr)) by nia.
  assert (O1 : size (dims oldr) = 1%nat -> oldr = []).
  { intro X. destruct oldr as [|p r]; auto. exfalso. assert (In p old) as I by (rewrite Eo; apply in_or_app; right; now left).
    unfold old in I. apply filter_In in I. destruct I as [_ I]. pose proof (size_one _ X (fst p) (or_introl eq_refl)). lia. }
  assert (On : oldr = []) by (destruct R as [->|]; auto). subst oldr. cbn in Ez. rewrite A_nil. apply A_ones.
  intros p Hp. destruct p as [d t]. apply in_combine_l in Hp. cbn. now apply (size_one rest). Qed.

(** *)
Lemma addrs_A o l : wf l -> addrs o l = map (Z.add (l_offset l)) (A (order_eqb o ColMajor) (combine (l_shape l) (l_stride l))).
Proof. intros [L _]. unfold addrs, A. rewrite combine_split_r, combine_snd by auto. rewrite map_map. destruct o; reflexivity. Qed.
Lemma addrs_size1 o l : wf l -> size (l_shape l) = 1%nat -> addrs o l = [l_offset l].
Proof. intros W E. rewrite addrs_A by auto. rewrite A_ones. { cbn. f_equal. lia. } intros [d t] Hp. apply in_combine_l in Hp. cbn. now apply (size_one _ E). Qed.
Lemma addrs_size0 o l : size (l_shape l) = 0%nat -> addrs o l = [].
Proof. intro E. unfold addrs, enum. destruct o.
  - pose proof (length_row_major (l_shape l)) as H. rewrite E in H. now destruct (row_major _).
  - pose proof (length_col_major (l_shape l)) as H. rewrite E in H. now destruct (col_major _). Qed.

Lemma chk_ones L : (forall p, In p L -> fst p = 1%nat) -> chk L.
Proof. induction L as [|[d t] L IH]; intro H; [exists []; split; constructor|]. apply (chk_insert [] d t L); [|apply IH; intros; apply H; now right].
  specialize (H _ (or_introl eq_refl)). cbn in H. lia. Qed.
Lemma nonneg_size1 l : wf l -> size (l_shape l) = 1%nat -> nonneg l.
Proof. intros W E ix Hv. pose proof (addrs_size1 RowMajor l W E) as H. apply in_row_major in Hv. apply (in_map (addr l)) in Hv.
  fold (addrs RowMajor l) in Hv. unfold addrs, enum in H. rewrite H in Hv. destruct Hv as [<-|[]]. destruct W as [_ W]. apply W. lia. Qed.
Lemma quick_check_ok shape l o : wf l -> size (l_shape l) = size shape ->
  match quick_check shape l o with Ok (Some l') => l_shape l' = shape /\ wf l' /\ addrs o l' = addrs o l | Ok None => size (l_shape l) <> 0%nat | _ => False end.
Proof. intros W E. unfold quick_check. rewrite E, Nat.eqb_refl. cbn [check bind]. set (l1 := mkLayout shape (repeat 1 (length shape)) (l_offset l)).
  assert (W1 : wf l1). { split; cbn [l1 l_shape l_stride l_offset]; [apply repeat_length|]. rewrite <- E. apply W. }
  assert (Wo : (size shape = 0 \/ size shape = 1)%nat -> layout_new shape (repeat 1 (length shape)) (l_offset l) = Ok l1).
  { intro H. apply layout_new_good. destruct H as [H|H].
    - apply good_intro; cbn [l_shape l_stride l_offset]; [apply repeat_length|]. intro; congruence.
    - apply good_intro; cbn [l_shape l_stride l_offset]; [apply repeat_length|]. intros _. split; [now apply nonneg_size1|].
      apply chk_ones. intros [d t] Hp. apply in_combine_l in Hp. cbn. now apply (size_one shape). }
  destruct ((size shape =? 0) || (size shape =? 1))%nat eqn:E01.
  - rewrite Wo by lia. cbn [bind]. split; auto. split; auto. destruct (Nat.eq_dec (size shape) 0) as [E0|E0].
    + rewrite !addrs_size0; auto. congruence.
    + assert (E1 : size shape = 1%nat) by lia. rewrite !addrs_size1; auto. congruence.
  - assert (N : size (l_shape l) <> 0%nat) by lia. destruct (list_eq_dec Nat.eq_dec shape (l_shape l)) as [->|_]; [auto|].
    assert (O : 0 <= l_offset l) by (apply W; auto).
    destruct o.
    + destruct (c_contig l) eqn:C; [|lia]. apply c_contig_iff in C; auto. split; auto. split; [apply (new_contig_wf Dyn shape _ RowMajor O)|].
      unfold addrs, enum. rewrite C, E. apply new_c_contig_addrs.
    + destruct (f_contig l) eqn:C; [|lia]. apply f_contig_iff in C; auto. split; auto. split; [apply (new_contig_wf Dyn shape _ ColMajor O)|].
      unfold addrs, enum. rewrite C, E. apply new_f_contig_addrs. Qed.
Lemma reshapeable_ok l shape o : wf l ->
  match layout_reshapeable l shape o with
  | Ok (Some l') => size shape = size (l_shape l) /\ l_shape l' = shape /\ wf l' /\ addrs o l' = addrs o l
  | Ok None => size shape = size (l_shape l)
  | Err _ => size shape <> size (l_shape l)
  | Panic => False
  end.
Proof. intro W. unfold layout_reshapeable. destruct (Nat.eq_dec (size (l_shape l)) (size shape)) as [E|E].
  - pose proof (quick_check_ok shape l o W E) as Q. destruct (quick_check shape l o) as [[l'|]|e|]; cbn [bind]; [| |now destruct Q|now destruct Q].
    + destruct Q as (Q1 & Q2 & Q3). auto.
    + destruct (attempt_nocopy_reshape _ _ _ _) as [st|] eqn:T; auto. destruct W as [Wl Wo]. apply attempt_ok in T; auto. destruct T as [T1 T2].
      assert (W' : wf (mkLayout shape st (l_offset l))). { split; cbn [l_shape l_stride l_offset]; auto. }
      split; auto. split; auto. split; auto. rewrite !addrs_A by (auto; split; auto). cbn [l_shape l_stride l_offset]. now rewrite T2.
  - unfold quick_check. replace (size (l_shape l) =? size shape)%nat with false by lia. cbn. auto. Qed.

(** ** -1 substitution *)
Lemma find_neg1_ok shape i found r : find_neg1 shape i found = Ok r ->
  Forall (fun v => -1 <= v) shape /\
  ((Forall (fun v => 0 <= v) shape /\ r = found) \/
   (found = None /\ exists a b, shape = a ++ -1 :: b /\ Forall (fun v => 0 <= v) a /\ Forall (fun v => 0 <= v) b /\ r = Some (i + length a)%nat)).
Proof. revert i found; induction shape as [|v l IH]; intros i found; cbn [find_neg1].
  - intros [= <-]. split; auto.
  - destruct (Z.eqb_spec v (-1)) as [->|E].
    + destruct found; [discriminate|]. intro H. apply IH in H. destruct H as [H1 [[H2 H3]|[H2 _]]]; [|discriminate]. split; [constructor; auto; lia|]. right. split; auto.
      exists [], l. subst. repeat split; auto. all: f_equal; cbn; lia.
    + destruct (Z.ltb_spec v (-1)); [discriminate|]. intro H'. apply IH in H'. destruct H' as [H1 [[H2 ->]|(-> & a & b & -> & Ha & Hb & ->)]]; (split; [constructor; auto; lia|]).
      * left. split; auto. constructor; auto; lia.
      * right. split; auto. exists (v :: a), b. repeat split; auto; [constructor; auto; lia|]. f_equal. cbn. lia. Qed.
Lemma find_neg1_err shape i found : match find_neg1 shape i found with
  | Err _ => (exists v, In v shape /\ v < -1) \/ (2 <= count_occ Z.eq_dec shape (-1)%Z + match found with Some _ => 1 | None => 0 end)%nat
  | Panic => False | Ok _ => True end.
Proof. revert i found; induction shape as [|v l IH]; intros i found; cbn [find_neg1]; auto. destruct (Z.eqb_spec v (-1)) as [->|E].
  - destruct found as [k|].
    + right. cbn [count_occ]. destruct (Z.eq_dec (-1) (-1)); [lia|congruence].
    + specialize (IH (S i) (Some i)). destruct (find_neg1 l (S i) (Some i)); auto. destruct IH as [(v & Hv & L)|H]; [left; exists v; cbn; auto|].
      right. cbn [count_occ]. destruct (Z.eq_dec (-1) (-1)); [lia|congruence].
  - destruct (Z.ltb_spec v (-1)); [left; exists v; cbn; auto|]. specialize (IH (S i) found). destruct (find_neg1 l (S i) found); auto.
    destruct IH as [(w & Hw & L)|H']; [left; exists w; cbn; auto|]. right. rewrite count_occ_cons_neq by auto. auto. Qed.
Lemma prod_neg shape c : Forall (fun v => 0 <= v) shape -> fold_left (fun acc v => if v =? -1 then acc else acc * v) shape c = c * Z.of_nat (size (map Z.to_nat shape)).
Proof. revert c; induction shape as [|v r IH]; intros c H; cbn [fold_left map]; [cbn; lia|]. inversion H as [|? ? H1 H2]; subst. rewrite size_cons, IH by auto. replace (v =? -1) with false by lia.
  rewrite Nat2Z.inj_mul, Z2Nat.id by auto. ring. Qed.
Lemma fills_nonneg a s : Forall (fun v => 0 <= v) a -> fills a s <-> s = map Z.to_nat a.
Proof. revert s; induction a as [|v a IH]; intros s H; [split; [intro F; now inversion F|intros ->; constructor]|]. inversion H as [|? ? H1 H2]; subst. split.
  - intro F. inversion F as [|? d ? s' F1 F2]; subst. cbn. f_equal; [lia|]. now apply IH.
  - intros ->. cbn. constructor; [lia|]. now apply IH. Qed.
Lemma fills_one a b s : Forall (fun v => 0 <= v) a -> Forall (fun v => 0 <= v) b -> fills (a ++ -1 :: b) s <-> exists d, s = map Z.to_nat a ++ d :: map Z.to_nat b.
Proof. intros Ha Hb. split.
  - intro F. apply Forall2_app_inv_l in F. destruct F as (s1 & s2 & F1 & F2 & ->). inversion F2 as [|? d ? s' F3 F4]; subst. apply (fills_nonneg a) in F1; auto. apply (fills_nonneg b) in F4; auto. subst. eauto.
  - intros [d ->]. apply Forall2_app; [now apply (fills_nonneg a)|]. constructor; auto. now apply (fills_nonneg b). Qed.
Lemma size_zero_in s : size s = 0%nat -> In 0%nat s.
Proof. induction s as [|d s IH]; [discriminate|]. rewrite size_cons. intro H. apply Nat.eq_mul_0 in H. destruct H as [->|H]; [now left|right; auto]. Qed.
Lemma upd_app {X} (a : list X) x b v : upd (a ++ x :: b) (length a) v = a ++ v :: b.
Proof. induction a; cbn; auto. f_equal; auto. Qed.
Lemma substitute_ok shape n : ~ (In (-1) shape /\ In 0 shape) ->
  match reshape_substitute_negatives shape n with
  | Ok s => fills shape s /\ (In (-1) shape -> size s = n /\ forall s', fills shape s' -> size s' = n -> s' = s)
  | Err _ => (exists v, In v shape /\ v < -1) \/ (2 <= count_occ Z.eq_dec shape (-1)%Z)%nat \/ (forall s', fills shape s' -> size s' <> n)
  | Panic => False
  end.
Proof. intro Z0. unfold reshape_substitute_negatives. pose proof (find_neg1_err shape 0 None) as FE. destruct (find_neg1 shape 0 None) as [r|e|] eqn:F; cbn [bind]; [|rewrite Nat.add_0_r in FE; clear Z0; tauto|auto].
  clear FE. apply find_neg1_ok in F. destruct F as [_ [[H ->]|(_ & a & b & -> & Ha & Hb & ->)]].
  - split; [now apply fills_nonneg|]. intro I. rewrite Forall_forall in H. apply H in I. lia.
  - rewrite fold_left_app. cbn [fold_left]. rewrite !prod_neg by auto. rewrite Z.eqb_refl. set (pa := size (map Z.to_nat a)). set (pb := size (map Z.to_nat b)).
    assert (Np : (pa * pb <> 0)%nat).
    { intro E. apply Z0. split; [apply in_or_app; right; now left|]. apply Nat.eq_mul_0 in E. destruct E as [E|E]; apply size_zero_in in E; apply in_map_iff in E; destruct E as (v & E & I); apply in_or_app.
      - rewrite Forall_forall in Ha. specialize (Ha v I). left. replace 0 with v by lia. auto.
      - rewrite Forall_forall in Hb. specialize (Hb v I). right. right. replace 0 with v by lia. auto. }
    replace (1 * Z.of_nat pa * Z.of_nat pb) with (Z.of_nat (pa * pb)) by (rewrite Nat2Z.inj_mul; ring). replace (Z.of_nat (pa * pb) =? 0) with false by lia.
    assert (Sz : forall d, size (map Z.to_nat a ++ d :: map Z.to_nat b) = (d * (pa * pb))%nat) by (intro d; rewrite size_app, size_cons; unfold pa, pb; lia).
    rewrite Z.rem_mod_nonneg by lia. unfold check. destruct (Z.eqb_spec (Z.of_nat n mod Z.of_nat (pa * pb)) 0) as [E|E]; cbn [bind].
    + rewrite Nat.add_0_l, upd_app, map_app. cbn [map]. rewrite Z.quot_div_nonneg by lia. set (d := Z.to_nat (Z.of_nat n / Z.of_nat (pa * pb))).
      assert (En : n = (d * (pa * pb))%nat). { unfold d. apply Nat2Z.inj. rewrite Nat2Z.inj_mul, Z2Nat.id by (apply Z.div_pos; lia). pose proof (Z.div_mod (Z.of_nat n) (Z.of_nat (pa * pb)) ltac:(lia)). lia. }
      split; [apply fills_one; eauto|]. intros _. rewrite Sz. split; auto. intros s' F S. apply fills_one in F; auto. destruct F as [d' ->]. rewrite Sz in S. assert (d' = d) as -> by nia. reflexivity.
    + right. right. intros s' F S. apply fills_one in F; auto. destruct F as [d' ->]. rewrite Sz in S. apply E. rewrite <- S, Nat2Z.inj_mul. apply Z.mod_mul. lia. Qed.
