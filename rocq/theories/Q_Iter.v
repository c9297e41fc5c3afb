(** Property lemmas about iterators (C17-C20, C49, C50). *)
From Verif Require Import Base Spec P_Index P_List M_Layout P_Layout P_Bounds P_Contig Q_Layout M_Indexer M_Broadcast M_Rearr M_Iter P_Iter.
Local Open Scope Z_scope.

Definition iter_order_of (o : order) : iter_order := match o with RowMajor => OC | ColMajor => OF end.
Lemma new_order dflt k l o : wf l -> nonneg l ->
  exists it, iter_layout_new dflt k l (match o with RowMajor => OC | ColMajor => OF end) = Ok it /\ il_order it = o /\ inv o (il_iter it) /\ it_layout (il_iter it) = l /\ pending o (il_iter it) = addrs o l.
Proof. intros W N. destruct (iter_new_inv o k l W N) as (it & E & I & L & P). exists (mkIterLayout o it). unfold iter_layout_new. destruct o; rewrite E; cbn; auto. Qed.
Lemma new_dflt dflt k l : wf l -> nonneg l ->
  exists it, iter_layout_new dflt k l OA = Ok it /\ il_order it = dflt /\ inv dflt (il_iter it) /\ it_layout (il_iter it) = l /\ pending dflt (il_iter it) = addrs dflt l.
Proof. intros W N. destruct (iter_new_inv dflt k l W N) as (it & E & I & L & P). exists (mkIterLayout dflt it). unfold iter_layout_new. rewrite E; cbn; auto. Qed.

Lemma deque_fronts {A} (xs : list A) n : deque (repeat Front (length xs + n)) xs = (map Some xs ++ repeat None n, []).
Proof. induction xs as [|x xs IH]; cbn [length plus repeat].
  - induction n as [|n IH]; cbn [repeat deque]; auto. rewrite IH. reflexivity.
  - cbn [deque]. rewrite IH. reflexivity. Qed.
Lemma forall_front n : Forall (fun op => op = Front \/ op = Back) (repeat Front n).
Proof. induction n; cbn; auto. Qed.
Lemma within_no_split {A} ops : Forall (fun op => op = Front \/ op = Back) ops -> forall xs : list A, splits_within ops xs.
Proof. induction 1 as [|op ops [->| ->] F IH]; intro xs; cbn; auto. Qed.

Lemma l_iter_forward : forall dflt k l o, wf l -> nonneg l ->
  exists it, iter_layout_new dflt k l (match o with RowMajor => OC | ColMajor => OF end) = Ok it /\
    collect it = Ok (addrs o l) /\
    forall n, exists it', run_calls k (repeat Front (size (l_shape l) + n)) it = Ok (map Some (addrs o l) ++ repeat None n, it').
Proof. intros dflt k l o W N. destruct (new_order dflt k l o W N) as (it & E & O & I & L & P). exists it. split; auto. subst o. split.
  - rewrite collect_ok; auto. now rewrite P.
  - intro n. destruct (run_calls_ok k (repeat Front (size (l_shape l) + n)) it) as (it' & R & _); auto.
    + right. apply forall_front.
    + apply within_no_split, forall_front.
    + exists it'. rewrite R, P. rewrite <- (addrs_length (il_order it) l), deque_fronts. reflexivity. Qed.

Lemma deque_concat {A} ops : Forall (fun op => op = Front \/ op = Back) ops -> forall xs : list A,
  fronts ops (fst (deque ops xs)) ++ snd (deque ops xs) ++ rev (backs ops (fst (deque ops xs))) = xs.
Proof. induction 1 as [|op ops [->| ->] F IH]; intro xs; cbn [deque].
  - cbn. now rewrite app_nil_r.
  - destruct xs as [|x xs]; cbn [fst snd fronts backs]; [apply IH|]. cbn. f_equal. apply IH.
  - destruct (rev xs) as [|x r] eqn:E; cbn [fst snd fronts backs].
    + rewrite <- (rev_involutive xs), E. apply IH.
    + rewrite <- (rev_involutive xs), E. cbn [rev]. rewrite !app_assoc. f_equal. rewrite <- app_assoc. apply IH. Qed.
Lemma l_iter_double_ended : forall dflt k l o ops, wf l -> nonneg l -> Forall (fun op => op = Front \/ op = Back) ops ->
  exists it outs it' rest, iter_layout_new dflt k l (match o with RowMajor => OC | ColMajor => OF end) = Ok it /\
    run_calls k ops it = Ok (outs, it') /\ collect it' = Ok rest /\ length outs = length ops /\
    fronts ops outs ++ rest ++ rev (backs ops outs) = addrs o l /\
    (In None outs -> rest = []).
Proof. intros dflt k l o ops W N F. destruct (new_order dflt k l o W N) as (it & E & O & I & L & P). subst o.
  destruct (run_calls_ok k ops it) as (it' & R & O' & L' & I' & P'); auto. { now apply within_no_split. }
  rewrite P in *. do 4 eexists. split; [exact E|]. split; [exact R|]. split; [apply collect_ok; auto|]. rewrite P'. split; [|split].
  - clear - F. generalize (addrs (il_order it) l). induction F as [|op ops [->| ->] F IH]; intro xs; cbn [deque]; auto.
    + destruct xs; cbn; now rewrite IH.
    + destruct (rev xs); cbn; now rewrite IH.
  - now apply deque_concat.
  - clear - F. generalize (addrs (il_order it) l). assert (Z0 : forall ops, Forall (fun op => op = Front \/ op = Back) ops -> snd (deque ops (@nil Z)) = []).
    { induction 1 as [|op ops' [->| ->] F' IH']; cbn; auto. }
    induction F as [|op ops [->| ->] F IH]; intro xs; cbn [deque]; [intros []| |].
    + destruct xs; cbn; [auto|]. intros [X|X]; [discriminate|]. now apply IH.
    + destruct (rev xs); cbn; [auto|]. intros [X|X]; [discriminate|]. now apply IH. Qed.

Lemma l_iter_deque : forall dflt k l o ops, wf l -> nonneg l -> size (l_shape l) <> 0%nat -> splits_within ops (addrs o l) ->
  exists it it', iter_layout_new dflt k l (match o with RowMajor => OC | ColMajor => OF end) = Ok it /\
    run_calls k ops it = Ok (fst (deque ops (addrs o l)), it') /\ collect it' = Ok (snd (deque ops (addrs o l))).
Proof. intros dflt k l o ops W N S SW. destruct (new_order dflt k l o W N) as (it & E & O & I & L & P). subst o.
  destruct (run_calls_ok k ops it) as (it' & R & O' & L' & I' & P'); auto. { left. now rewrite L. } { now rewrite P. }
  rewrite P in *. exists it, it'. split; auto. split; auto. rewrite collect_ok by auto. now rewrite P'. Qed.

Lemma l_iter_len : forall dflt k l o ops, wf l -> nonneg l ->
  size (l_shape l) <> 0%nat \/ Forall (fun op => op = Front \/ op = Back) ops -> splits_within ops (addrs o l) ->
  exists it outs it' rest, iter_layout_new dflt k l (match o with RowMajor => OC | ColMajor => OF end) = Ok it /\
    run_calls k ops it = Ok (outs, it') /\ collect it' = Ok rest /\ il_len it' = Ok (length rest) /\
    length rest = length (snd (deque ops (addrs o l))).
Proof. intros dflt k l o ops W N S SW. destruct (new_order dflt k l o W N) as (it & E & O & I & L & P). subst o.
  destruct (run_calls_ok k ops it) as (it' & R & O' & L' & I' & P'); auto. { now rewrite L. } { now rewrite P. }
  rewrite P in *. do 4 eexists. split; [exact E|]. split; [exact R|]. split; [apply collect_ok; auto|]. split.
  - unfold il_len. now apply iter_len_ok.
  - now rewrite P'. Qed.

Lemma concat_leaves {A} t : forall xs : list A, concat (leaves t xs) = xs.
Proof. induction t as [|n a IHa b IHb]; intro xs; cbn; [apply app_nil_r|]. now rewrite concat_app, IHa, IHb, firstn_skipn. Qed.
Lemma run_tree_ok k t : forall it, inv (il_order it) (il_iter it) -> size (l_shape (it_layout (il_iter it))) <> 0%nat ->
  tree_within t (pending (il_order it) (il_iter it)) -> run_tree k t it = Ok (leaves t (pending (il_order it) (il_iter it))).
Proof. induction t as [|n a IHa b IHb]; intros [o it] I S T; cbn [run_tree leaves]; cbn [il_order il_iter] in *.
  - now rewrite collect_ok.
  - destruct T as (T1 & T2 & T3). destruct (iter_split_ok o k it n I S T1) as (x & y & E & Ix & Iy & Lx & Ly & Px & Py).
    unfold il_split_at. cbn [il_order il_iter]. rewrite E. cbn [bind fst snd].
    rewrite IHa; cbn [il_order il_iter]; [|auto|now rewrite Lx|now rewrite Px]. cbn [bind].
    rewrite IHb; cbn [il_order il_iter]; [|auto|now rewrite Ly|now rewrite Py]. cbn [bind]. now rewrite Px, Py. Qed.
Lemma l_iter_tree : forall dflt k l o t, wf l -> nonneg l -> size (l_shape l) <> 0%nat -> tree_within t (addrs o l) ->
  exists it parts, iter_layout_new dflt k l (match o with RowMajor => OC | ColMajor => OF end) = Ok it /\
    run_tree k t it = Ok parts /\ parts = leaves t (addrs o l) /\ concat parts = addrs o l.
Proof. intros dflt k l o t W N S T. destruct (new_order dflt k l o W N) as (it & E & O & I & L & P). subst o.
  exists it, (leaves t (addrs (il_order it) l)). split; auto. split; [|split; [auto|apply concat_leaves]].
  rewrite run_tree_ok; auto; rewrite ?L, ?P; auto. Qed.
Lemma l_split_empty_refuted : exists l it, wf l /\ nonneg l /\ iter_layout_new RowMajor Dyn l OF = Ok it /\ il_len it = Ok 0%nat /\ il_split_at Dyn it 0 = Panic.
Proof. exists (mkLayout [0; 2]%nat [1; 1] 0). eexists. split; [split; [reflexivity|discriminate || (cbn; lia)]|]. split; [|split; [reflexivity|split; reflexivity]].
  intros ix V. inversion V. lia. Qed.

Lemma addrs_nodup o l : injective l -> NoDup (addrs o l).
Proof. intro H. unfold addrs. apply NoDup_map_inj_in; [|destruct o; [apply NoDup_row_major|apply NoDup_col_major]].
  intros x y Hx Hy E. apply in_enum in Hx, Hy. now apply H. Qed.
Lemma l_par_mut_disjoint : forall sh st off l dflt k o t, 0 <= off -> layout_new sh st off = Ok l ->
  (forall i, (i < length sh)%nat -> (1 < nth i sh 0)%nat -> nth i st 0 <> 0) -> size sh <> 0%nat -> tree_within t (addrs o l) ->
  exists it parts, iter_layout_new dflt k l (match o with RowMajor => OC | ColMajor => OF end) = Ok it /\
    run_tree k t it = Ok parts /\ NoDup (concat parts) /\
    (forall i j p q z, nth_error parts i = Some p -> nth_error parts j = Some q -> In z p -> In z q -> i = j).
Proof. intros sh st off l dflt k o t Ho E Z S T. destruct (new_no_alias sh st off l Ho E) as (El & Hl & _ & Inj). specialize (Inj Z).
  assert (W : wf l) by (rewrite El; split; auto). assert (N : nonneg l) by (apply (layout_new_ok sh st off l (fun _ => Ho) E)).
  destruct (l_iter_tree dflt k l o t W N) as (it & parts & E1 & E2 & E3 & E4); auto. { now rewrite El. }
  exists it, parts. split; auto. split; auto. assert (ND : NoDup (concat parts)) by (rewrite E4; now apply addrs_nodup). split; auto.
  clear - ND. intros i j p q z Hi Hj Hp Hq. revert i j Hi Hj. induction parts as [|x parts IH]; intros i j Hi Hj; [destruct i; discriminate|].
  cbn in ND. assert (D : forall n r, nth_error parts n = Some r -> In z x -> In z r -> False).
  { intros n r Hn Hx Hr. apply nth_error_In in Hn. apply in_split in Hx as (a & b & ->). rewrite <- app_assoc in ND. cbn in ND. apply NoDup_remove_2 in ND. apply ND.
    rewrite !in_app_iff. right. right. apply in_concat. eauto. }
  destruct i as [|i], j as [|j]; cbn in Hi, Hj; auto.
  - injection Hi as ->. exfalso. eauto.
  - injection Hj as ->. exfalso. eauto.
  - f_equal. apply IH; auto. clear - ND. induction x; auto. inversion ND; auto. Qed.

(** ** indexed iteration *)
Lemma nth_error_combine {A B} (a : list A) (b : list B) n :
  nth_error (combine a b) n = match nth_error a n, nth_error b n with Some x, Some y => Some (x, y) | _, _ => None end.
Proof. revert b n; induction a as [|x a IH]; intros [|y b] [|n]; cbn; auto. now destruct (nth_error a n). Qed.
Lemma indexed_ok ops : forall it, inv (il_order it) (il_iter it) -> Forall (fun op => op = Front \/ op = Back) ops ->
  let o := il_order it in let l := it_layout (il_iter it) in let s := it_start (il_iter it) in let e := it_end (il_iter it) in
  let pairs := firstn (e - s) (skipn s (combine (enum o (l_shape l)) (addrs o l))) in
  exists outs it', run_indexed ops it = Ok (outs, it') /\ fronts ops outs = fronts ops (fst (deque ops pairs)) /\
    map (option_map snd) outs = fst (deque ops (pending o (il_iter it))).
Proof. induction ops as [|op ops IH]; intros [o it] I F; cbn [il_order il_iter] in *.
  - do 2 eexists. split; [reflexivity|]. split; reflexivity.
  - inversion F as [|? ? Hop F']. subst. clear F. destruct (iter_next_ok o it I) as (fi & Ef & If & Lf & Pf). destruct (iter_back_ok o it I) as (bi & Eb & Ib & Lb & Pb).
    set (L := combine (enum o (l_shape (it_layout it))) (addrs o (it_layout it))).
    assert (LP : pending o it = map snd (firstn (it_end it - it_start it) (skipn (it_start it) L))).
    { unfold pending. rewrite <- firstn_map, <- skipn_map. unfold L. now rewrite combine_snd by now rewrite enum_length, addrs_length. }
    destruct Hop as [-> | ->]; cbn [run_indexed].
    + unfold indexed_next, il_next. cbn [il_order il_iter]. rewrite Ef. cbn [bind fst snd].
      destruct (IH (mkIterLayout o fi) If F') as (outs & it' & R & Fr & Mp). cbn [il_order il_iter] in *. rewrite R. cbn [bind fst snd].
      do 2 eexists. split; [reflexivity|]. rewrite Lf in *. fold L in Fr.
      unfold iter_next in Ef. destruct (Nat.leb_spec (it_end it) (it_start it)) as [Le|Lt].
      * injection Ef as E1 E2. subst fi. fold L in Fr. rewrite pending_nil in * by auto. replace (it_end it - it_start it)%nat with 0%nat in * by lia. cbn in *. rewrite Fr, Mp. auto.
      * pose proof I as (W & N & H1 & H2 & H3). destruct (H3 Lt) as (A1 & A2 & A3 & A4).
        assert (Ls : nth_error L (it_start it) = Some (it_istart it, it_ostart it)).
        { unfold L. rewrite nth_error_combine, enum_nth, addrs_nth by lia. now rewrite A2, A1. }
        rewrite (firstn_skipn_cons L _ _ _ Lt Ls) in *. rewrite LP in *. cbn [map hd_error tl option_map fst snd] in *.
        unfold to_usize in Ef. destruct (it_ostart it <? 0); [discriminate|]. cbn [bind] in Ef. injection Ef as E2. subst fi. cbn [it_start it_end] in *.
        cbn [deque fst snd fronts]. rewrite Fr, Mp, Pf. auto.
    + unfold indexed_next_back, il_next_back. cbn [il_order il_iter]. rewrite Eb. cbn [bind fst snd].
      destruct (IH (mkIterLayout o bi) Ib F') as (outs & it' & R & Fr & Mp). cbn [il_order il_iter] in *. rewrite R. cbn [bind fst snd].
      do 2 eexists. split; [reflexivity|]. rewrite Lb in *. fold L in Fr.
      unfold iter_next_back in Eb. destruct (Nat.leb_spec (it_end it) (it_start it)) as [Le|Lt].
      * injection Eb as E1 E2. subst bi. fold L in Fr. rewrite pending_nil in * by auto. replace (it_end it - it_start it)%nat with 0%nat in * by lia. cbn in *. rewrite Fr, Mp. auto.
      * pose proof I as (W & N & H1 & H2 & H3). destruct (H3 Lt) as (A1 & A2 & A3 & A4). destruct (it_end it) as [|e] eqn:Ee; [lia|].
        assert (Ls : exists p, nth_error L e = Some p). { destruct (nth_error L e) eqn:X; eauto. apply nth_error_None in X. unfold L in X. rewrite combine_length, enum_length, addrs_length in X. lia. }
        destruct Ls as [p Ls]. assert (Lt' : (it_start it <= e)%nat) by lia. rewrite (firstn_skipn_snoc L _ _ _ Lt' Ls) in *.
        destruct (step_down _ _ _) as [d| |]; [|discriminate|discriminate]. cbn [bind] in Eb. unfold to_usize in Eb. destruct (snd d <? 0); [discriminate|]. cbn [bind] in Eb. injection Eb as E1 E2. subst bi. cbn [it_start it_end] in *.
        rewrite ?Nat.sub_0_r in *.
        cbn [deque]. rewrite rev_app_distr. cbn [rev app fst snd fronts]. rewrite rev_involutive. split; [exact Fr|].
        rewrite LP in *. rewrite map_app, rev_app_distr in *. cbn [map rev app hd_error tl fst snd] in *. rewrite Mp, Pb. cbn [option_map]. injection E1 as <-. reflexivity. Qed.
Lemma l_indexed_partial : forall k l o ops, wf l -> nonneg l -> Forall (fun op => op = Front \/ op = Back) ops ->
  exists it outs it', indexed_new k l o = Ok it /\ run_indexed ops it = Ok (outs, it') /\
    fronts ops outs = fronts ops (fst (deque ops (map (fun ix => (ix, addr l ix)) (enum o (l_shape l))))) /\
    map (option_map snd) outs = fst (deque ops (addrs o l)).
Proof. intros k l o ops W N F. destruct (new_order o k l o W N) as (it & E & O & I & L & P). subst o.
  destruct (indexed_ok ops it I F) as (outs & it' & R & Fr & Mp). exists it, outs, it'. split; [exact E|]. split; auto. rewrite L in *. split.
  - rewrite Fr. do 3 f_equal. unfold pending in P. rewrite L in P.
    assert (X : it_start (il_iter it) = 0%nat /\ it_end (il_iter it) = size (l_shape l)).
    { unfold iter_layout_new in E. revert E. destruct (il_order it); unfold iter_new; destruct (_ : res (list nat)); try discriminate; cbn; intro E; injection E as E; rewrite <- E; cbn; auto. }
    destruct X as [-> ->]. rewrite Nat.sub_0_r. cbn [skipn]. rewrite firstn_all2 by (rewrite combine_length, enum_length, addrs_length; lia).
    unfold addrs. clear. induction (enum (il_order it) (l_shape l)); cbn; f_equal; auto.
  - now rewrite Mp, P. Qed.
Lemma l_indexed_back_refuted : exists l it ix a it', wf l /\ nonneg l /\ injective l /\ indexed_new Dyn l RowMajor = Ok it /\
  indexed_next_back it = Ok (Some (ix, a), it') /\ a <> addr l ix.
Proof. exists (mkLayout [2; 3]%nat [3; 1] 0). do 4 eexists. split; [split; [reflexivity|cbn; lia]|]. split; [intros ix V; unfold addr; destruct ix as [|a [|b ix]]; cbn [l_offset l_stride dot]; lia|].
  split; [|split; [reflexivity|split; [reflexivity|discriminate]]].
  intros i j Vi Vj E. repeat (match goal with V : valid _ _ |- _ => inversion V; clear V; subst | V : Forall2 _ _ _ |- _ => inversion V; clear V; subst end).
  unfold addr in E. cbn [l_offset l_stride dot] in E. repeat f_equal; lia. Qed.

Lemma l_iter_default : forall dflt k l, wf l -> nonneg l ->
  exists it, iter_layout_new dflt k l OA = Ok it /\ collect it = Ok (addrs dflt l).
Proof. intros dflt k l W N. destruct (new_dflt dflt k l W N) as (it & E & O & I & L & P). exists it. split; auto. subst dflt. rewrite collect_ok; auto. now rewrite P. Qed.
