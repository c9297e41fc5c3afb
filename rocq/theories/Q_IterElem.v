(** Iteration over the elements of a tensor *)
From Verif Require Import Base Spec Spec_IterElem P_Index P_List M_Layout P_Layout P_Bounds P_Contig P_Strides Q_Layout M_Indexer M_Broadcast M_Rearr M_Iter P_Iter Q_Iter P_Rearr Q_Rearr M_Kernel P_Kernel M_Tensor P_Tensor M_Manip P_Views M_Mesh M_IterElem.
Local Open Scope Z_scope.

Section Reading.
  Context {T : Type}.
  Lemma look_ok (d : list T) p : (forall q, p = Some q -> exists x, peek d q = Some x) -> exists x, look d p = Ok x /\ option_map Some x = option_map (peek d) p.
  Proof. intro H. destruct p as [q|]; [|exists None; auto]. destruct (H q eq_refl) as (x & Hx). exists (Some x). cbn. pose proof Hx as Hz. apply zget_peek in Hz. rewrite Hz, Hx. auto. Qed.
  Lemma run_elems_ok k (d : list T) ops : forall it outs it', run_calls k ops it = Ok (outs, it') -> (forall q, In (Some q) outs -> exists x, peek d q = Some x) ->
    exists xs, run_elems k ops (mkElems it d) = Ok (xs, mkElems it' d) /\ map (option_map Some) xs = map (option_map (peek d)) outs.
  Proof. induction ops as [|op ops IH]; intros it outs it' R H; cbn [run_calls run_elems] in *.
    - injection R as <- <-. exists []. auto.
    - destruct op.
      + destruct (il_next it) as [(p, it1)| |] eqn:E; cbn [bind] in R; try discriminate. destruct (run_calls k ops _) as [(q, it2)| |] eqn:E2; cbn [bind] in R; try discriminate. injection R as <- <-. cbn [fst snd] in *.
        destruct (look_ok d p) as (x & Ex & Mx). { intros q0 ->. apply H. now left. }
        unfold elem_next. cbn [ei_iter ei_view]. rewrite E. cbn [bind fst snd]. rewrite Ex. cbn [bind fst snd]. destruct (IH _ _ _ E2) as (xs & Exs & Mxs). { intros q0 Hq. apply H. now right. }
        rewrite Exs. cbn [bind fst snd]. exists (x :: xs). split; auto. cbn. now rewrite Mx, Mxs.
      + destruct (il_next_back it) as [(p, it1)| |] eqn:E; cbn [bind] in R; try discriminate. destruct (run_calls k ops _) as [(q, it2)| |] eqn:E2; cbn [bind] in R; try discriminate. injection R as <- <-. cbn [fst snd] in *.
        destruct (look_ok d p) as (x & Ex & Mx). { intros q0 ->. apply H. now left. }
        unfold elem_next_back. cbn [ei_iter ei_view]. rewrite E. cbn [bind fst snd]. rewrite Ex. cbn [bind fst snd]. destruct (IH _ _ _ E2) as (xs & Exs & Mxs). { intros q0 Hq. apply H. now right. }
        rewrite Exs. cbn [bind fst snd]. exists (x :: xs). split; auto. cbn. now rewrite Mx, Mxs.
      + destruct (il_split_at k it n) as [(a, b)| |] eqn:E; cbn [bind fst snd] in R; try discriminate. unfold elem_split_at. cbn [ei_iter ei_view]. rewrite E. cbn [bind fst snd]. now apply IH.
      + destruct (il_split_at k it n) as [(a, b)| |] eqn:E; cbn [bind fst snd] in R; try discriminate. unfold elem_split_at. cbn [ei_iter ei_view]. rewrite E. cbn [bind fst snd]. now apply IH. Qed.
  Lemma elem_collect_ok (d : list T) it ps : collect it = Ok ps -> (forall q, In q ps -> exists x, peek d q = Some x) -> exists xs, elem_collect (mkElems it d) = Ok xs /\ map Some xs = map (peek d) ps.
  Proof. unfold collect, elem_collect, elem_len. cbn [ei_iter]. destruct (il_len it) as [n| |]; cbn [bind]; try discriminate. generalize (S n). intro fuel. clear n. revert it ps. induction fuel as [|fuel IH]; intros it ps E H; cbn [collect_loop elem_collect_loop] in *; [discriminate|].
    unfold elem_next. cbn [ei_iter ei_view]. destruct (il_next it) as [([p|], it1)| |] eqn:E1; cbn [bind fst snd] in *; try discriminate.
    - destruct (collect_loop fuel it1) as [r| |] eqn:E2; cbn [bind] in E; try discriminate. injection E as <-. destruct (H p) as (x & Hx); [now left|]. pose proof Hx as Hz. apply zget_peek in Hz. cbn [look]. rewrite Hz. cbn [bind fst snd].
      destruct (IH it1 r E2) as (xs & -> & M). { intros q Hq. apply H. now right. } cbn [bind]. exists (x :: xs). split; auto. cbn. now rewrite Hx, M.
    - injection E as <-. cbn [look bind fst snd]. exists []. auto. Qed.
  Lemma rewrite_at_ok (f : T -> T) d p : rewrite_at f d (Some p) = modify (fun p => p) (fun _ x => Ok (f x)) d p.
  Proof. unfold rewrite_at, modify. destruct (zget d p); auto. Qed.
  Lemma run_updates_ok k (f : T -> T) ops : forall it outs it' d, run_calls k ops it = Ok (outs, it') ->
    run_updates k f ops (mkElems it d) = let* d := fold_res (fun d p => rewrite_at f d (Some p)) (handed outs) d in Ok (mkElems it' d).
  Proof. induction ops as [|op ops IH]; intros it outs it' d R; cbn [run_calls run_updates] in *.
    - now injection R as <- <-.
    - destruct op.
      + destruct (il_next it) as [(p, it1)| |] eqn:E; cbn [bind] in R; try discriminate. destruct (run_calls k ops _) as [(q, it2)| |] eqn:E2; cbn [bind] in R; try discriminate. injection R as <- <-. cbn [fst snd] in *.
        unfold update_next. cbn [ei_iter ei_view]. rewrite E. cbn [bind fst snd]. destruct p as [p|]; cbn [handed flat_map app fold_res].
        * destruct (rewrite_at f d (Some p)) as [d1| |]; cbn [bind]; auto. now apply IH.
        * cbn [rewrite_at bind]. now apply IH.
      + destruct (il_next_back it) as [(p, it1)| |] eqn:E; cbn [bind] in R; try discriminate. destruct (run_calls k ops _) as [(q, it2)| |] eqn:E2; cbn [bind] in R; try discriminate. injection R as <- <-. cbn [fst snd] in *.
        unfold update_next_back. cbn [ei_iter ei_view]. rewrite E. cbn [bind fst snd]. destruct p as [p|]; cbn [handed flat_map app fold_res].
        * destruct (rewrite_at f d (Some p)) as [d1| |]; cbn [bind]; auto. now apply IH.
        * cbn [rewrite_at bind]. now apply IH.
      + destruct (il_split_at k it n) as [(a, b)| |] eqn:E; cbn [bind fst snd] in R; try discriminate. unfold elem_split_at. cbn [ei_iter ei_view]. rewrite E. cbn [bind fst snd]. now apply IH.
      + destruct (il_split_at k it n) as [(a, b)| |] eqn:E; cbn [bind fst snd] in R; try discriminate. unfold elem_split_at. cbn [ei_iter ei_view]. rewrite E. cbn [bind fst snd]. now apply IH. Qed.
End Reading.
(** what is handed out is part of the sequence *)
Lemma deque_parts {A} ops : forall xs : list A, exists dropped, Permutation xs (handed (fst (deque ops xs)) ++ snd (deque ops xs) ++ dropped).
Proof. induction ops as [|op ops IH]; intro xs; cbn [deque].
  - exists []. cbn. now rewrite app_nil_r.
  - destruct op.
    + destruct xs as [|x xs]; cbn [fst snd handed flat_map app]; [destruct (IH []) as (r & P); now exists r|]. destruct (IH xs) as (r & P). exists r. now constructor.
    + destruct (rev xs) as [|x r] eqn:E; cbn [fst snd handed flat_map app].
      * replace xs with (@nil A) by (rewrite <- (rev_involutive xs), E; auto). destruct (IH []) as (r & P). now exists r.
      * destruct (IH (rev r)) as (r' & P). exists r'. rewrite <- P. rewrite <- (rev_involutive xs), E. cbn [rev]. symmetry. apply Permutation_cons_append.
    + destruct (IH (firstn n xs)) as (r & P). exists (r ++ skipn n xs). rewrite !app_assoc. rewrite app_assoc in P. rewrite <- P. now rewrite firstn_skipn.
    + destruct (IH (skipn n xs)) as (r & P). exists (r ++ firstn n xs). rewrite !app_assoc. rewrite app_assoc in P. rewrite <- P. rewrite <- (firstn_skipn n xs) at 1. apply Permutation_app_comm. Qed.
Lemma handed_in {A} (outs : list (option A)) x : In x (handed outs) <-> In (Some x) outs.
Proof. unfold handed. rewrite in_flat_map. split; [intros ([y|] & H & I); [destruct I as [->|[]]; auto|destruct I]|intro H; exists (Some x); split; auto; now left]. Qed.
Lemma handed_map {A B} (g : A -> B) outs : handed (map (option_map g) outs) = map g (handed outs).
Proof. unfold handed. induction outs as [|[x|] outs IH]; cbn; auto. now rewrite IH. Qed.
Lemma handed_sub {A} ops (xs : list A) x : In x (handed (fst (deque ops xs))) -> In x xs.
Proof. intro H. destruct (deque_parts ops xs) as (r & P). eapply Permutation_in; [symmetry; exact P|]. apply in_app_iff. auto. Qed.
Lemma rest_sub {A} ops (xs : list A) x : In x (snd (deque ops xs)) -> In x xs.
Proof. intro H. destruct (deque_parts ops xs) as (r & P). eapply Permutation_in; [symmetry; exact P|]. rewrite !in_app_iff. auto. Qed.
Lemma within_map {A B} (g : A -> B) ops : forall xs, splits_within ops xs -> splits_within ops (map g xs).
Proof. induction ops as [|op ops IH]; intro xs; cbn [splits_within]; auto. destruct op.
  - rewrite deque_map. apply IH.
  - rewrite deque_map. apply IH.
  - rewrite map_length, firstn_map. intros (H & K). auto.
  - rewrite map_length, skipn_map. intros (H & K). auto. Qed.
Lemma nodup_front {A} (a b : list A) : NoDup (a ++ b) -> NoDup a.
Proof. induction a as [|x a IH]; cbn; intro H; [constructor|]. inversion H; subst. constructor; auto. rewrite in_app_iff in H2. tauto. Qed.
Lemma fair_calls dflt k l o ops : wf l -> nonneg l -> fair ops (enum o (l_shape l)) ->
  exists it it', iter_layout_new dflt k l (match o with RowMajor => OC | ColMajor => OF end) = Ok it /\ run_calls k ops it = Ok (fst (deque ops (addrs o l)), it') /\ collect it' = Ok (snd (deque ops (addrs o l))) /\ il_len it' = Ok (length (snd (deque ops (addrs o l)))).
Proof. intros W N (SW & F). destruct (new_order dflt k l o W N) as (it & E & O & I & L & P). subst o.
  destruct (run_calls_ok k ops it) as (it' & R & O' & L' & I' & P'); auto.
  - destruct F as [F|F]; auto. left. rewrite L, <- (enum_length (il_order it) (l_shape l)). destruct (enum _ _); cbn; congruence.
  - rewrite P. now apply within_map.
  - rewrite P in *. exists it, it'. split; auto. split; auto. rewrite collect_ok by auto. rewrite P'. split; auto. unfold il_len. rewrite <- P'. now apply iter_len_ok. Qed.
Lemma element_there {T} (t : tensor T) o q : tensor_ok t -> In q (addrs o (t_layout t)) -> exists x, peek (t_data t) q = Some x.
Proof. intros (_ & I) H. apply in_map_iff in H as (ix & <- & H). apply in_enum in H. apply peek_inside. now apply I. Qed.
Lemma ok_wf {T} (t : tensor T) : tensor_ok t -> wf (t_layout t) /\ nonneg (t_layout t).
Proof. intros (A & _). apply good_accepted in A. split; apply A. Qed.
Lemma l_iter_elements : forall (T : Type) dflt k dev (t : tensor T) ops, tensor_ok t -> fair ops (enum dev (t_shape t)) ->
  exists e outs e' rest, elems dflt k dev t = Ok e /\ run_elems k ops e = Ok (outs, e') /\ elem_collect e' = Ok rest /\ elem_len e' = Ok (length rest) /\
    map (option_map Some) outs = fst (deque ops (map (at_ t) (enum dev (t_shape t)))) /\ map Some rest = snd (deque ops (map (at_ t) (enum dev (t_shape t)))).
Proof. intros T dflt k dev t ops Ht F. destruct (ok_wf t Ht) as (W & N). destruct (fair_calls dflt k (t_layout t) dev ops W N F) as (it & it' & E & R & C & L). set (ps := addrs dev (t_layout t)) in *.
  destruct (run_elems_ok k (t_data t) ops it _ it' R) as (outs & Eo & Mo). { intros q Hq. apply handed_in, handed_sub in Hq. now apply (element_there t dev). }
  destruct (elem_collect_ok (t_data t) it' _ C) as (rest & Er & Mr). { intros q Hq. apply rest_sub in Hq. now apply (element_there t dev). }
  exists (mkElems it (t_data t)), outs, (mkElems it' (t_data t)), rest. unfold elems, elems_with_order. rewrite E. split; auto. split; auto. split; auto. unfold elem_len. cbn [ei_iter].
  assert (Lr : length rest = length (snd (deque ops ps))) by (apply (f_equal (@length _)) in Mr; rewrite !map_length in Mr; exact Mr). rewrite L, Lr. split; auto.
  assert (Q : map (at_ t) (enum dev (t_shape t)) = map (peek (t_data t)) ps) by (unfold ps, addrs; rewrite map_map; reflexivity). rewrite Q, deque_map. auto. Qed.
Lemma l_iter_order : forall (T : Type) dflt k (t : tensor T) o, tensor_ok t ->
  match o with
  | OC => exists e xs, elems_with_order dflt k t o = Ok e /\ elem_collect e = Ok xs /\ map Some xs = map (at_ t) (enum RowMajor (t_shape t))
  | OF => exists e xs, elems_with_order dflt k t o = Ok e /\ elem_collect e = Ok xs /\ map Some xs = map (at_ t) (enum ColMajor (t_shape t))
  | OA => exists e xs, elems_with_order dflt k t o = Ok e /\ elem_collect e = Ok xs /\ map Some xs = map (at_ t) (enum dflt (t_shape t))
  | OK | OG => exists e xs, elems_with_order dflt k t o = Ok e /\ elem_collect e = Ok xs /\ Permutation (map Some xs) (map (at_ t) (enum RowMajor (t_shape t)))
  | OB => elems_with_order dflt k t o = Err InvalidValue
  end.
Proof. intros T dflt k t o Ht. destruct (ok_wf t Ht) as (W & N). assert (Q : forall r, map (at_ t) (enum r (t_shape t)) = map (peek (t_data t)) (addrs r (t_layout t))) by (intro r; unfold addrs; rewrite map_map; reflexivity).
  assert (K : forall o it ps, iter_layout_new dflt k (t_layout t) o = Ok it -> collect it = Ok ps -> (forall q, In q ps -> In q (addrs RowMajor (t_layout t))) -> exists e xs, elems_with_order dflt k t o = Ok e /\ elem_collect e = Ok xs /\ map Some xs = map (peek (t_data t)) ps).
  { intros o0 it ps E C S. unfold elems_with_order. rewrite E. cbn [bind]. destruct (elem_collect_ok (t_data t) it ps C) as (xs & Ex & Mx). { intros q Hq. apply (element_there t RowMajor); auto. } eauto. }
  assert (S : forall r q, In q (addrs r (t_layout t)) -> In q (addrs RowMajor (t_layout t))) by (intros r q H; apply in_map_iff in H as (ix & <- & H); apply in_map; apply in_enum; now apply in_enum in H).
  assert (M : o = OK \/ o = OG -> exists e xs, elems_with_order dflt k t o = Ok e /\ elem_collect e = Ok xs /\ Permutation (map Some xs) (map (at_ t) (enum RowMajor (t_shape t)))).
  { intro Ho. destruct (l_k_order_iter dflt k (t_layout t) o (proj1 Ht) Ho) as (it & ps & E & C & P). destruct (K o it ps E C) as (e & xs & E1 & E2 & E3). { intros q Hq. eapply Permutation_in; eauto. }
    exists e, xs. split; auto. split; auto. rewrite E3, Q. now apply Permutation_map. }
  destruct o; auto; try rewrite Q.
  - destruct (l_iter_forward dflt k (t_layout t) RowMajor W N) as (it & E & C & _). eapply K; eauto.
  - destruct (l_iter_forward dflt k (t_layout t) ColMajor W N) as (it & E & C & _). eapply K; eauto.
  - destruct (l_iter_default dflt k (t_layout t) W N) as (it & E & C). eapply K; eauto. Qed.
(** ** updates *)
Lemma update_cells {T} (f : T -> T) (ps : list Z) (d : list T) : NoDup ps -> (forall p, In p ps -> exists x, peek d p = Some x) ->
  exists d', fold_res (fun d p => rewrite_at f d (Some p)) ps d = Ok d' /\ length d' = length d /\ (forall p, In p ps -> peek d' p = option_map f (peek d p)) /\ (forall p, ~ In p ps -> peek d' p = peek d p).
Proof. intros ND H. destruct (modify_fold (fun p => p) (fun _ x => Ok (f x)) ps d) as (d' & E & L & A & B).
  - now rewrite map_id.
  - intros p Hp. apply peek_inside. auto.
  - intros p x _. eauto.
  - exists d'. split; [rewrite <- E; apply fold_res_ext; intros p s _; apply rewrite_at_ok|]. split; auto. rewrite map_id in B. split; auto. intros p Hp. destruct (H p Hp) as (x & Hx). destruct (A p x Hp Hx) as (y & Ey & Py). injection Ey as <-. now rewrite Py, Hx. Qed.
Lemma l_iter_mut_elements : forall (T : Type) dflt k dev (t : tensor T) f ops, tensor_ok t -> injective (t_layout t) -> fair ops (enum dev (t_shape t)) ->
  exists e e', elems dflt k dev t = Ok e /\ run_updates k f ops e = Ok e' /\
    let t' := mkTensor (ei_view e') (t_layout t) in
    length (t_data t') = length (t_data t) /\
    (forall ix, valid (t_shape t) ix -> In ix (handed (fst (deque ops (enum dev (t_shape t))))) -> at_ t' ix = option_map f (at_ t ix)) /\
    (forall ix, valid (t_shape t) ix -> ~ In ix (handed (fst (deque ops (enum dev (t_shape t))))) -> at_ t' ix = at_ t ix) /\
    (forall p, ~ In p (addrs dev (t_layout t)) -> peek (t_data t') p = peek (t_data t) p).
Proof. intros T dflt k dev t f ops Ht Inj F. destruct (ok_wf t Ht) as (W & N). destruct (fair_calls dflt k (t_layout t) dev ops W N F) as (it & it' & E & R & C & L).
  unfold elems, elems_with_order. rewrite E. cbn [bind]. exists (mkElems it (t_data t)). set (ix := handed (fst (deque ops (enum dev (t_shape t))))).
  assert (Hd : handed (fst (deque ops (addrs dev (t_layout t)))) = map (addr (t_layout t)) ix) by (unfold addrs; rewrite deque_map; apply handed_map).
  assert (V : forall i, In i ix -> valid (t_shape t) i) by (intros i H; apply handed_sub in H; now apply in_enum in H).
  assert (ND : NoDup (map (addr (t_layout t)) ix)). { rewrite <- Hd. destruct (deque_parts ops (addrs dev (t_layout t))) as (r & P). assert (Nd := addrs_nodup dev (t_layout t) Inj). eapply Permutation_NoDup in Nd; [|exact P]. now apply nodup_front in Nd. }
  destruct (update_cells f (map (addr (t_layout t)) ix) (t_data t) ND) as (d' & Ed & Ld & A & B). { intros p Hp. apply in_map_iff in Hp as (i & <- & Hi). apply peek_inside, (proj2 Ht), V, Hi. }
  exists (mkElems it' d'). split; auto. split. { rewrite (run_updates_ok k f ops it _ it' (t_data t) R), Hd, Ed. reflexivity. }
  cbn [ei_view t_data]. split; auto. unfold at_, elem. cbn [t_data t_layout]. split; [|split].
  - intros i Vi Hi. apply A. now apply in_map.
  - intros i Vi Hi. apply B. intro X. apply in_map_iff in X as (j & Ej & Hj). apply Inj in Ej; auto. congruence.
  - intros p Hp. apply B. intro X. apply Hp. apply in_map_iff in X as (j & <- & Hj). apply in_map, in_enum. auto. Qed.
Lemma l_par_iter_mut : forall (T : Type) dflt k dev (t : tensor T) f tree r, tensor_ok t -> injective (t_layout t) -> size (t_shape t) <> 0%nat -> tree_within tree (enum dev (t_shape t)) ->
  exists e, elems dflt k dev t = Ok e /\ (par_updates k f tree e r ->
    exists d, r = Ok d /\ length d = length (t_data t) /\ (forall ix, valid (t_shape t) ix -> elem d (t_layout t) ix = option_map f (at_ t ix)) /\ (forall p, ~ In p (addrs dev (t_layout t)) -> peek d p = peek (t_data t) p)).
Proof. intros T dflt k dev t f tree r Ht Inj S TW. destruct (ok_wf t Ht) as (W & N).
  assert (TW' : tree_within tree (addrs dev (t_layout t))). { clear - TW. unfold addrs, t_shape in *. revert TW. generalize (enum dev (l_shape (t_layout t))). induction tree as [|n a IHa b IHb]; intro xs; cbn [tree_within]; auto. intros (H1 & H2 & H3). rewrite map_length, firstn_map, skipn_map. auto. }
  destruct (l_iter_tree dflt k (t_layout t) dev tree W N S TW') as (it & parts & E & R & Ep & Ec). unfold elems, elems_with_order. rewrite E. cbn [bind]. exists (mkElems it (t_data t)). split; auto. unfold par_updates. cbn [ei_iter ei_view]. rewrite R.
  intros (ps & P & ->). rewrite Ec in P. assert (ND : NoDup ps) by (eapply Permutation_NoDup; [symmetry; exact P|now apply addrs_nodup]).
  destruct (update_cells f ps (t_data t) ND) as (d & Ed & Ld & A & B). { intros p Hp. apply (element_there t dev); auto. eapply Permutation_in; eauto. }
  exists d. split; auto. split; auto. split.
  - intros ix V. unfold elem. rewrite A; auto. eapply Permutation_in; [symmetry; exact P|]. apply in_map, in_enum, V.
  - intros p Hp. apply B. intro X. apply Hp. eapply Permutation_in; eauto. Qed.

(** ** indexed *)
Lemma run_indexed_ok {T} (d : list T) ops : Forall (fun op => op = Front \/ op = Back) ops -> forall it outs it', run_indexed ops it = Ok (outs, it') -> (forall ix q, In (Some (ix, q)) outs -> exists x, peek d q = Some x) ->
  exists xs, run_indexed_elems ops (mkElems it d) = Ok (xs, mkElems it' d) /\ map (option_map (fun p => (fst p, Some (snd p)))) xs = map (option_map (fun p => (fst p, peek d (snd p)))) outs.
Proof. induction 1 as [|op ops [->| ->] F IH]; intros it outs it' R H; cbn [run_indexed run_indexed_elems] in *.
  - injection R as <- <-. exists []. auto.
  - unfold indexed_next in R. destruct (il_next it) as [(p, it1)| |] eqn:E; cbn [bind fst snd] in R; try discriminate. destruct (run_indexed ops it1) as [(q, it2)| |] eqn:E2; cbn [bind fst snd] in R; try discriminate. injection R as <- <-.
    unfold indexed_elem_next, elem_next. cbn [ei_iter ei_view]. rewrite E. cbn [bind fst snd]. destruct (look_ok d p) as (x & Ex & Mx). { intros q0 ->. apply (H (it_istart (il_iter it))). now left. }
    rewrite Ex. cbn [bind fst snd]. destruct (IH it1 q it2 E2) as (xs & -> & Mxs). { intros ix q0 Hq. apply (H ix). now right. } cbn [bind fst snd]. eexists. split; [reflexivity|]. cbn [map]. f_equal; auto. destruct p, x; cbn in *; congruence.
  - unfold indexed_next_back in R. destruct (il_next_back it) as [(p, it1)| |] eqn:E; cbn [bind fst snd] in R; try discriminate. destruct (run_indexed ops it1) as [(q, it2)| |] eqn:E2; cbn [bind fst snd] in R; try discriminate. injection R as <- <-.
    unfold indexed_elem_next_back, elem_next_back. cbn [ei_iter ei_view]. rewrite E. cbn [bind fst snd]. destruct (look_ok d p) as (x & Ex & Mx). { intros q0 ->. apply (H (it_istart (il_iter it))). now left. }
    rewrite Ex. cbn [bind fst snd]. destruct (IH it1 q it2 E2) as (xs & -> & Mxs). { intros ix q0 Hq. apply (H ix). now right. } cbn [bind fst snd]. eexists. split; [reflexivity|]. cbn [map]. f_equal; auto. destruct p, x; cbn in *; congruence. Qed.
Lemma fronts_map {A B} (g : A -> B) ops : forall outs, fronts ops (map (option_map g) outs) = map g (fronts ops outs).
Proof. induction ops as [|[] ops IH]; intros [|[x|] outs]; cbn; auto. now rewrite IH. Qed.
Lemma l_indexed_elements_partial : forall (T : Type) dflt k o (t : tensor T) ops, tensor_ok t -> Forall (fun op => op = Front \/ op = Back) ops ->
  exists e outs e', indexed_elems_with_order dflt k t (match o with RowMajor => OC | ColMajor => OF end) = Ok e /\ run_indexed_elems ops e = Ok (outs, e') /\
    map (fun p => (fst p, Some (snd p))) (fronts ops outs) = fronts ops (fst (deque ops (map (fun ix => (ix, at_ t ix)) (enum o (t_shape t))))) /\
    map (option_map (fun p => Some (snd p))) outs = fst (deque ops (map (at_ t) (enum o (t_shape t)))).
Proof. intros T dflt k o t ops Ht F. destruct (ok_wf t Ht) as (W & N). destruct (l_indexed_partial k (t_layout t) o ops W N F) as (it & outs & it' & E & R & Fr & Mp).
  destruct (run_indexed_ok (t_data t) ops F it outs it' R) as (xs & Ex & Mx).
  { intros ix q Hq. apply (element_there t o); auto. apply (handed_sub ops). apply handed_in. rewrite <- Mp. apply (in_map (option_map snd)) in Hq. exact Hq. }
  exists (mkElems it (t_data t)), xs, (mkElems it' (t_data t)). split; [|split; auto; split].
  - unfold indexed_new in E. assert (E' : iter_layout_new dflt k (t_layout t) (match o with RowMajor => OC | ColMajor => OF end) = Ok it) by (rewrite <- E; now destruct o). unfold indexed_elems_with_order, elems_with_order. destruct o; rewrite E'; reflexivity.
  - rewrite <- fronts_map, Mx, fronts_map, Fr. rewrite <- fronts_map. f_equal. unfold t_shape. rewrite <- (map_map (fun ix => (ix, addr (t_layout t) ix)) (fun p => (fst p, peek (t_data t) (snd p)))). now rewrite (deque_map (fun p => (fst p, peek (t_data t) (snd p)))).
  - assert (Q : map (at_ t) (enum o (t_shape t)) = map (peek (t_data t)) (addrs o (t_layout t))) by (unfold addrs; rewrite map_map; reflexivity). rewrite Q, deque_map. cbn [fst]. rewrite <- Mp, map_map.
    apply (f_equal (map (option_map (@snd (list nat) (option T))))) in Mx. rewrite !map_map in Mx. erewrite map_ext; [rewrite Mx; apply map_ext|]; now intros [[]|]. Qed.
Lemma l_indexed_orders : forall (T : Type) dflt k (t : tensor T) o, o <> OC -> o <> OF -> indexed_elems_with_order dflt k t o = Err InvalidValue.
Proof. intros T dflt k t o H1 H2. destruct o; try congruence; reflexivity. Qed.
Lemma l_indexed_reversed_refuted : exists (t : tensor Z) e outs e', tensor_ok t /\ indexed_elems_with_order RowMajor Fixed t OC = Ok e /\ run_indexed_elems [Back; Back; Back; Back] e = Ok (outs, e') /\
  outs = [Some ([0; 0]%nat, 4); Some ([0; 0]%nat, 3); Some ([0; 0]%nat, 2); Some ([0; 0]%nat, 1)] /\ map (at_ t) [[1; 1]; [1; 0]; [0; 1]; [0; 0]]%nat = [Some 4; Some 3; Some 2; Some 1].
Proof. exists (mkTensor [1; 2; 3; 4] (mkLayout [2; 2]%nat [2; 1] 0)). do 3 eexists. split.
  - concrete_tensor.
  - split; [reflexivity|]. split; [vm_compute; reflexivity|]. split; reflexivity. Qed.
Lemma l_iter_mut_broadcast_refuted : exists (t v : tensor Z) e e', tensor_ok v /\ tensor_broadcast RowMajor [2; 2]%nat v = Ok t /\ elems RowMajor Fixed RowMajor t = Ok e /\
  run_updates Fixed (fun x => x + 1) [Front; Front; Front; Front] e = Ok e' /\ at_ t [0; 0]%nat = Some 5 /\ at_ (mkTensor (ei_view e') (t_layout t)) [0; 0]%nat = Some (5 + 1 + 1).
Proof. exists (mkTensor [5; 7] (mkLayout [2; 2]%nat [0; 1] 0)), (mkTensor [5; 7] (mkLayout [2]%nat [1] 0)). do 2 eexists. split.
  - concrete_tensor.
  - split; [vm_compute; reflexivity|]. split; [reflexivity|]. split; [vm_compute; reflexivity|]. split; reflexivity. Qed.
