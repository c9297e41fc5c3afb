(** Proofs about index_select. *)
From Verif Require Import Base Spec P_Index P_List M_Layout P_Layout P_Bounds P_Contig P_Strides M_Indexer P_Indexer Q_Indexer M_Broadcast P_Broadcast M_Rearr M_Iter P_Iter P_Rearr P_BinOp Q_Rearr M_Kernel P_Kernel Q_Kernel M_Tensor P_Tensor Q_Tensor P_Axes P_Manip P_Matmul2 P_Tri3 Q_Concat M_Select Spec_Select.
Local Open Scope Z_scope.

(** ** a contiguous layout without one of its axes is accepted, even when that axis is empty *)
Lemma cum_zero s : cum_strides (fun n => n) s 0 = repeat 0 (length s).
Proof. induction s as [|d s IH]; cbn; auto. now rewrite IH. Qed.
Lemma nz_zero s : nz (combine s (repeat 0 (length s))) = [].
Proof. induction s as [|d s IH]; cbn [length repeat combine]; auto. unfold nz in *. cbn [filter]. unfold nzp at 1. cbn [fst snd Z.eqb negb]. rewrite andb_false_r. exact IH. Qed.
Lemma cum_nonneg s : forall c, 0 <= c -> Forall (fun t => 0 <= t) (cum_strides (fun n => n) s c).
Proof. induction s as [|d s IH]; intros c Hc; cbn [cum_strides]; constructor; auto. apply IH. nia. Qed.
Lemma in_remove {A} (l : list A) a x : In x (remove_at l a) -> In x l.
Proof. unfold remove_at. rewrite in_app_iff. intros [H|H]; [eapply in_firstn; eauto|]. rewrite <- (firstn_skipn (S a) l). apply in_or_app. now right. Qed.
Lemma dyn_nonneg s o : Forall (fun t => 0 <= t) (l_stride (new_contig Dyn s 0 o)).
Proof. destruct o; cbn [new_contig new_c_contig new_f_contig l_stride stride_c_contig stride_f_contig]; unfold stride_c_dyn, stride_f_dyn; [apply Forall_rev|]; apply cum_nonneg; lia. Qed.
Lemma chk_f s a : (a < length s)%nat -> nth a s 0%nat = 0%nat -> size (remove_at s a) <> 0%nat -> chk (remove_at (combine s (cum_strides (fun n => n) s 1)) a).
Proof. intros Ha Hz Hs. rewrite (split_nth s a 0%nat Ha), Hz in Hs |- *. set (p := firstn a s) in *. set (q := skipn (S a) s) in *. assert (Lp : length p = a) by (unfold p; rewrite firstn_length; lia). clearbody p q. clear Ha Hz.
  rewrite cum_strides_app. cbn [cum_strides]. rewrite Z.mul_0_r, cum_zero. rewrite combine_app by (now rewrite cum_strides_length). cbn [combine].
  rewrite <- Lp in Hs |- *. rewrite remove_app in Hs. replace (length p) with (length (combine p (cum_strides (fun n => n) p 1))) by (rewrite combine_length, cum_strides_length; lia). rewrite remove_app.
  rewrite size_app in Hs. destruct (good_elim (new_f_contig Dyn p 0) (contig_f_good Dyn p 0 ltac:(lia))) as (_ & _ & _ & (w & Pw & Hw)); [cbn [new_f_contig l_shape]; intro E; rewrite E in Hs; lia|]. cbn [new_f_contig l_shape l_stride stride_f_contig] in Pw. exists w. split; auto. rewrite nz_app, nz_zero, app_nil_r. exact Pw. Qed.
Lemma remove_rev {A} (l : list A) a : (a < length l)%nat -> remove_at (rev l) a = rev (remove_at l (length l - 1 - a)).
Proof. intro H. destruct l as [|x0 l0]; [cbn in H; lia|]. revert H. generalize (x0 :: l0) as l. intros l H. remember (length l - 1 - a)%nat as b eqn:Eb. assert (Hb : (b < length l)%nat) by lia.
  assert (X : exists p x q, l = p ++ x :: q /\ length p = b) by (exists (firstn b l), (nth b l x0), (skipn (S b) l); split; [now apply split_nth|rewrite firstn_length; lia]). destruct X as (p & x & q & -> & Lp).
  rewrite rev_app_distr. cbn [rev]. rewrite <- app_assoc. cbn [app]. assert (Ea : a = length (rev q)) by (rewrite app_length in *; cbn [length] in *; rewrite rev_length; lia). rewrite Ea, remove_app, <- Lp, remove_app. now rewrite rev_app_distr. Qed.
Lemma chopped_good s o a : (a < length s)%nat -> good (chopped (new_contig Dyn s 0 o) a).
Proof. intro Ha. destruct (contig_facts Dyn s o) as (G & _ & _ & Sh & O). destruct (Nat.eq_dec (nth a s 0%nat) 0) as [Z0|Z0].
  2:{ eapply (chop_spec _ (Z.of_nat a) a); auto; [|now rewrite Sh]. unfold ndim. rewrite Sh. split; lia. }
  assert (L : length (l_stride (new_contig Dyn s 0 o)) = length s) by (rewrite <- Sh at 2; apply G).
  apply good_intro; cbn [chopped l_shape l_stride]; [rewrite !remove_length; rewrite ?Sh; lia|]. intro Hs. split.
  - intros ix _. unfold addr. cbn [chopped l_offset l_stride]. rewrite O. assert (0 <= dot (remove_at (l_stride (new_contig Dyn s 0 o)) a) ix); [|lia]. apply dot_nonneg. pose proof (dyn_nonneg s o) as F. rewrite Forall_forall in *. intros t Ht. apply F. eapply in_remove; eauto.
  - rewrite Sh in *. destruct (combine_remove s (l_stride (new_contig Dyn s 0 o)) a) as [->|]; [|congruence]. destruct o; cbn [new_contig new_c_contig new_f_contig l_stride stride_c_contig stride_f_contig] in *; unfold stride_c_dyn, stride_f_dyn in *.
    + rewrite <- (rev_involutive s) at 1. rewrite combine_rev by (rewrite cum_strides_length; reflexivity). rewrite remove_rev by (rewrite combine_length, cum_strides_length, rev_length; lia). rewrite combine_length, cum_strides_length, rev_length, Nat.min_id.
      eapply chk_perm; [apply Permutation_rev|]. apply chk_f; [rewrite rev_length; lia| |].
      * rewrite rev_nth by lia. replace (length s - S (length s - 1 - a))%nat with a by lia. auto.
      * rewrite remove_rev by lia. replace (length s - 1 - (length s - 1 - a))%nat with a by lia. now rewrite size_rev.
    + now apply chk_f. Qed.

(** ** the writes of the contiguous branch *)
Section Writes.
Context {T : Type} (lc la : layout) (a : nat) (src : list T) (indices : list nat) (c0 : list (option T)).
Definition from (ix : list nat) : list nat := upd ix a (nth (nth a ix 0%nat) indices 0%nat).
Definition written (c c' : list (option T)) : Prop := untouched_outside lc c c' /\
  forall ix, valid (l_shape lc) ix -> exists v, elem src la (from ix) = Some v /\ elem c' lc ix = Some (Some v).
Lemma written_unique c c1 c2 : written c c1 -> written c c2 -> c1 = c2.
Proof. intros [U1 Q1] [U2 Q2]. eapply untouched_unique; eauto. intros ix V. destruct (Q1 ix V) as (v & E1 & ->). destruct (Q2 ix V) as (w & E2 & ->). congruence. Qed.
Hypothesis (Gc : good lc) (Ga : good la) (Jc : injective lc) (Ia : inside la (length src)) (Ha : (a < ndim la)%nat).
Hypothesis (Sc : l_shape lc = upd (l_shape la) a (length indices)) (Hi : Forall (fun i => (i < nth a (l_shape la) 0)%nat) indices).
Definition wpos (x : list nat * nat) : Z := addr lc (insert_at (fst x) a (snd x)).
Definition wval (x : list nat * nat) : res (option T) := let* y := zget src (addr la (insert_at (fst x) a (nth (snd x) indices 0%nat))) in Ok (Some y).
Definition rest : list nat := remove_at (l_shape la) a.
Lemma nth_idx i : (i < length indices)%nat -> (nth i indices 0 < nth a (l_shape la) 0)%nat.
Proof. intro H. rewrite Forall_forall in Hi. apply Hi. now apply nth_In. Qed.
Lemma ndc : ndim lc = ndim la.
Proof. unfold ndim. now rewrite Sc, upd_length. Qed.
Lemma remove_upd {A} (l : list A) k v : remove_at (upd l k v) k = remove_at l k.
Proof. unfold remove_at. revert k. induction l as [|x l IH]; intros [|k]; cbn [upd firstn skipn app]; auto. f_equal. apply IH. Qed.
Lemma rest_c : remove_at (l_shape lc) a = rest.
Proof. rewrite Sc. apply remove_upd. Qed.
Lemma insert_c jx i : valid rest jx -> (i < length indices)%nat -> valid (l_shape lc) (insert_at jx a i).
Proof. intros V H. unfold rest in V. rewrite Sc. unfold ndim in Ha. rewrite <- (insert_remove (upd (l_shape la) a (length indices)) a 0%nat) by (now rewrite upd_length). rewrite remove_upd, nth_upd_same by auto. apply valid_insert; [rewrite remove_length; lia|]. split; auto. now apply valid_length in V. Qed.
Lemma insert_a jx i : valid rest jx -> (i < nth a (l_shape la) 0)%nat -> valid (l_shape la) (insert_at jx a i).
Proof. intros V H. unfold rest in V. unfold ndim in Ha. rewrite <- (insert_remove (l_shape la) a 0%nat) by auto. apply valid_insert; [rewrite remove_length; lia|]. split; auto. now apply valid_length in V. Qed.
Lemma rest_len jx : valid rest jx -> length jx = (ndim la - 1)%nat.
Proof. intro V. apply valid_length in V. unfold rest in V. unfold ndim in *. now rewrite remove_length in V. Qed.
Lemma from_insert jx i : valid rest jx -> from (insert_at jx a i) = insert_at jx a (nth i indices 0%nat).
Proof. intro V. apply rest_len in V. unfold from. rewrite nth_insert by lia. rewrite Nat.ltb_irrefl, Nat.eqb_refl. apply upd_insert. lia. Qed.
Lemma split_c ix : valid (l_shape lc) ix -> exists jx i, ix = insert_at jx a i /\ valid rest jx /\ (i < length indices)%nat.
Proof. intro V. pose proof (valid_length _ _ V) as L. rewrite Sc, upd_length in L. unfold ndim in Ha. exists (remove_at ix a), (nth a ix 0%nat). split; [symmetry; apply insert_remove; lia|].
  rewrite <- (insert_remove ix a 0%nat) in V by lia. rewrite Sc in V. rewrite <- (insert_remove (upd (l_shape la) a (length indices)) a 0%nat) in V by (now rewrite upd_length). rewrite remove_upd, nth_upd_same in V by auto. apply valid_insert in V; [tauto|]. rewrite remove_length; lia. Qed.
Lemma write_steps steps : inside lc (length c0) -> (forall x, In x steps <-> valid rest (fst x) /\ (snd x < length indices)%nat) ->
  exists c', fold_res (modify wpos (fun x _ => wval x)) steps c0 = Ok c' /\ written c0 c'.
Proof. intros Ic St. destruct (write_fold wpos wval steps c0) as (c' & E & L & Q & U).
  - intros x Hx. apply St in Hx as [V H]. apply Ic. now apply insert_c.
  - intros x Hx. apply St in Hx as [V H]. unfold wval. destruct (elem_inside src la (insert_at (fst x) a (nth (snd x) indices 0%nat)) Ia) as (v & Hv). { apply insert_a; auto. now apply nth_idx. } apply zget_peek in Hv. rewrite Hv. cbn. eauto.
  - intros x y Hx Hy Ex. apply St in Hx as [Vx Hx]. apply St in Hy as [Vy Hy]. apply Jc in Ex; [|now apply insert_c|now apply insert_c].
    assert (fst x = fst y /\ snd x = snd y) as [E1 E2].
    { split; [apply (f_equal (fun v => remove_at v a)) in Ex; pose proof (rest_len _ Vx); pose proof (rest_len _ Vy); rewrite !remove_insert in Ex by lia; auto|]. apply (f_equal (fun v => nth a v 0%nat)) in Ex. pose proof (rest_len _ Vx). pose proof (rest_len _ Vy). rewrite !nth_insert in Ex by lia. rewrite !Nat.ltb_irrefl, !Nat.eqb_refl in Ex. auto. }
    unfold wval. now rewrite E1, E2.
  - exists c'. split; auto. split; [split; auto|].
    + intros p Hp. apply U. rewrite in_map_iff. intros (x & Ex & Hx). apply St in Hx as [V H]. apply (Hp (insert_at (fst x) a (snd x))); auto. now apply insert_c.
    + intros ix V. apply split_c in V as (jx & i & -> & V & H). destruct (Q (jx, i)) as (y & Ey & Py); [apply St; auto|]. unfold wval in Ey. cbn [fst snd] in Ey. apply bind_ok in Ey as (v & Ev & Ey). injection Ey as <-. apply zget_peek in Ev. exists v. rewrite from_insert by auto. auto. Qed.
Lemma select_write_modify c jx i : valid rest jx -> nth a (l_stride lc) 0 = 1 -> 
  select_write src (nth a (l_stride la) 0) indices c (tuple [chopped lc a; chopped la a] jx) i = modify wpos (fun x _ => wval x) c (jx, i).
Proof. intros V E. pose proof (rest_len jx V) as Lj. cbn [tuple map select_write].
  assert (A1 : addr (chopped lc a) jx + Z.of_nat i = addr lc (insert_at jx a i)).
  { rewrite chopped_selected. rewrite selected_addr; [|apply Gc|rewrite ndc; auto|rewrite ndc; auto]. assert (Lc : length (l_stride lc) = length (l_shape lc)) by apply Gc. pose proof ndc as Nc. unfold addr, ndim in *. rewrite <- (insert_remove (l_stride lc) a 0) by lia. rewrite !dot_insert; rewrite ?remove_length by lia; try lia. }
  assert (A2 : forall n, addr (chopped la a) jx + nth a (l_stride la) 0 * Z.of_nat n = addr la (insert_at jx a n)).
  { intro n. rewrite chopped_selected. rewrite selected_addr; [|apply Ga|auto|auto]. assert (Lc : length (l_stride la) = length (l_shape la)) by apply Ga. unfold addr, ndim in *. rewrite <- (insert_remove (l_stride la) a 0) at 1 3 by lia. rewrite !dot_insert; rewrite ?remove_length by lia; try lia. }
  assert (A3 : (if nth a (l_stride la) 0 =? 1 then addr (chopped la a) jx + Z.of_nat (nth i indices 0%nat) else addr (chopped la a) jx + nth a (l_stride la) 0 * Z.of_nat (nth i indices 0%nat)) = addr la (insert_at jx a (nth i indices 0%nat))).
  { rewrite <- A2. destruct (Z.eqb_spec (nth a (l_stride la) 0) 1) as [-> |]; lia. }
  cbv zeta. rewrite A1, A3. unfold cell2, modify, wpos, wval. cbn [fst snd]. apply bind_ext. intro x. rewrite bind_assoc. apply bind_ext. reflexivity. Qed.

(** ** the two branches *)
Lemma fold_prod {S} (f : S -> list nat * nat -> res S) ixs n s : fold_res (fun s jx => fold_res (fun s i => f s (jx, i)) (seq 0 n) s) ixs s = fold_res f (flat_map (fun jx => map (pair jx) (seq 0 n)) ixs) s.
Proof. rewrite fold_res_flat_map. apply fold_res_ext. intros x s' _. now rewrite fold_res_map. Qed.
Lemma in_prod_steps ixs n (x : list nat * nat) : Permutation ixs (row_major rest) -> (In x (flat_map (fun jx => map (pair jx) (seq 0 n)) ixs) <-> valid rest (fst x) /\ (snd x < n)%nat).
Proof. intro P. rewrite in_flat_map. split.
  - intros (jx & Hj & Hx). apply in_map_iff in Hx as (i & <- & Hx). apply in_seq in Hx. cbn [fst snd]. split; [|lia]. apply (in_enum RowMajor). eapply Permutation_in; eauto.
  - intros [V H]. exists (fst x). split; [|apply in_map_iff; exists (snd x); split; [now destruct x|apply in_seq; lia]]. eapply Permutation_in; [apply Permutation_sym; eauto|]. now apply (in_enum RowMajor) in V. Qed.
Lemma chopped_shapes : Forall (fun l => l_shape l = rest) [chopped lc a; chopped la a].
Proof. constructor; [exact rest_c|]. constructor; [reflexivity|constructor]. Qed.
Lemma contig_branch k : inside lc (length c0) -> nth a (l_stride lc) 0 = 1 -> good (chopped lc a) -> good (chopped la a) ->
  exists ls c', select_rest lc la a = Ok ls /\
    dispatch k ls (fun c p => fold_res (fun c i => select_write src (nth a (l_stride la) 0) indices c p i) (seq 0 (length indices)) c) c0 = Ok c' /\ written c0 c' /\
    forall r, select_par k ls src (nth a (l_stride la) 0) indices c0 r -> r = Ok c'.
Proof. intros Ic E1 G1 G2. destruct (joint_steps k [chopped lc a; chopped la a] rest) as (full & ixs & pss & Ef & P & Ep & Ez & _); [discriminate|apply Forall_cons; auto|apply chopped_shapes|].
  assert (Vx : forall jx, In jx ixs -> valid rest jx) by (intros jx Hj; apply (in_enum RowMajor); eapply Permutation_in; eauto).
  destruct (write_steps (flat_map (fun jx => map (pair jx) (seq 0 (length indices))) ixs) Ic (fun x => in_prod_steps ixs _ x P)) as (c' & E & W). exists full, c'. split; [|split; [|split; auto]].
  - unfold select_rest, dim_chop. rewrite !(proj2 (check_axis_spec (Z.of_nat a) _ a)) by (split; rewrite ?ndc; auto; lia). cbn [bind]. rewrite (layout_new_good' (chopped lc a) G1 : layout_new (remove_at (l_shape lc) a) (remove_at (l_stride lc) a) (l_offset lc) = _). cbn [bind]. rewrite (layout_new_good' (chopped la a) G2 : layout_new (remove_at (l_shape la) a) (remove_at (l_stride la) a) (l_offset la) = _). exact Ef.
  - unfold dispatch. rewrite Ep. cbn [bind]. rewrite Ez, fold_res_map. rewrite <- fold_prod in E. rewrite <- E. apply fold_res_ext. intros jx s Hj. apply fold_res_ext. intros i s' _. apply select_write_modify; auto.
  - intros r H. unfold select_par in H. rewrite Ep in H. destruct H as (steps' & Ps & ->). rewrite Ez in Ps.
    assert (Pm : exists st, Permutation st (flat_map (fun jx => map (pair jx) (seq 0 (length indices))) ixs) /\ steps' = map (fun x => (tuple [chopped lc a; chopped la a] (fst x), snd x)) st).
    { assert (Q : flat_map (fun p => map (fun i => (p, i)) (seq 0 (length indices))) (map (tuple [chopped lc a; chopped la a]) ixs) = map (fun x => (tuple [chopped lc a; chopped la a] (fst x), snd x)) (flat_map (fun jx => map (pair jx) (seq 0 (length indices))) ixs)).
      { generalize ixs as js. induction js as [|j js IH]; cbn [flat_map map]; auto. rewrite map_app, IH, map_map. reflexivity. }
      rewrite Q in Ps. apply Permutation_map_inv in Ps as (st & -> & Ps). exists st. split; auto. now apply Permutation_sym. }
    destruct Pm as (st & Pst & ->). rewrite fold_res_map. cbn [fst snd].
    assert (St : forall x, In x st <-> valid rest (fst x) /\ (snd x < length indices)%nat). { intro x. rewrite <- (in_prod_steps ixs _ x P). split; apply Permutation_in; auto. now apply Permutation_sym. }
    destruct (write_steps st Ic St) as (c2 & E2 & W2). rewrite (fold_res_ext _ (modify wpos (fun x _ => wval x))). { rewrite E2. f_equal. eapply written_unique; eauto. }
    intros x s Hx. apply St in Hx as [V _]. rewrite select_write_modify by auto. now destruct x. Qed.

(** the loop over the indices: after the first positions are done *)
Definition done (m : nat) (c c' : list (option T)) : Prop := untouched_outside lc c c' /\
  forall ix, valid (l_shape lc) ix -> (nth a ix 0 < m)%nat -> exists v, elem src la (from ix) = Some v /\ elem c' lc ix = Some (Some v).
Definition select_step k (c : list (option T)) (i : nat) : res (list (option T)) :=
  let* lc_selected := dim_select lc (Z.of_nat a) (Z.of_nat i) in
  let* la_selected := dim_select la (Z.of_nat a) (Z.of_nat (nth i indices 0%nat)) in
  assign k Some c lc_selected src la_selected.
Lemma selects i : (i < length indices)%nat ->
  dim_select lc (Z.of_nat a) (Z.of_nat i) = Ok (selected lc a (Z.of_nat i)) /\ good (selected lc a (Z.of_nat i)) /\
  dim_select la (Z.of_nat a) (Z.of_nat (nth i indices 0%nat)) = Ok (selected la a (Z.of_nat (nth i indices 0%nat))) /\ good (selected la a (Z.of_nat (nth i indices 0%nat))).
Proof. intro H. pose proof (nth_idx i H) as Hn. destruct (select_spec lc (Z.of_nat a) a (Z.of_nat i) i Gc) as [E1 G1]. { split; rewrite ?ndc; auto; lia. } { rewrite Sc, nth_upd_same by (unfold ndim in Ha; lia). split; auto. }
  destruct (select_spec la (Z.of_nat a) a (Z.of_nat (nth i indices 0%nat)) (nth i indices 0%nat) Ga) as [E2 G2]; [split; auto|split; auto|]. auto. Qed.
Lemma sel_inside_c i : inside lc (length c0) -> (i < length indices)%nat -> inside (selected lc a (Z.of_nat i)) (length c0).
Proof. intros Ic H jx V. cbn [selected l_shape] in V. rewrite rest_c in V. rewrite selected_addr; [apply Ic; now apply insert_c|apply Gc|rewrite ndc; auto|rewrite ndc; now apply rest_len]. Qed.
Lemma sel_inside_a n : (n < nth a (l_shape la) 0)%nat -> inside (selected la a (Z.of_nat n)) (length src).
Proof. intros H jx V. cbn [selected l_shape] in V. rewrite selected_addr; [apply Ia; now apply insert_a|apply Ga|auto|now apply rest_len]. Qed.
Lemma sel_inj i : (i < length indices)%nat -> injective (selected lc a (Z.of_nat i)).
Proof. intros H x y Vx Vy. cbn [selected l_shape] in Vx, Vy. rewrite rest_c in *. rewrite !selected_addr; try apply Gc; try (rewrite ndc; auto; now apply rest_len). intro E. apply Jc in E; [|now apply insert_c|now apply insert_c]. apply (f_equal (fun v => remove_at v a)) in E. pose proof (rest_len _ Vx). pose proof (rest_len _ Vy). now rewrite !remove_insert in E by lia. Qed.
Lemma step_done k i c : (i < length indices)%nat -> inside lc (length c) -> done i c0 c -> exists c', select_step k c i = Ok c' /\ done (S i) c0 c' /\ length c' = length c /\
  (forall r, assign_rayon true k Some c (selected lc a (Z.of_nat i)) src (selected la a (Z.of_nat (nth i indices 0%nat))) r -> r = Ok c').
Proof. intros H Ic [[L U] D]. rewrite L in Ic. destruct (selects i H) as (E1 & G1 & E2 & G2). pose proof (nth_idx i H) as Hn. unfold select_step. rewrite E1, E2. cbn [bind].
  destruct (op2_kernel k c (selected lc a (Z.of_nat i)) src (selected la a (Z.of_nat (nth i indices 0%nat))) (fun _ y => Some y) rest) as (c' & E & [[L' U'] Q']); auto. { apply rest_c. } { rewrite L. now apply sel_inside_c. } { now apply sel_inside_a. } { now apply sel_inj. }
  exists c'. change (assign k Some c (selected lc a (Z.of_nat i)) src (selected la a (Z.of_nat (nth i indices 0%nat))) = Ok c') in E. split; auto. split; [split; [split; [congruence|]|]|split; auto].
  - intros p Hp. rewrite U'; [now apply U|]. intros jx V. cbn [selected l_shape] in V. rewrite rest_c in V. rewrite selected_addr; [|apply Gc|rewrite ndc; auto|rewrite ndc; now apply rest_len]. apply Hp. now apply insert_c.
  - intros ix V Hx. destruct (split_c ix V) as (jx & i' & -> & Vj & Hi'). pose proof (rest_len jx Vj) as Lj. rewrite nth_insert in Hx by lia. rewrite Nat.ltb_irrefl, Nat.eqb_refl in Hx. destruct (Nat.eq_dec i' i) as [->|Ne].
    + destruct (Q' jx) as (x & y & _ & Ey & Ec); [cbn [selected l_shape]; now rewrite rest_c|]. exists y. rewrite from_insert by auto. unfold elem in *. rewrite selected_addr in Ey; [|apply Ga|auto|auto]. rewrite selected_addr in Ec; [|apply Gc|rewrite ndc; auto|rewrite ndc; auto]. auto.
    + destruct (D (insert_at jx a i') V) as (v & E3 & E4). { rewrite nth_insert by lia. rewrite Nat.ltb_irrefl, Nat.eqb_refl. lia. } exists v. split; auto. rewrite <- E4. apply U'. intros kx Vk. cbn [selected l_shape] in Vk. rewrite rest_c in Vk. pose proof (rest_len kx Vk) as Lk. rewrite selected_addr; [|apply Gc|rewrite ndc; auto|rewrite ndc; auto].
      intro Ex. apply Jc in Ex; [|now apply insert_c|auto]. apply (f_equal (fun v => nth a v 0%nat)) in Ex. rewrite !nth_insert in Ex by lia. rewrite !Nat.ltb_irrefl, !Nat.eqb_refl in Ex. congruence.
  - intros r Hr. apply l_rayon_assign in Hr; try (now apply good_accepted); auto. + congruence. + cbn [selected l_shape]. now rewrite rest_c. + rewrite L. now apply sel_inside_c. + now apply sel_inside_a. + now apply sel_inj. Qed.
Lemma loop_done k m : inside lc (length c0) -> (m <= length indices)%nat -> forall c, done (length indices - m) c0 c -> exists c', fold_res (select_step k) (seq (length indices - m) m) c = Ok c' /\ done (length indices) c0 c' /\
  forall r, select_loop_rayon k lc src la a indices (seq (length indices - m) m) c r -> r = Ok c'.
Proof. intro Ic. induction m as [|m IH]; intros Hm c D.
  - exists c. rewrite Nat.sub_0_r in D. cbn. auto.
  - cbn [seq fold_res]. set (i := (length indices - S m)%nat) in *. destruct (step_done k i c) as (c1 & E1 & D1 & L1 & R1); [unfold i; lia|destruct D as [[-> _] _]; auto|auto|]. rewrite E1. cbn [bind]. replace (S i) with (length indices - m)%nat in * by (unfold i; lia). destruct (IH ltac:(lia) c1 D1) as (c' & E' & D' & R'). exists c'. split; auto. split; auto.
    intros r H. cbn [select_loop_rayon] in H. destruct (selects i) as (S1 & _ & S2 & _); [unfold i; lia|]. rewrite S1, S2 in H. cbn [bind] in H. destruct H as (rc & Hr & H). apply R1 in Hr. subst rc. auto. Qed.

(** ** the kernel *)
Lemma max_below n : (fold_right Nat.max 0 indices < n)%nat <-> Forall (fun i => (i < n)%nat) indices /\ (0 < n)%nat.
Proof. clear. induction indices as [|i l IH]; cbn [fold_right]; [split; [split; auto|tauto]|]. rewrite Nat.max_lub_lt_iff, IH. split. - intros (H1 & H2 & H3). auto. - intros (H1 & H2). inversion H1; subst. auto. Qed.
Lemma kernel_ok k : inside lc (length c0) -> good (chopped lc a) -> (0 < nth a (l_shape la) 0)%nat ->
  exists c', select_kernel k c0 lc src la a indices = Ok c' /\ written c0 c' /\ forall pool r, select_kernel_rayon pool k c0 lc src la a indices r -> r = Ok c'.
Proof. intros Ic G1 Hp. assert (Ck : select_checks lc la a indices = Ok tt).
  { unfold select_checks. rewrite ndc, Nat.eqb_refl. cbn [check bind]. rewrite (proj2 (check_axis_spec (Z.of_nat a) _ a)) by (split; auto; lia). cbn [bind]. rewrite Sc, nth_upd_same by (unfold ndim in Ha; lia). rewrite Nat.eqb_refl. cbn [check bind]. rewrite (proj2 (Nat.ltb_lt _ _)); auto. apply max_below. auto. }
  assert (M : exists c', select_kernel k c0 lc src la a indices = Ok c' /\ written c0 c' /\ forall r, select_kernel_rayon true k c0 lc src la a indices r -> r = Ok c').
  { unfold select_kernel, select_kernel_rayon. rewrite Ck. cbn [bind negb]. cbv zeta. destruct (Z.eqb_spec (nth a (l_stride lc) 0) 1) as [E1|E1].
    - destruct (contig_branch k Ic E1 G1) as (ls & c' & -> & E & W & R). { eapply (chop_spec la (Z.of_nat a) a); auto; [split; auto|lia]. } exists c'. auto.
    - destruct (loop_done k (length indices) Ic (Nat.le_refl _) c0) as (c' & E & [D1 D2] & R). { rewrite Nat.sub_diag. split; [split; auto|]. intros. lia. } rewrite Nat.sub_diag in *. exists c'. split; [exact E|]. split; auto. split; auto. intros ix V. apply D2; auto. destruct (split_c ix V) as (jx & i & -> & Vj & Hi'). apply rest_len in Vj. rewrite nth_insert by lia. now rewrite Nat.ltb_irrefl, Nat.eqb_refl. }
  destruct M as (c' & E & W & R). exists c'. split; auto. split; auto. intros [|] r H; auto. unfold select_kernel_rayon in H. cbn [negb] in H. congruence. Qed.
End Writes.


