(** broadcast_arrays and meshgrid: proofs and statements (C14, C60). *)
From Coq Require Import String.
From Verif Require Import Base Spec P_Index P_List M_Layout P_Layout P_Bounds P_Contig P_Strides M_Indexer P_Indexer Q_Indexer M_Broadcast P_Broadcast Q_Broadcast M_Reshape P_Reshape Q_Reshape M_Rearr M_Iter P_Iter Q_Iter P_Rearr P_BinOp Q_Rearr M_Kernel P_Kernel Q_Kernel M_Tensor P_Tensor P_Reshape2 Q_Tensor Q_Copy P_Axes M_Manip Spec_Views P_Manip P_Views P_Views2 Q_Manip Q_Concat Spec_Mesh M_Mesh.
Local Open Scope Z_scope.

Lemma into_broadcast_offset l s o r : into_broadcast l s o = Ok r -> l_offset r = l_offset l.
Proof. intro H. unfold into_broadcast in H. apply bind_ok in H as ([[s' t1] t2] & _ & H). apply bind_ok in H as (u & _ & H). unfold update_layout_by_shape in H. destruct o.
  - unfold update_layout_row in H. destruct (_ <? _)%nat; [discriminate|]. injection H as <-. reflexivity.
  - apply bind_ok in H as (x & E & H). injection H as <-. unfold update_layout_row in E. destruct (_ <? _)%nat; [discriminate|]. injection E as <-. reflexivity. Qed.
Lemma tensor_broadcast_ok {T} o s (t : tensor T) : tensor_ok t -> broadcasts o (t_shape t) s s ->
  exists r, tensor_broadcast o s t = Ok r /\ shown_as o s t r /\ t_data r = t_data t /\ l_offset (t_layout r) = l_offset (t_layout t).
Proof. intros Ht B. apply tensor_ok_good in Ht as [G I]. pose proof (l_into_broadcast o (t_layout t) s (good_wf _ G)) as H. unfold tensor_broadcast. destruct (into_broadcast (t_layout t) s o) as [r|e|] eqn:E; [|contradiction|contradiction].
  destruct H as (_ & S & W & H). cbn [bind]. eexists. split; [reflexivity|]. split; [|split; [auto|now apply (into_broadcast_offset _ s o)]]. split; [|split; [exact S|]].
  - apply tensor_ok_good. cbn [t_layout t_data]. split; [now apply (into_broadcast_good (t_layout t) s o)|]. apply (inside_of_source _ (t_layout t) r (source_index o (t_shape t))); auto. intros ix V. rewrite S in V. now apply H.
  - intros jx V. destruct (H jx V) as [V1 Ad]. split; auto. unfold at_, elem. cbn [t_layout t_data]. now rewrite Ad. Qed.
Lemma common_broadcasts o ss s s' : common_shape o ss s -> In s' ss -> broadcasts o s' s s.
Proof. intros [L H] I. split.
  - assert (length s' <= length s)%nat; [|lia]. rewrite L. clear - I. induction ss as [|x ss IH]; [destruct I|]. cbn [map fold_right]. destruct I as [->|I]; [lia|]. specialize (IH I). lia.
  - intros k. cbv zeta. destruct (H k) as [H1 _]. destruct (H1 s' I) as [E|E]; auto. Qed.
Lemma source_index_self o s ix : valid s ix -> source_index o s ix = ix.
Proof. intro V. unfold source_index. assert (L : length ix = length s) by (eapply Forall2_length; eauto). assert (C : clip s ix = ix). { clear o L. induction V as [|i n ix s Hi V IH]; [reflexivity|]. unfold clip in *. cbn [combine map fst snd]. rewrite IH. destruct (Nat.eqb_spec n 1); f_equal; lia. }
  destruct o; [rewrite L, Nat.sub_diag; exact C|rewrite <- L, firstn_all; exact C]. Qed.
Lemma common_one o s : common_shape o [s] s.
Proof. split; [cbn; lia|]. intro k. split; [intros s' [<-|[]]; auto|]. right. exists s. split; auto. now left. Qed.
Lemma common_fold o ss s : ss <> [] -> broadcast_shapes ss o = Ok s <-> common_shape o ss s.
Proof. apply l_broadcast_many. Qed.

Lemma l_broadcast_arrays : forall (T : Type) o (ts : list (tensor T)), Forall tensor_ok ts ->
  match broadcast_arrays o ts with
  | Ok rs => ts = [] /\ rs = [] \/ exists s, common_shape o (map t_shape ts) s /\ Forall2 (shown_as o s) ts rs
  | Err _ => ~ exists s, common_shape o (map t_shape ts) s
  | Panic => False
  end.
Proof. intros T o ts F. unfold broadcast_arrays. destruct (Nat.leb_spec (length ts) 1) as [L|L].
  - destruct ts as [|t [|u ts]]; [now left| |cbn in L; lia]. right. exists (t_shape t). split; [apply common_one|]. constructor; [|constructor]. inversion F; subst. split; auto. split; auto. intros jx V. now rewrite source_index_self.
  - assert (Ne : map t_shape ts <> []) by (destruct ts; cbn in *; [lia|discriminate]). destruct (broadcast_shapes_cases o (map t_shape ts)) as [(s & E)|E]; rewrite E; cbn [bind].
    + apply common_fold in E; auto. destruct (map_res_rel (tensor_broadcast o s) (shown_as o s) ts) as (rs & -> & H); [|right; eauto].
      apply Forall_forall. intros t It. rewrite Forall_forall in F. destruct (tensor_broadcast_ok o s t (F t It)) as (r & Er & H & _); [|eauto]. apply (common_broadcasts o (map t_shape ts)); auto. now apply in_map.
    + intros (s & C). apply common_fold in C; auto. congruence. Qed.

(** ** one operand *)
Lemma row_unit n : row_major (repeat 1%nat n) = [repeat 0%nat n].
Proof. induction n as [|n IH]; [reflexivity|]. cbn [repeat row_major seq flat_map]. rewrite IH. reflexivity. Qed.
Lemma col_unit n : col_major (repeat 1%nat n) = [repeat 0%nat n].
Proof. induction n as [|n IH]; [reflexivity|]. cbn [repeat col_major]. rewrite IH. reflexivity. Qed.
Lemma flat_map_single {A B} (f : A -> B) l : flat_map (fun x => [f x]) l = map f l.
Proof. induction l; cbn; congruence. Qed.
Lemma enum_line o m : forall n a, (a < n)%nat -> enum o (upd (repeat 1%nat n) a m) = map (fun i => upd (repeat 0%nat n) a i) (seq 0 m).
Proof. destruct o; cbn [enum].
  - induction n as [|n IH]; intros a Ha; [lia|]. destruct a as [|a]; cbn [repeat upd row_major].
    + rewrite row_unit. cbn [map]. apply flat_map_single.
    + cbn [seq flat_map]. rewrite app_nil_r, IH, map_map by lia. reflexivity.
  - induction n as [|n IH]; intros a Ha; [lia|]. destruct a as [|a]; cbn [repeat upd col_major].
    + rewrite col_unit. cbn [flat_map]. now rewrite app_nil_r.
    + rewrite IH by lia. cbn [seq map]. rewrite flat_map_single, map_map. reflexivity. Qed.
Lemma enum_vec o m : enum o [m] = map (fun i => [i]) (seq 0 m).
Proof. apply (enum_line o m 1 0). lia. Qed.
Lemma line_rank o m n a i : (a < n)%nat -> (i < m)%nat -> same_rank o (upd (repeat 1%nat n) a m) [m] (upd (repeat 0%nat n) a i) [i].
Proof. intros Ha Hi. exists i. rewrite enum_line, enum_vec by auto. assert (E : nth_error (seq 0 m) i = Some i) by (rewrite nth_error_nth' with (d := 0%nat) by (rewrite seq_length; lia); rewrite seq_nth by lia; reflexivity).
  split; [apply (map_nth_error (fun i => upd (repeat 0%nat n) a i)); exact E|apply (map_nth_error (fun i => [i])); exact E]. Qed.
Lemma line_size n a m : (a < n)%nat -> size (upd (repeat 1%nat n) a m) = m.
Proof. intro H. rewrite <- (enum_length RowMajor), enum_line, map_length, seq_length by auto. reflexivity. Qed.
Lemma nth_line n a m k : (k < n)%nat -> nth k (upd (repeat 1%nat n) a m) 0%nat = if (a =? k)%nat then m else 1%nat.
Proof. intro Hk. rewrite nth_upd, repeat_length. destruct (Nat.eqb_spec a k) as [->|Ne]; [now replace (k <? n)%nat with true by lia|]. rewrite nth_indep with (d' := 1%nat) by (rewrite repeat_length; lia). apply nth_repeat. Qed.
Lemma line_valid n a m jx : (a < n)%nat -> valid (upd (repeat 1%nat n) a m) jx -> (nth a jx 0 < m)%nat /\ jx = upd (repeat 0%nat n) a (nth a jx 0%nat).
Proof. intros Ha V. apply valid_nth in V as [L V]. rewrite upd_length, repeat_length in *. split; [specialize (V a Ha); now rewrite nth_line, Nat.eqb_refl in V|].
  apply nth_ext with (d := 0%nat) (d' := 0%nat); [rewrite upd_length, repeat_length; auto|]. intros k Hk. rewrite L in Hk. rewrite nth_upd, repeat_length. destruct (Nat.eqb_spec a k) as [<-|Ne]; [now replace (a <? n)%nat with true by lia|].
  rewrite nth_repeat. specialize (V k Hk). rewrite nth_line in V by lia. destruct (Nat.eqb_spec a k); [congruence|]. cbn [andb]. lia. Qed.
Lemma line_fills n a s m : (a < n)%nat -> fills (upd (repeat 1 n) a (-1)) s -> size s = m -> s = upd (repeat 1%nat n) a m.
Proof. revert a s. induction n as [|n IH]; intros a s Ha F E; [lia|]. destruct a as [|a]; cbn [repeat upd] in *.
  - inversion F as [|? d ? s' _ F']; subst. assert (X : s' = repeat 1%nat n). { clear - F'. revert s' F'. induction n as [|n IH]; cbn [repeat]; intros s' F; inversion F as [|? d ? s0 H F']; subst; auto. rewrite (IH _ F'). f_equal. lia. }
    subst s'. f_equal. rewrite size_cons. clear. replace (size (repeat 1%nat n)) with 1%nat; [lia|]. induction n; cbn [repeat]; [reflexivity|]. rewrite size_cons. lia.
  - inversion F as [|? d ? s' H F']; subst. assert (d = 1%nat) by lia. subst d. f_equal. apply IH; auto; [lia|]. rewrite size_cons. lia. Qed.
Lemma owned_offset {T} k o (t c : tensor T) : tensor_ok t -> 0 <= l_offset (t_layout t) -> into_owned k o t = Ok c -> 0 <= l_offset (t_layout c) <= Z.of_nat (length (t_data c)).
Proof. intros Ht O E. pose proof Ht as Ht'. apply tensor_ok_good in Ht' as [G I]. destruct (l_into_owned T k o t Ht) as (c' & E' & Kc & Sc & _ & Lc). rewrite E in E'. injection E' as <-.
  unfold into_owned in E. destruct (bounds_index (t_layout t)) as [[lo hi]|e|] eqn:Eb; cbn [unwrap bind fst snd] in E; try discriminate. pose proof Eb as Eb'. apply bounds_index_sound in Eb as (_ & _ & B & _); [|now apply good_wf].
  destruct (_ && _) eqn:C.
  - injection E as <-. destruct (Nat.eq_dec (size (t_shape t)) 0) as [Z0|Z0].
    + rewrite bounds_index_eq in Eb' by apply G. change (l_shape (t_layout t)) with (t_shape t) in Eb'. rewrite Z0 in Eb'. cbn in Eb'. rewrite as_usize_nonneg in Eb' by auto. injection Eb' as <- <-. lia.
    + assert (V : valid (t_shape t) (repeat 0%nat (length (t_shape t)))) by now apply valid_zeros. apply I in V. unfold addr in V. rewrite dot_zeros in V. lia.
  - destruct (asarray_ok k o t OK Ht) as (c'' & E'' & _ & El & _); auto. rewrite E'' in E. cbn [unwrap] in E. injection E as ->. destruct (copy_layout_good k o (t_layout t) OK G) as (l' & El' & _ & O' & _); auto. rewrite El in El'. injection El' as <-. rewrite O'. lia. Qed.

Lemma reshape_empty_offset o l s l' : layout_reshapeable l s o = Ok (Some l') -> size (l_shape l) = 0%nat -> l_offset l' = l_offset l.
Proof. intros E Z0. unfold layout_reshapeable, quick_check in E. destruct (check _ _); cbn [bind] in E; try discriminate. rewrite Z0 in E. cbn [Nat.eqb orb] in E. destruct (layout_new _ _ _) as [x|e|] eqn:Ex; cbn [bind] in E; try discriminate. injection E as <-.
  unfold layout_new in Ex. repeat (apply bind_ok in Ex as (? & _ & Ex)). injection Ex as <-. reflexivity. Qed.
Lemma shape_view_offset {T} k (t : tensor T) req o copy v : copy <> Some true -> change_shape k t req o copy = Ok v -> size (t_shape t) = 0%nat -> l_offset (t_layout v) = l_offset (t_layout t).
Proof. intros N E Z0. unfold change_shape in E. apply bind_ok in E as (s & _ & E). assert (X : match copy with Some true => false | _ => true end = true) by (destruct copy as [[|]|]; congruence). cbv zeta in E. rewrite X in E.
  destruct (layout_reshapeable (t_layout t) s o) as [[l|]|e|] eqn:El; cbn [bind] in E; try discriminate; [|now destruct (reshape_none_nonempty _ _ _ El)]. injection E as <-. cbn [t_layout]. eapply reshape_empty_offset; eauto. Qed.

(** the i-th operand after into_shape: its only long axis is [a] *)
Definition lined {T} (n a : nat) (t c : tensor T) : Prop :=
  tensor_ok c /\ 0 <= l_offset (t_layout c) <= Z.of_nat (length (t_data c)) /\ length (t_data c) = size (t_shape t) /\ t_shape c = upd (repeat 1%nat n) a (hd 0%nat (t_shape t)) /\
  forall jx, valid (t_shape c) jx -> at_ c jx = at_ t [nth a jx 0%nat].
Lemma into_shape_ok {T} o (t : tensor T) n a : tensor_ok t -> 0 <= l_offset (t_layout t) -> length (t_shape t) = 1%nat -> (a < n)%nat ->
  exists c, into_shape o t (upd (repeat 1 n) a (-1)) = Ok c /\ lined n a t c.
Proof. intros Ht O L Ha. destruct (t_shape t) as [|m [|? ?]] eqn:Es; try discriminate. clear L. set (req := upd (repeat 1 n) a (-1)).
  assert (Sm : size (t_shape t) = m) by (rewrite Es, size_cons; cbn; lia).
  assert (F0 : fills req (upd (repeat 1%nat n) a m)). { unfold req. clear - Ha. revert a Ha. induction n as [|n IH]; intros a Ha; [lia|]. destruct a as [|a]; cbn [repeat upd]; constructor; auto; [|apply IH; lia]. clear. induction n; cbn [repeat]; constructor; auto. }
  assert (V0 : forall v, In v req -> v = 1 \/ v = -1). { intros v Iv. apply In_nth_error in Iv as (k & Ek). apply nth_error_nth with (d := 1) in Ek. unfold req in Ek. rewrite nth_upd, nth_repeat in Ek. destruct (_ && _); auto. }
  assert (C0 : (count_occ Z.eq_dec req (-1)%Z <= 1)%nat). { unfold req. clear. revert a. induction n as [|n IH]; intro a; [cbn; lia|]. destruct a as [|a]; cbn [repeat upd].
    - rewrite count_occ_cons_eq by auto. replace (count_occ Z.eq_dec (repeat 1 n) (-1)) with 0%nat; [lia|]. clear. induction n; cbn [repeat]; auto.
    - rewrite count_occ_cons_neq by lia. apply IH. }
  pose proof (l_change_shape T Dyn t req o None Ht) as H. unfold into_shape. destruct (change_shape Dyn t req o None) as [v|e|] eqn:Ev; cbn [bind].
  - destruct H as (F & S & H); [intros [_ Z0]; destruct (V0 0 Z0); lia|discriminate|]. specialize (S ltac:(discriminate)). destruct (H S) as [Kv Q].
    assert (Ov : 0 <= l_offset (t_layout v)). { destruct (Nat.eq_dec (size (t_shape v)) 0) as [Z0|Z0]; [|apply tensor_ok_good in Kv as [G _]; now apply G]. rewrite Z0 in S. rewrite (shape_view_offset Dyn t req o None v); auto; discriminate. }
    destruct (l_into_owned T Dyn o v Kv) as (c & Ec & Kc & Sc & Qc & Lc). exists c. split; auto. split; auto. split; [now apply (owned_offset Dyn o v)|]. split; [congruence|].
    assert (Sv : t_shape v = upd (repeat 1%nat n) a m) by (apply line_fills; auto; congruence). split; [rewrite Es; cbn [hd]; congruence|].
    intros jx V. rewrite Sc in V. rewrite Qc by auto. rewrite Sv in V. apply line_valid in V as [Hm E]; auto. apply Q. rewrite E at 1. rewrite Sv, Es. now apply line_rank.
  - exfalso. destruct H as [H|[(v & Iv & Hv)|[H|H]]]; try discriminate; [intros [_ Z0]; destruct (V0 0 Z0); lia|destruct (V0 v Iv); lia|lia|]. apply (H _ F0). rewrite line_size by auto. auto.
  - exfalso. destruct H as [H _]; try discriminate. intros [_ Z0]; destruct (V0 0 Z0); lia. Qed.

(** ** all operands *)
Lemma ext_nth o s k : ext o s k = if (k <? length s)%nat then nth (match o with RowMajor => length s - 1 - k | ColMajor => k end)%nat s 0%nat else 1%nat.
Proof. unfold ext. destruct (Nat.ltb_spec k (length s)) as [H|H].
  - destruct o; [rewrite rev_nth by auto; replace (length s - S k)%nat with (length s - 1 - k)%nat by lia|]; apply nth_indep; lia.
  - apply nth_overflow. destruct o; rewrite ?rev_length; lia. Qed.
Lemma mesh_axis_invol xy n i : mesh_axis xy n (mesh_axis xy n i) = i.
Proof. unfold mesh_axis. destruct (xy && (2 <=? n))%nat; auto. now destruct i as [|[|i]]. Qed.
Lemma mesh_axis_lt xy n i : (i < n)%nat -> (mesh_axis xy n i < n)%nat.
Proof. unfold mesh_axis. destruct (xy && (2 <=? n))%nat eqn:E; auto. destruct i as [|[|i]]; lia. Qed.
Lemma mesh_request_eq indexing n i : (2 <= n)%nat -> mesh_request indexing n i = upd (repeat 1 n) (mesh_axis (indexing =? "xy")%string n i) (-1).
Proof. intro H. unfold mesh_request, mesh_axis. destruct (indexing =? "xy")%string; cbn [andb]; auto. replace (2 <=? n)%nat with true by lia. now destruct i as [|[|i]]. Qed.
(** the shape of the grids *)
Definition grid_shape (xy : bool) (ms : list nat) : list nat := map (fun j => nth (mesh_axis xy (length ms) j) ms 0%nat) (seq 0 (length ms)).
Lemma nth_grid xy ms j : (j < length ms)%nat -> nth j (grid_shape xy ms) 0%nat = nth (mesh_axis xy (length ms) j) ms 0%nat.
Proof. intro H. unfold grid_shape. rewrite nth_indep with (d' := nth (mesh_axis xy (length ms) 0) ms 0%nat) by (rewrite map_length, seq_length; lia). rewrite (map_nth (fun j => nth (mesh_axis xy (length ms) j) ms 0%nat)), seq_nth by lia. reflexivity. Qed.
Lemma grid_length xy ms : length (grid_shape xy ms) = length ms.
Proof. unfold grid_shape. now rewrite map_length, seq_length. Qed.
Lemma grid_common o xy ms ss : ms <> [] -> ss = map (fun p => upd (repeat 1%nat (length ms)) (mesh_axis xy (length ms) (fst p)) (snd p)) (combine (seq 0 (length ms)) ms) -> common_shape o ss (grid_shape xy ms).
Proof. intros Ne Ess. set (n := length ms) in *. assert (Hn : (0 < n)%nat) by (unfold n; destruct ms; cbn; [congruence|lia]).
  assert (Hs : forall s, In s ss <-> exists i, (i < n)%nat /\ s = upd (repeat 1%nat n) (mesh_axis xy n i) (nth i ms 0%nat)).
  { intro s. rewrite Ess, in_map_iff. split.
    - intros ([i m] & <- & I). cbn [fst snd]. apply In_nth_error in I as (k & Ek). rewrite nth_error_combine in Ek. destruct (nth_error (seq 0 n) k) as [i'|] eqn:E1; [|discriminate]. destruct (nth_error ms k) as [m'|] eqn:E2; [|discriminate]. injection Ek as <- <-.
      assert (Hk : (k < n)%nat) by (apply nth_error_Some; congruence). rewrite nth_error_nth' with (d := 0%nat), seq_nth in E1 by (rewrite ?seq_length; lia). injection E1 as <-. exists k. split; auto. f_equal. symmetry. now apply nth_error_nth.
    - intros (i & Hi & ->). exists (i, nth i ms 0%nat). split; auto. apply nth_error_In with (n := i). rewrite nth_error_combine. rewrite nth_error_nth' with (d := 0%nat), seq_nth by (rewrite ?seq_length; lia). rewrite nth_error_nth' with (d := 0%nat) by (fold n; lia). reflexivity. }
  split.
  - rewrite grid_length. fold n. assert (L : forall s, In s ss -> length s = n) by (intros s I; apply Hs in I as (i & _ & ->); now rewrite upd_length, repeat_length). assert (Nn : ss <> []). { intros ->. destruct (proj2 (Hs _) (ex_intro _ 0%nat (conj Hn eq_refl))). }
    clear - L Nn. destruct ss as [|s ss]; [congruence|]. clear Nn. revert s L. induction ss as [|s' ss IH]; intros s L; cbn [map fold_right]; [rewrite (L s) by (now left); lia|]. specialize (IH s'). cbn [map fold_right] in IH. rewrite <- IH by (intros; apply L; now right). rewrite (L s) by (now left). lia.
  - intro k. rewrite ext_nth, grid_length. fold n. destruct (Nat.ltb_spec k n) as [Hk|Hk].
    + set (j := match o with RowMajor => (n - 1 - k)%nat | ColMajor => k end). assert (Hj : (j < n)%nat) by (unfold j; destruct o; lia). rewrite nth_grid by auto. fold n.
      assert (X : forall i, (i < n)%nat -> ext o (upd (repeat 1%nat n) (mesh_axis xy n i) (nth i ms 0%nat)) k = if (mesh_axis xy n i =? j)%nat then nth i ms 0%nat else 1%nat).
      { intros i Hi. rewrite ext_nth, upd_length, repeat_length. replace (k <? n)%nat with true by lia. fold j. now apply nth_line. }
      split.
      * intros s I. apply Hs in I as (i & Hi & ->). rewrite X by auto. destruct (Nat.eqb_spec (mesh_axis xy n i) j) as [<-|_]; auto. right. now rewrite mesh_axis_invol.
      * right. eexists. split; [apply Hs; exists (mesh_axis xy n j); split; [now apply mesh_axis_lt|reflexivity]|]. rewrite X by now apply mesh_axis_lt. now rewrite mesh_axis_invol, Nat.eqb_refl.
    + split; auto. intros s I. left. apply Hs in I as (i & Hi & ->). rewrite ext_nth, upd_length, repeat_length. now replace (k <? n)%nat with false by lia. Qed.
Lemma grid_clip o n a m s jx : (a < n)%nat -> length s = n -> nth a s 0%nat = m -> valid s jx -> nth a (source_index o (upd (repeat 1%nat n) a m) jx) 0%nat = nth a jx 0%nat.
Proof. intros Ha L E V. unfold source_index. apply valid_nth in V as [Lj V]. rewrite L in V. rewrite upd_length, repeat_length.
  assert (X : match o with RowMajor => skipn (length jx - n) jx | ColMajor => firstn n jx end = jx) by (destruct o; [rewrite Lj, L, Nat.sub_diag; reflexivity|rewrite <- L, <- Lj; apply firstn_all]). rewrite X.
  unfold clip. specialize (V a Ha). assert (Y : nth_error (combine (upd (repeat 1%nat n) a m) jx) a = Some (m, nth a jx 0%nat)). { rewrite nth_error_combine. rewrite !nth_error_nth' with (d := 0%nat) by (rewrite ?upd_length, ?repeat_length; lia). rewrite nth_line, Nat.eqb_refl by auto. reflexivity. }
  apply (map_nth_error (fun p : nat * nat => if (fst p =? 1)%nat then 0%nat else snd p)) in Y. rewrite (nth_error_nth _ _ 0%nat Y). cbn [fst snd]. destruct (Nat.eqb_spec m 1); lia. Qed.
Lemma size_ge a s : (a < length s)%nat -> size s <> 0%nat -> (nth a s 0 <= size s)%nat.
Proof. revert a; induction s as [|d s IH]; intros a Ha Hs; [cbn in Ha; lia|]. rewrite size_cons in *. assert (d <> 0 /\ size s <> 0)%nat by (split; intro X; rewrite X in Hs; lia). destruct a as [|a]; cbn [nth length] in *; [nia|]. specialize (IH a ltac:(lia) ltac:(tauto)). nia. Qed.

Lemma into_contig_ok {T} o (b : tensor T) m : tensor_ok b -> 0 <= l_offset (t_layout b) <= Z.of_nat (length (t_data b)) -> length (t_data b) = m -> (size (t_shape b) <> 0 -> m <= size (t_shape b))%nat ->
  exists r, into_contig o b o = Ok r /\ tensor_ok r /\ t_shape r = t_shape b /\ (forall jx, valid (t_shape b) jx -> at_ r jx = at_ b jx) /\ length (t_data r) = size (t_shape r) /\ addrs o (t_layout r) = consecutive 0 (size (t_shape r)).
Proof. intros Hb Ob Lb Hm. destruct (l_change_contig T Dyn o b o Hb) as (c & E & Kc & Sc & Ac & Dc & Qc); auto. unfold into_contig. rewrite E. cbn [bind].
  destruct (l_into_owned T Dyn o c Kc) as (r & Er & Kr & Sr & Qr & Lr). exists r. split; auto. split; auto. split; [congruence|]. split; [intros jx V; rewrite Qr by congruence; auto|]. split; [congruence|].
  destruct (Nat.eq_dec (size (t_shape b)) 0) as [Z0|Z0].
  - assert (Z1 : size (t_shape r) = 0%nat) by congruence. rewrite Z1. unfold addrs. change (l_shape (t_layout r)) with (t_shape r). pose proof (enum_length o (t_shape r)) as L. rewrite Z1 in L. destruct (enum o (t_shape r)); [reflexivity|discriminate].
  - assert (Cv : covers (t_layout c) (size (t_shape b))). { apply perm_covers. rewrite <- Ac. unfold addrs. apply Permutation_map. destruct o; [reflexivity|apply enum_perm]. }
    pose proof Kc as Kc'. apply tensor_ok_good in Kc' as [Gc Ic]. assert (Oc : l_offset (t_layout c) = 0) by (unfold change_contig in E; apply change_layout_layout in E; rewrite E; now destruct o).
    assert (Ln : length (t_data c) = size (t_shape b)). { destruct Dc as [Dc|Dc]; auto. rewrite Dc, Lb. apply Nat.le_antisymm; auto. rewrite <- Lb, <- Dc. destruct (proj1 (Cv (Z.of_nat (size (t_shape b)) - 1))) as (ix & V & Ev); [lia|]. apply Ic in V. lia. }
    destruct (bounds_covers (t_layout c) (size (t_shape b)) (good_wf _ Gc) Oc Cv) as (lo & Eb). unfold into_owned in Er. rewrite Eb in Er. cbn [unwrap bind fst snd] in Er.
    assert (Lo : lo = 0). { apply bounds_index_sound in Eb as (P & B & _); [|now apply good_wf]. change (l_shape (t_layout c)) with (t_shape c) in P. rewrite Sc in P. specialize (P Z0). destruct (proj1 (Cv 0)) as (ix & V & Ea); [lia|]. apply B in V. lia. }
    rewrite Lo, Ln in Er. unfold l_size in Er. change (l_shape (t_layout c)) with (t_shape c) in Er. rewrite Sc, !Z.eqb_refl in Er. cbn [andb] in Er. injection Er as <-. now rewrite Sc. Qed.

Lemma nth_error_F2 {A B} (R : A -> B -> Prop) l r : Forall2 R l r -> forall i x, nth_error l i = Some x -> exists y, nth_error r i = Some y /\ R x y.
Proof. induction 1 as [|a b l r H F IH]; intros [|i] x E; cbn in *; try discriminate; [injection E as <-; eauto|eauto]. Qed.
Lemma mesh_grids {T} o (ts : list (tensor T)) indexing : (2 <= length ts)%nat -> Forall (fun t => tensor_ok t /\ 0 <= l_offset (t_layout t)) ts -> Forall (fun t => length (t_shape t) = 1%nat) ts ->
  let n := length ts in let xy := (indexing =? "xy")%string in let g := grid_shape xy (map (fun t => hd 0%nat (t_shape t)) ts) in
  exists us bs, map_res (fun p => into_shape o (snd p) (mesh_request indexing n (fst p))) (combine (seq 0 n) ts) = Ok us /\ broadcast_arrays o us = Ok bs /\ length bs = n /\
    forall i t, nth_error ts i = Some t -> exists b, nth_error bs i = Some b /\ tensor_ok b /\ t_shape b = g /\ 0 <= l_offset (t_layout b) <= Z.of_nat (length (t_data b)) /\ length (t_data b) = size (t_shape t) /\
      forall jx, valid g jx -> at_ b jx = at_ t [nth (mesh_axis xy n i) jx 0%nat].
Proof. intros Hn Ok1 D1 n xy g.
  assert (Pr : forall i t, In (i, t) (combine (seq 0 n) ts) <-> nth_error ts i = Some t). { intros i t. split.
    - intro I. apply In_nth_error in I as (k & Ek). rewrite nth_error_combine in Ek. destruct (nth_error (seq 0 n) k) as [i'|] eqn:E1; [|discriminate]. destruct (nth_error ts k) as [m'|] eqn:E2; [|discriminate]. injection Ek as <- <-.
      assert (Hk : (k < n)%nat) by (apply nth_error_Some; congruence). rewrite nth_error_nth' with (d := 0%nat), seq_nth in E1 by (rewrite ?seq_length; lia). injection E1 as <-. exact E2.
    - intro E. assert (Hk : (i < n)%nat) by (apply nth_error_Some; congruence). apply nth_error_In with (n := i). rewrite nth_error_combine, E. rewrite nth_error_nth' with (d := 0%nat), seq_nth by (rewrite ?seq_length; lia). reflexivity. }
  destruct (map_res_rel (fun p => into_shape o (snd p) (mesh_request indexing n (fst p))) (fun p c => lined n (mesh_axis xy n (fst p)) (snd p) c) (combine (seq 0 n) ts)) as (us & Eu & Fu).
  { apply Forall_forall. intros [i t] I. cbn [fst snd]. apply Pr in I. assert (Hi : (i < n)%nat) by (apply nth_error_Some; congruence). apply nth_error_In in I. rewrite Forall_forall in Ok1, D1. destruct (Ok1 t I) as [Kt Ot]. rewrite mesh_request_eq by auto. apply into_shape_ok; auto. now apply mesh_axis_lt. }
  assert (Lu : length us = n) by (apply Forall2_length in Fu; rewrite combine_length, seq_length in Fu; unfold n in *; lia).
  exists us. unfold broadcast_arrays. replace (length us <=? 1)%nat with false by lia.
  assert (Gc : common_shape o (map t_shape us) g). { apply (grid_common o xy (map (fun t => hd 0%nat (t_shape t)) ts)); [destruct ts; [cbn in Hn; lia|discriminate]|]. rewrite map_length. fold n.
    clear - Fu. clearbody n. revert us Fu. generalize (seq 0 n) as q. induction ts as [|t ts IH]; intros [|i q] us F; cbn [combine map] in *; inversion F as [|? c ? us' H F']; subst; auto. cbn [map]. f_equal; [apply H|]. now apply IH. }
  assert (Es : broadcast_shapes (map t_shape us) o = Ok g) by (apply common_fold; auto; destruct us; [cbn in Lu; lia|discriminate]). rewrite Es. cbn [bind].
  destruct (map_res_rel (tensor_broadcast o g) (fun c b => shown_as o g c b /\ t_data b = t_data c /\ l_offset (t_layout b) = l_offset (t_layout c)) us) as (bs & Eb & Fb).
  { apply Forall_forall. intros c I. destruct (tensor_broadcast_ok o g c) as (b & E & H); [|apply (common_broadcasts o (map t_shape us)); auto; now apply in_map|eauto].
    clear - Fu I. revert I. induction Fu as [|p c' ps us H F IH]; intros I; [destruct I|]. destruct I as [<-|I]; auto. apply H. }
  exists bs. split; auto. split; auto. split; [apply Forall2_length in Fb; congruence|]. intros i t E. assert (Hi : (i < n)%nat) by (apply nth_error_Some; congruence).
  destruct (nth_error_F2 _ _ _ Fu i (i, t)) as (c & Ec & Hc). { rewrite nth_error_combine, E. rewrite nth_error_nth' with (d := 0%nat), seq_nth by (rewrite ?seq_length; lia). reflexivity. }
  cbn [fst snd] in Hc. destruct Hc as (Kc & Oc & Lc & Sc & Qc). destruct (nth_error_F2 _ _ _ Fb i c Ec) as (b & Eb' & (Kb & Sb & Qb) & Db & Ob). exists b. split; auto. split; auto. split; auto. rewrite Ob, Db. split; auto. split; auto.
  intros jx V. destruct (Qb jx V) as [V1 ->]. rewrite Qc by auto. rewrite Sc. set (a := mesh_axis xy n i) in *. assert (Ha : (a < n)%nat) by now apply mesh_axis_lt.
  rewrite (grid_clip o n a (hd 0%nat (t_shape t)) g); auto; [unfold g; now rewrite grid_length, map_length|]. unfold g. rewrite nth_grid by now rewrite map_length. rewrite map_length. fold n. unfold a. rewrite mesh_axis_invol.
  apply (map_nth_error (fun t => hd 0%nat (t_shape t))) in E. now apply nth_error_nth. Qed.
Lemma grids_mesh {T} xy (ts rs : list (tensor T)) : Forall (fun t => length (t_shape t) = 1%nat) ts -> length rs = length ts ->
  (forall i t, nth_error ts i = Some t -> exists r, nth_error rs i = Some r /\ tensor_ok r /\ t_shape r = grid_shape xy (map (fun t => hd 0%nat (t_shape t)) ts) /\
     forall jx, valid (t_shape r) jx -> at_ r jx = at_ t [nth (mesh_axis xy (length ts) i) jx 0%nat]) -> is_mesh xy ts rs.
Proof. intros D L H. split; auto. intros i t E. destruct (H i t E) as (r & Er & Kr & Sr & Qr). exists r. split; auto. split; auto. rewrite Sr. split; [now rewrite grid_length, map_length|]. split; [|now rewrite <- Sr].
  intros j u Eu. assert (Hj : (j < length ts)%nat) by (apply nth_error_Some; congruence). rewrite nth_grid by (rewrite map_length; now apply mesh_axis_lt). rewrite map_length, mesh_axis_invol.
  pose proof Eu as Eu'. apply (map_nth_error (fun t => hd 0%nat (t_shape t))) in Eu'. rewrite (nth_error_nth _ _ 0%nat Eu'). apply nth_error_In in Eu. rewrite Forall_forall in D. specialize (D u Eu). destruct (t_shape u) as [|m [|? ?]]; try discriminate. reflexivity. Qed.

Lemma l_meshgrid : forall (T : Type) o (ts : list (tensor T)) indexing copy, Forall (fun t => tensor_ok t /\ 0 <= l_offset (t_layout t)) ts ->
  match meshgrid o ts indexing copy with
  | Ok rs => (indexing = "ij" \/ indexing = "xy")%string /\ Forall (fun t => length (t_shape t) = 1%nat) ts /\ is_mesh (if string_dec indexing "xy" then true else false) ts rs /\
      (copy = true -> Forall (fun r => length (t_data r) = size (t_shape r) /\ ((2 <= length ts)%nat -> addrs o (t_layout r) = consecutive 0 (size (t_shape r)))) rs)
  | Err _ => (indexing <> "ij" /\ indexing <> "xy")%string \/ Exists (fun t => length (t_shape t) <> 1%nat) ts
  | Panic => False
  end.
Proof. intros T o ts indexing copy F. unfold meshgrid.
  replace (if string_dec indexing "xy" then true else false) with (indexing =? "xy")%string by (destruct (string_dec indexing "xy") as [->|N]; [reflexivity|now apply String.eqb_neq]).
  destruct ((indexing =? "ij") || (indexing =? "xy"))%string eqn:Ei; cbn [check bind]; [|left; apply orb_false_elim in Ei as [E1 E2]; apply String.eqb_neq in E1, E2; auto].
  assert (Hi : (indexing = "ij" \/ indexing = "xy")%string) by (apply orb_true_iff in Ei as [E|E]; apply String.eqb_eq in E; auto).
  destruct ts as [|t0 [|t1 ts']].
  - split; auto. split; [constructor|]. split; [|constructor]. split; auto. intros i t E. destruct i; discriminate.
  - inversion F as [|? ? [K0 O0] _]; subst. destruct (Nat.eqb_spec (ndim (t_layout t0)) 1) as [D|D]; cbn [check bind]; [|right; left; exact D]. destruct (l_into_owned T Dyn o t0 K0) as (r & -> & Kr & Sr & Qr & Lr). cbn [bind].
    split; auto. split; [constructor; auto|]. split; [|intros _; constructor; [|constructor]; split; [congruence|cbn; lia]]. apply grids_mesh; auto. intros [|[|i]] t E; try discriminate. injection E as <-. exists r. split; auto. split; auto. change (ndim (t_layout t0)) with (length (t_shape t0)) in D. destruct (t_shape t0) as [|m [|? ?]] eqn:Es; try discriminate.
    split. { rewrite Sr. unfold grid_shape. cbn [map length seq nth hd]. rewrite Es. unfold mesh_axis. cbn [Nat.leb]. rewrite andb_false_r. reflexivity. }
    intros jx V. rewrite Sr in V. rewrite Qr by auto. unfold mesh_axis. cbn [length Nat.leb]. rewrite andb_false_r. apply valid_cons_inv in V as (k & q & -> & _ & V). apply valid_nil in V. subst q. reflexivity.
  - set (ts := t0 :: t1 :: ts') in *. destruct (map_res (fun t => check (ndim (t_layout t) =? 1)%nat InvalidLayout) ts) as [u|e|] eqn:Ec; cbn [bind].
    2:{ right. apply map_res_err in Ec as (t & I & E). apply Exists_exists. exists t. split; auto. destruct (Nat.eqb_spec (ndim (t_layout t)) 1); [discriminate|auto]. }
    2:{ revert Ec. apply map_res_not_panic. intros t _. destruct (_ =? _)%nat; discriminate. }
    assert (D : Forall (fun t => length (t_shape t) = 1%nat) ts). { apply map_res_ok in Ec. clear - Ec. induction Ec as [|t x l r H F IH]; constructor; auto. destruct (Nat.eqb_spec (ndim (t_layout t)) 1); [auto|discriminate]. }
    assert (Hn : (2 <= length ts)%nat) by (cbn; lia). clearbody ts. destruct (mesh_grids o ts indexing Hn F D) as (us & bs & -> & Eb & Lb & H). cbn [bind]. rewrite Eb. cbn [bind]. destruct copy; cbn [negb].
    + destruct (map_res_rel (fun b => into_contig o b o) (fun b r => tensor_ok r /\ t_shape r = t_shape b /\ (forall jx, valid (t_shape b) jx -> at_ r jx = at_ b jx) /\ length (t_data r) = size (t_shape r) /\ addrs o (t_layout r) = consecutive 0 (size (t_shape r))) bs) as (rs & -> & Fr).
      { apply Forall_forall. intros b Ib. apply In_nth_error in Ib as (i & Ei'). assert (Hi' : (i < length ts)%nat) by (rewrite <- Lb; apply nth_error_Some; congruence). destruct (nth_error ts i) as [t|] eqn:Et; [|apply nth_error_None in Et; lia].
        destruct (H i t Et) as (b' & Eb' & Kb & Sb & Ob & Lt & _). rewrite Ei' in Eb'. injection Eb' as <-. apply (into_contig_ok o b (size (t_shape t)) Kb Ob Lt). intro Z0. set (xy := (indexing =? "xy")%string) in *.
        rewrite Forall_forall in D. pose proof (D t (nth_error_In _ _ Et)) as Dt. pose proof Et as Et'. apply (map_nth_error (fun t => hd 0%nat (t_shape t))) in Et'. apply (nth_error_nth _ _ 0%nat) in Et'.
        replace (size (t_shape t)) with (nth (mesh_axis xy (length ts) i) (t_shape b) 0%nat). { apply size_ge; auto. rewrite Sb, grid_length, map_length. now apply mesh_axis_lt. }
        rewrite Sb, nth_grid by (rewrite map_length; now apply mesh_axis_lt). rewrite map_length, mesh_axis_invol, Et'. destruct (t_shape t) as [|m [|? ?]]; try discriminate. rewrite size_cons. cbn. lia. }
      split; auto. split; auto. split.
      * apply grids_mesh; auto; [apply Forall2_length in Fr; congruence|]. intros i t Et. destruct (H i t Et) as (b & Eb' & Kb & Sb & _ & _ & Qb). destruct (nth_error_F2 _ _ _ Fr i b Eb') as (r & Er & Kr & Sr & Qr & _). exists r. split; auto. split; auto. split; [congruence|]. rewrite Sr. intros jx V. rewrite Qr by auto. apply Qb. now rewrite <- Sb.
      * intros _. clear - Fr. induction Fr as [|b r bs rs (_ & _ & _ & H1 & H2) F IH]; constructor; auto.
    + split; auto. split; auto. split; [|discriminate]. apply grids_mesh; auto. intros i t Et. destruct (H i t Et) as (b & Eb' & Kb & Sb & _ & _ & Qb). exists b. split; auto. split; auto. split; auto. now rewrite Sb. Qed.
