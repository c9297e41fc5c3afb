(** Matrices in memory: leading extents, windows, contiguous copies. *)
From Verif Require Import Base Spec Spec_Matmul Spec_Tri Spec_Blas P_Index P_List M_Layout P_Layout P_Bounds P_Contig P_Strides M_Indexer P_Indexer M_Broadcast P_Broadcast M_Rearr P_Rearr P_BinOp M_Iter P_Iter M_Kernel P_Kernel Q_Kernel M_Tensor P_Tensor Q_Tensor Q_Copy P_Arg P_Axes M_Matmul P_Matmul P_Matmul2 P_Matmul3 P_Matmul4 Q_Matmul M_Tri P_Tri P_Tri2 P_Tri3 P_Tri4 Q_Tri M_Fast P_Fast P_Fast2 P_Fast3 M_Blas Spec_BlasApi.
Local Open Scope Z_scope.

(** ** leading extents *)
Definition win (o : order) (base ld : Z) (i j : nat) : Z := match o with ColMajor => window base ld i j | RowMajor => window base ld j i end.
Definition rows_of (o : order) (m n : nat) : nat := match o with ColMajor => m | RowMajor => n end.
Definition located (o : order) (l : layout) (m n : nat) (base ld : Z) : Prop :=
  l_shape l = [m; n] /\ at_least ld (rows_of o m n) = true /\ forall i j, (i < m)%nat -> (j < n)%nat -> win o base ld i j = addr l [i; j].
Lemma reverse_prefers o l m n : wf l -> l_shape l = [m; n] -> prefers o (reverse_axes l) = prefers (match o with RowMajor => ColMajor | ColMajor => RowMajor end) l.
Proof. intros W E. destruct (layout2 l m n W E) as (s & t & ->). rewrite reverse2. destruct o; cbn [prefers]; now rewrite c_prefer2. Qed.
Lemma reverse_good l : good l -> good (reverse_axes l).
Proof. intro G. now apply good_reverse. Qed.
Lemma prefers_ld o l m n : good l -> l_shape l = [m; n] -> m <> 0%nat -> n <> 0%nat -> prefers o l = true -> exists d, ld o l = Some d /\ located o l m n (l_offset l) d.
Proof. intros G E Hm Hn P. assert (W : wf l) by apply G. destruct (layout2 l m n W E) as (s & t & El). destruct o; cbn [prefers ld] in *.
  - unfold ld_row. rewrite P. cbn [negb]. pose proof (reverse_good l G) as G'. rewrite El in G', P |- *. rewrite reverse2 in G'. rewrite c_prefer2 in P. cbn [l_offset].
    exists (leading (mkLayout [n; m] [t; s] (l_offset l))). split; [unfold leading, extent; cbn [l_shape l_stride nth]; destruct (m =? 1)%nat; reflexivity|]. split; [reflexivity|]. split; [now apply leading_ok|].
    intros i j Hi Hj. pose proof (leading_pos n m t s (l_offset l) j i P Hj Hi) as H. rewrite !addr2 in *. unfold col_pos in H. cbn [win]. unfold window. lia.
  - unfold ld_col. rewrite P. cbn [negb]. rewrite El in G, P |- *. cbn [l_offset].
    exists (leading (mkLayout [m; n] [s; t] (l_offset l))). split; [unfold leading, extent; cbn [l_shape l_stride nth]; destruct (n =? 1)%nat; reflexivity|]. split; [reflexivity|]. split; [now apply leading_ok|].
    intros i j Hi Hj. apply (leading_pos m n s t (l_offset l) i j P Hi Hj). Qed.
Lemma win_injective o base d m n i j i' j' : at_least d (rows_of o m n) = true -> (i < m)%nat -> (j < n)%nat -> (i' < m)%nat -> (j' < n)%nat -> win o base d i j = win o base d i' j' -> i = i' /\ j = j'.
Proof. intros A Hi Hj Hi' Hj' E. unfold at_least in A. apply Z.leb_le in A. destruct o; cbn [win rows_of] in *; unfold window in E.
  - assert (i = i'). { destruct (Nat.lt_trichotomy i i') as [L|[L|L]]; auto; exfalso; nia. } subst. lia.
  - assert (j = j'). { destruct (Nat.lt_trichotomy j j') as [L|[L|L]]; auto; exfalso; nia. } subst. lia. Qed.
Lemma located_injective o l m n base d : located o l m n base d -> injective l.
Proof. intros (E & A & W) ix jx V V' Q. rewrite E in V, V'. destruct (valid2 m n ix V) as (i & j & -> & Hi & Hj). destruct (valid2 m n jx V') as (i' & j' & -> & Hi' & Hj').
  rewrite <- !W in Q by auto. destruct (win_injective o base d m n i j i' j') as [-> ->]; auto. Qed.

(** ** matrices held *)
Lemma holds_shape {T} (d : list T) l m n A : holds d l m n A -> l_shape l = [m; n]. Proof. now intros [? _]. Qed.
Lemma valid_pair m n i j : (i < m)%nat -> (j < n)%nat -> valid [m; n] [i; j].
Proof. intros. now apply valid_tuple2. Qed.
Lemma holds_of {T} (d : list T) l m n : l_shape l = [m; n] -> inside l (length d) -> forall z : T, exists A, holds d l m n A.
Proof. intros E I z. exists (fun i j => match elem d l [i; j] with Some x => x | None => z end). split; auto. intros i j Hi Hj. destruct (elem_inside d l [i; j]) as (x & ->); auto. rewrite E. now apply valid_pair. Qed.
Lemma holds_ext {T} (d : list T) l m n A B : holds d l m n A -> (forall i j, (i < m)%nat -> (j < n)%nat -> A i j = B i j) -> holds d l m n B.
Proof. intros (E & H) Q. split; auto. intros i j Hi Hj. now rewrite <- Q, H. Qed.
Lemma elem_reverse2 {T} (d : list T) l m n i j : wf l -> l_shape l = [m; n] -> elem d (reverse_axes l) [j; i] = elem d l [i; j].
Proof. intros W E. destruct (layout2 l m n W E) as (s & t & ->). unfold elem. rewrite reverse2, !addr2. f_equal. lia. Qed.
Lemma holds_transposed {T} (d : list T) l m n A : wf l -> holds d l m n A -> holds d (reverse_axes l) n m (fun i j => A j i).
Proof. intros W (E & H). split; [cbn; now rewrite E|]. intros i j Hi Hj. rewrite (elem_reverse2 d l m n) by auto. now apply H. Qed.
Lemma rows_ext {T} m n (A B : nat -> nat -> T) : (forall i j, (i < m)%nat -> (j < n)%nat -> A i j = B i j) -> rows m n A = rows m n B.
Proof. intro H. unfold rows. apply map_ext_in. intros i Hi. apply in_seq in Hi. apply map_ext_in. intros j Hj. apply in_seq in Hj. apply H; lia. Qed.
Lemma entry_rows {T} (zero : T) m n A i j : (i < m)%nat -> (j < n)%nat -> entry_at zero (rows m n A) i j = A i j.
Proof. intros Hi Hj. unfold entry_at, rows. rewrite (nth_indep (map (fun i => map (A i) (seq 0 n)) (seq 0 m)) [] (map (A 0%nat) (seq 0 n))) by (rewrite map_length, seq_length; auto).
  rewrite (map_nth (fun i => map (A i) (seq 0 n))). rewrite seq_nth by auto. rewrite (nth_indep _ zero (A (0 + i)%nat 0%nat)) by (rewrite map_length, seq_length; auto). rewrite (map_nth (A (0 + i)%nat)). now rewrite seq_nth. Qed.

(** ** windows *)
Lemma map_res_map {A B} (f : A -> res B) g l : (forall x, In x l -> f x = Ok (g x)) -> map_res f l = Ok (map g l).
Proof. induction l as [|x l IH]; intro H; cbn; auto. rewrite H by now left. cbn [bind]. rewrite IH by (intros; apply H; now right). reflexivity. Qed.
Lemma read_window_ok {T} (d : list T) base ld cell m n A : (forall i j, (i < m)%nat -> (j < n)%nat -> match cell i j with None => peek d (window base ld i j) = Some (A i j) | Some x => A i j = x end) ->
  read_window d base ld cell m n = Ok (rows m n A).
Proof. intro H. unfold read_window, rows. apply map_res_map. intros i Hi. apply in_seq in Hi. apply map_res_map. intros j Hj. apply in_seq in Hj. unfold read_cell. specialize (H i j). destruct (cell i j); [now rewrite H by lia|]. apply zget_peek. apply H; lia. Qed.
Lemma located_read {T} (d : list T) l m n base ld A : located ColMajor l m n base ld -> holds d l m n A -> read_window d base ld everything m n = Ok (rows m n A).
Proof. intros (E & _ & W) (_ & H). apply read_window_ok. intros i j Hi Hj. cbn. cbn [win] in W. rewrite W by auto. now apply H. Qed.
Lemma located_read_tri {T} (zero one : T) (d : list T) l n base ld u unit A : located ColMajor l n n base ld -> holds d l n n A ->
  read_window d base ld (triangle_only zero one u unit) n n = Ok (rows n n (triangular zero one u unit A)).
Proof. intros (E & _ & W) (_ & H). apply read_window_ok. intros i j Hi Hj. unfold triangle_only, triangular. cbn [win] in W. destruct (unit && _); auto. destruct (in_triangle u i j); auto. rewrite W by auto. now apply H. Qed.
Lemma write_window_modify {T} base ld (new : nat -> nat -> T -> T) cells d :
  write_window base ld new cells d = fold_res (modify (fun ij => window base ld (fst ij) (snd ij)) (fun ij z => Ok (new (fst ij) (snd ij) z))) cells d.
Proof. reflexivity. Qed.
Lemma located_write {T} (d : list T) l m n base ld A (new : nat -> nat -> T -> T) : located ColMajor l m n base ld -> inside l (length d) -> holds d l m n A ->
  exists d', write_window base ld new (all_cells m n) d = Ok d' /\ untouched_outside l d d' /\ holds d' l m n (fun i j => new i j (A i j)).
Proof. intros L I H. pose proof L as (E & At & W). pose proof H as (_ & Hh). cbn [win] in W. rewrite write_window_modify.
  destruct (modify_fold (fun ij => window base ld (fst ij) (snd ij)) (fun ij z => Ok (new (fst ij) (snd ij) z)) (all_cells m n) d) as (d' & Ed & Ld & Q & U).
  - apply (nodup_cells (window base ld) (all_cells m n) m n); [apply nodup_all| |].
    + intros [i j] Hc. now apply in_all in Hc.
    + intros i j i' j' Hi Hj Hi' Hj' Ew. apply (win_injective ColMajor base ld m n); auto.
  - intros [i j] Hc. apply in_all in Hc as [Hi Hj]. cbn [fst snd]. rewrite W by auto. apply I. rewrite E. now apply valid_pair.
  - intros [i j] x Hc. cbn. eauto.
  - exists d'. split; auto. split.
    + split; auto. intros p Np. apply U. intro X. apply in_map_iff in X as ([i j] & Ep & Hc). apply in_all in Hc as [Hi Hj]. cbn [fst snd] in Ep. rewrite W in Ep by auto. apply (Np [i; j]); auto. rewrite E. now apply valid_pair.
    + split; auto. intros i j Hi Hj. destruct (Q (i, j) (A i j)) as (y & Ey & Py); [now apply in_all| |].
      * cbn [fst snd]. rewrite W by auto. now apply Hh.
      * cbn [fst snd] in *. injection Ey as <-. rewrite W in Py by auto. exact Py. Qed.

(** ** contiguous copies *)
Lemma contig_pair m n o : new_contig Fixed [m; n] 0 o = match o with ColMajor => mkLayout [m; n] [1; Z.of_nat (Nat.max m 1)] 0 | RowMajor => mkLayout [m; n] [Z.of_nat (Nat.max n 1); 1] 0 end.
Proof. destruct o; cbn [new_contig]; [|apply f_contig2]. unfold new_c_contig, stride_c_contig, stride_c_fixed. cbn [rev app cum_strides]. f_equal. f_equal. unfold max1. destruct n; cbn; lia. Qed.
Lemma pair_perm ax : Permutation ax [0; 1]%nat -> ax = [0; 1]%nat \/ ax = [1; 0]%nat.
Proof. intro P. symmetry in P. now apply Permutation_length_2_inv. Qed.
(** a K-order copy of a matrix *)
Lemma copy_pair dflt l m n : good l -> l_shape l = [m; n] -> m <> 0%nat -> n <> 0%nat ->
  layout_for_array_copy Fixed dflt l OK = Ok (mkLayout [m; n] [1; Z.of_nat m] 0) /\ (prefers RowMajor l = true -> m = 1%nat \/ n = 1%nat) \/
  layout_for_array_copy Fixed dflt l OK = Ok (mkLayout [m; n] [Z.of_nat n; 1] 0) /\ (prefers ColMajor l = true -> m = 1%nat \/ n = 1%nat).
Proof. intros G E Hm Hn. assert (W : wf l) by apply G. unfold layout_for_array_copy.
  assert (NE : size (l_shape l) <> 0%nat) by (rewrite E; unfold size; cbn; nia).
  destruct (greedy_index l G NE) as (g & Eg). set (ax := sort_by _ _) in Eg. destruct (greedy_keep_ok l G) as (g' & ax' & f & Eg' & P & _ & _ & _ & Sg). rewrite Eg in Eg'. injection Eg' as <- <-. rewrite Eg. cbn [bind fst snd].
  assert (N2 : ndim l = 2%nat) by (unfold ndim; now rewrite E). rewrite (reversed_permute_ok ax (ndim l) P).
  destruct (layout2 l m n W E) as (s & t & El). rewrite N2 in P. cbn [seq] in P. destruct (pair_perm ax P) as [X|X].
  - left. rewrite X in *. rewrite Sg, E. cbn [pick map nth]. split.
    + rewrite transpose_nat by reflexivity. f_equal. rewrite f_contig2. replace (Nat.max m 1) with m by lia. reflexivity.
    + intro C. destruct (Nat.eq_dec m 1) as [|M1]; auto. destruct (Nat.eq_dec n 1) as [|N1]; auto. exfalso. cbn [prefers] in C. pose proof (leading_ok n m t s (l_offset l) Hn Hm) as LO. rewrite El in C. rewrite c_prefer2 in C. specialize (LO).
      assert (G' : good (mkLayout [n; m] [t; s] (l_offset l))) by (rewrite <- reverse2, <- El; now apply reverse_good). specialize (LO G' C). destruct (prefer2 _ _ _ _ _ Hn Hm C) as [F1 F2]. specialize (F1 N1). specialize (F2 M1). subst t.
      unfold at_least, leading, extent in LO. cbn [l_shape l_stride nth] in LO. replace (m =? 1)%nat with false in LO by lia. cbn [negb] in LO. apply Z.leb_le in LO.
      assert (Y : greedy_le true (l_shape l) (l_stride l) 0 1 = true). { unfold ax in X. rewrite N2 in X. cbn [sort_by seq fold_right insert_sorted] in X. destruct (greedy_le true (l_shape l) (l_stride l) 0 1); [reflexivity|discriminate X]. }
      rewrite El in Y. unfold greedy_le in Y. cbn [l_shape l_stride nth] in Y. replace (m =? 1)%nat with false in Y by lia. replace (n =? 1)%nat with false in Y by lia. replace (s =? 0) with false in Y by lia. cbn in Y. lia.
  - right. rewrite X in *. rewrite Sg, E. cbn [pick map nth]. split.
    + rewrite transpose_nat by (cbn; constructor). f_equal. rewrite f_contig2. replace (Nat.max n 1) with n by lia. reflexivity.
    + intro C. destruct (Nat.eq_dec m 1) as [|M1]; auto. destruct (Nat.eq_dec n 1) as [|N1]; auto. exfalso. cbn [prefers] in C. pose proof (leading_ok m n s t (l_offset l) Hm Hn) as LO. rewrite El in C, G.
      specialize (LO G C). destruct (prefer2 _ _ _ _ _ Hm Hn C) as [F1 F2]. specialize (F1 M1). specialize (F2 N1). subst s.
      unfold at_least, leading, extent in LO. cbn [l_shape l_stride nth] in LO. replace (n =? 1)%nat with false in LO by lia. cbn [negb] in LO. apply Z.leb_le in LO.
      assert (Y : greedy_le true (l_shape l) (l_stride l) 0 1 = false). { unfold ax in X. rewrite N2 in X. cbn [sort_by seq fold_right insert_sorted] in X. destruct (greedy_le true (l_shape l) (l_stride l) 0 1); [discriminate X|reflexivity]. }
      rewrite El in Y. unfold greedy_le in Y. cbn [l_shape l_stride nth] in Y. replace (m =? 1)%nat with false in Y by lia. replace (n =? 1)%nat with false in Y by lia. replace (t =? 0) with false in Y by lia. cbn in Y. lia. Qed.
(** contiguous from the start of the storage *)
Definition packed (o : order) (l : layout) (m n : nat) : Prop := l_offset l = 0 /\ prefers o l = true /\ located o l m n 0 (Z.of_nat (rows_of o m n)).
Lemma prefer_pair m n s t off : (m = 1%nat \/ s = 1) -> (n = 1%nat \/ 1 <= t) -> f_prefer (mkLayout [m; n] [s; t] off) = true.
Proof. intros Hs Ht. unfold f_prefer, ndim, l_size. cbn [l_shape l_stride length combine Nat.eqb orb]. destruct (size [m; n] =? 0)%nat; auto. cbn [prefer_loop].
  destruct (Nat.eqb_spec m 1) as [Em|Em]; cbn [negb].
  - destruct (Nat.eqb_spec n 1) as [En|En]; cbn [negb]; auto. destruct Ht as [Ht|Ht]; [contradiction|].
    replace (t <? 1) with false by lia. destruct (t =? 0) eqn:?; [lia|]. cbn. reflexivity.
  - destruct Hs as [Hs|Hs]; [contradiction|]. subst s. cbn [Z.eqb Z.ltb andb Pos.eqb Z.compare negb]. destruct (Nat.eqb_spec n 1) as [En|En]; cbn [negb]; auto. destruct Ht as [Ht|Ht]; [contradiction|]. replace (t <? 1) with false by lia. reflexivity. Qed.
Lemma packed_col m n : m <> 0%nat -> packed ColMajor (mkLayout [m; n] [1; Z.of_nat m] 0) m n.
Proof. intro Hm. split; [reflexivity|]. split; [apply prefer_pair; lia|]. split; [reflexivity|]. split; [unfold at_least; cbn [rows_of]; lia|]. intros i j Hi Hj. rewrite addr2. cbn [win rows_of]. unfold window. lia. Qed.
Lemma packed_row m n : n <> 0%nat -> packed RowMajor (mkLayout [m; n] [Z.of_nat n; 1] 0) m n.
Proof. intro Hn. split; [reflexivity|]. split; [cbn [prefers]; rewrite c_prefer2; apply prefer_pair; lia|]. split; [reflexivity|]. split; [unfold at_least; cbn [rows_of]; lia|]. intros i j Hi Hj. rewrite addr2. cbn [win rows_of]. unfold window. lia. Qed.
Lemma packed_col_thin m n : m <> 0%nat -> n <> 0%nat -> m = 1%nat \/ n = 1%nat -> packed RowMajor (mkLayout [m; n] [1; Z.of_nat m] 0) m n.
Proof. intros Hm Hn H. split; [reflexivity|]. split; [cbn [prefers]; rewrite c_prefer2; apply prefer_pair; lia|]. split; [reflexivity|]. split; [unfold at_least; cbn [rows_of]; lia|].
  intros i j Hi Hj. rewrite addr2. cbn [win rows_of]. unfold window. destruct H as [-> | ->]; [replace i with 0%nat by lia|replace j with 0%nat by lia]; lia. Qed.
Lemma packed_row_thin m n : m <> 0%nat -> n <> 0%nat -> m = 1%nat \/ n = 1%nat -> packed ColMajor (mkLayout [m; n] [Z.of_nat n; 1] 0) m n.
Proof. intros Hm Hn H. split; [reflexivity|]. split; [apply prefer_pair; lia|]. split; [reflexivity|]. split; [unfold at_least; cbn [rows_of]; lia|].
  intros i j Hi Hj. rewrite addr2. cbn [win rows_of]. unfold window. destruct H as [-> | ->]; [replace i with 0%nat by lia|replace j with 0%nat by lia]; lia. Qed.
Lemma contig_packed o m n : m <> 0%nat -> n <> 0%nat -> packed o (new_contig Fixed [m; n] 0 o) m n.
Proof. intros Hm Hn. rewrite contig_pair. destruct o; [replace (Nat.max n 1) with n by lia; now apply packed_row|replace (Nat.max m 1) with m by lia; now apply packed_col]. Qed.
Lemma copy_packed dflt o l m n : good l -> l_shape l = [m; n] -> m <> 0%nat -> n <> 0%nat -> prefers o l = true -> exists l', layout_for_array_copy Fixed dflt l OK = Ok l' /\ packed o l' m n.
Proof. intros G E Hm Hn P. destruct (copy_pair dflt l m n G E Hm Hn) as [(C & H)|(C & H)]; eexists; (split; [exact C|]); destruct o; auto using packed_col, packed_row, packed_col_thin, packed_row_thin. Qed.
Lemma packed_shape o l m n : packed o l m n -> l_shape l = [m; n]. Proof. now intros (_ & _ & ? & _). Qed.
Lemma packed_injective o l m n : packed o l m n -> injective l. Proof. intros (_ & _ & L). eapply located_injective; eauto. Qed.
Lemma tensor_new_layout {T} d l (t : tensor T) : tensor_new d l = Ok t -> t = mkTensor d l.
Proof. unfold tensor_new. destruct (check_strides l true); cbn [bind]; try discriminate. destruct (bounds_index l); cbn [bind]; try discriminate. destruct (_ <=? _); cbn [check bind]; try discriminate. congruence. Qed.
Lemma asarray_layout {T} k dflt (a c : tensor T) ord : asarray k dflt a ord = Ok c -> layout_for_array_copy k dflt (t_layout a) ord = Ok (t_layout c).
Proof. unfold asarray. destruct (layout_for_array_copy k dflt (t_layout a) ord) as [lc| |]; cbn [bind]; try discriminate. destruct (assign _ _ _ _ _ _); cbn [bind]; try discriminate. destruct (assume_init _); cbn [bind]; try discriminate. intro H. apply tensor_new_layout in H. now rewrite H. Qed.
Lemma map_layout {A B} k dflt (g : A -> B) (a : tensor A) c : map_f k dflt g a = Ok c -> layout_for_array_copy k dflt (t_layout a) OK = Ok (t_layout c).
Proof. unfold map_f. destruct (layout_for_array_copy k dflt (t_layout a) OK) as [lc| |]; cbn [bind]; try discriminate. destruct (bounds_index lc); cbn [bind]; try discriminate. destruct (op_muta_refb _ _ _ _ _ _); cbn [bind]; try discriminate. destruct (assume_init _); cbn [bind]; try discriminate. intro H. apply tensor_new_layout in H. now rewrite H. Qed.

Section Copies.
  Context {T : Type} (dev dflt : order).
  Lemma nonempty_size m n (t : tensor T) : nonempty m n -> l_shape (t_layout t) = [m; n] -> size (t_shape t) <> 0%nat.
  Proof. intros [] E. unfold t_shape. rewrite E. unfold size. cbn. nia. Qed.
  Lemma holds_copy (t c : tensor T) m n A : holds (t_data t) (t_layout t) m n A -> t_shape c = t_shape t -> (forall ix, valid (t_shape t) ix -> at_ c ix = at_ t ix) -> holds (t_data c) (t_layout c) m n A.
  Proof. intros (E & H) Sc Q. unfold t_shape, at_ in *. split; [now rewrite Sc|]. intros i j Hi Hj. rewrite Q by (rewrite E; now apply valid_pair). now apply H. Qed.
  Lemma contig_copy (t : tensor T) m n A o : tensor_ok t -> nonempty m n -> holds (t_data t) (t_layout t) m n A ->
    exists c, change_contig Fixed dev t o = Ok c /\ tensor_ok c /\ packed o (t_layout c) m n /\ holds (t_data c) (t_layout c) m n A.
  Proof. intros Ht NE H. pose proof (holds_shape _ _ _ _ _ H) as E. destruct (l_change_contig T Fixed dev t o Ht) as (c & Ec & Tc & Sc & _ & _ & Q); [left; eapply nonempty_size; eauto|].
    exists c. split; auto. split; auto. split; [|now apply (holds_copy t)]. unfold change_contig in Ec. apply change_layout_layout in Ec. rewrite Ec, E. destruct NE; now apply contig_packed. Qed.
  Lemma contig_owned_ok (t : tensor T) m n A o : tensor_ok t -> nonempty m n -> holds (t_data t) (t_layout t) m n A ->
    exists c, contig_owned dev dflt t o = Ok c /\ tensor_ok c /\ packed o (t_layout c) m n /\ holds (t_data c) (t_layout c) m n A.
  Proof. intros Ht NE H. destruct (contig_copy t m n A o Ht NE H) as (c & Ec & Tc & Pc & Hc). unfold contig_owned. rewrite Ec. cbn [bind].
    destruct (l_into_owned T Fixed dflt c Tc) as (c2 & E2 & T2 & S2 & Q2 & _). exists c2. split; auto. split; auto. split; [|now apply (holds_copy c)].
    unfold into_owned in E2. destruct (unwrap (bounds_index (t_layout c))) as [b| |]; cbn [bind] in E2; try discriminate. destruct (_ && _); [injection E2 as <-; auto|].
    destruct (asarray Fixed dflt c OK) as [c3| |] eqn:E3; cbn [unwrap] in E2; try discriminate. injection E2 as ->. apply asarray_layout in E3. pose proof Tc as Tc'. apply tensor_ok_good in Tc' as (Gc & _).
    destruct (copy_packed dflt o (t_layout c) m n Gc (packed_shape _ _ _ _ Pc) (proj1 NE) (proj2 NE) (proj1 (proj2 Pc))) as (l' & El & Pl). rewrite El in E3. injection E3 as ->. exact Pl. Qed.
  Lemma prefer_copy (t : tensor T) m n A o : tensor_ok t -> nonempty m n -> holds (t_data t) (t_layout t) m n A ->
    exists c, change_prefer Fixed dev t o = Ok c /\ tensor_ok c /\ prefers o (t_layout c) = true /\ holds (t_data c) (t_layout c) m n A /\ (at_start (t_layout t) -> l_offset (t_layout c) = 0).
  Proof. intros Ht NE H. unfold change_prefer. change (match o with RowMajor => c_prefer (t_layout t) | ColMajor => f_prefer (t_layout t) end) with (match o with RowMajor => c_prefer (t_layout t) | ColMajor => f_prefer (t_layout t) end).
    destruct (match o with RowMajor => c_prefer (t_layout t) | ColMajor => f_prefer (t_layout t) end) eqn:P.
    - exists t. split; auto. split; auto. split; [destruct o; exact P|]. split; auto. intros [S|[S1 S2]]; auto. destruct o; congruence.
    - destruct (contig_copy t m n A o Ht NE H) as (c & Ec & Tc & Pc & Hc). exists c. split; auto. split; auto. split; [apply Pc|]. split; auto. intros _. apply Pc. Qed.
  Lemma transposed_ok (t : tensor T) : tensor_ok t -> tensor_ok (transposed t).
  Proof. intro H. apply tensor_ok_good in H as (G & I). apply tensor_ok_good. split; [now apply reverse_good|]. cbn [transposed t_data t_layout]. apply rev_inside; auto. apply G. Qed.
  Lemma transposed_twice (t : tensor T) : transposed (transposed t) = t.
  Proof. unfold transposed. cbn [t_data t_layout]. rewrite reverse_twice. now destruct t. Qed.
  Lemma transposed_holds (t : tensor T) m n A : tensor_ok t -> holds (t_data t) (t_layout t) m n A -> holds (t_data (transposed t)) (t_layout (transposed t)) n m (fun i j => A j i).
  Proof. intros H Hh. apply tensor_ok_good in H as (G & I). apply holds_transposed; auto. apply G. Qed.
  Lemma transposed_prefers (t : tensor T) m n o : tensor_ok t -> l_shape (t_layout t) = [m; n] -> prefers o (t_layout (transposed t)) = prefers (match o with RowMajor => ColMajor | ColMajor => RowMajor end) (t_layout t).
  Proof. intros H E. apply tensor_ok_good in H as (G & I). cbn [transposed t_layout]. eapply reverse_prefers; eauto. apply G. Qed.
  Lemma map_copy (g : T -> T) (t : tensor T) m n A o : tensor_ok t -> nonempty m n -> holds (t_data t) (t_layout t) m n A -> prefers o (t_layout t) = true ->
    exists c, map_f Fixed dflt g t = Ok c /\ tensor_ok c /\ packed o (t_layout c) m n /\ holds (t_data c) (t_layout c) m n (fun i j => g (A i j)).
  Proof. intros Ht NE H P. pose proof (holds_shape _ _ _ _ _ H) as E. destruct (l_map T T Fixed dflt g t Ht) as (c & Ec & Tc & Sc & Q). exists c. split; auto. split; auto. split.
    - pose proof (map_layout _ _ _ _ _ Ec) as El. pose proof Ht as Ht'. apply tensor_ok_good in Ht' as (G & _). destruct (copy_packed dflt o (t_layout t) m n G E (proj1 NE) (proj2 NE) P) as (l' & El' & Pl). congruence.
    - split; [unfold t_shape in Sc; congruence|]. intros i j Hi Hj. unfold at_, t_shape in Q. destruct (Q [i; j]) as (x & Ex & Ey); [rewrite E; now apply valid_pair|]. rewrite (proj2 H) in Ex by auto. injection Ex as <-. exact Ey. Qed.
  Context (conj : T -> T).
  Lemma flip_trans_ok o t (v : tensor T) m n A : tensor_ok v -> nonempty m n -> holds (t_data v) (t_layout v) m n A -> t <> ConjOnly ->
    exists t' w m' n' W, flip_trans conj dev dflt o t v false = Ok (t', w) /\ tensor_ok w /\ prefers o (t_layout w) = true /\ holds (t_data w) (t_layout w) m' n' W /\ t' <> ConjOnly /\ nonempty m' n' /\
      op_shape t' m' n' = op_shape t m n /\ (forall i j, op_of conj t' W i j = op_of conj t A i j) /\ (at_start (t_layout v) -> l_offset (t_layout w) = 0) /\
      (t' = t /\ m' = m /\ n' = n /\ W = A \/ t' <> t /\ m' = n /\ n' = m /\ (t = NoTrans <-> t' <> NoTrans)).
  Proof. intros Hv NE H Ht. unfold flip_trans. pose proof (holds_shape _ _ _ _ _ H) as E. destruct (prefers o (t_layout v)) eqn:P.
    - exists t, v, m, n, A. split; auto. split; auto. split; auto. split; auto. split; auto. split; auto. split; auto. split; auto. split; [|auto]. intros [S|[S1 S2]]; auto. destruct o; cbn in P; congruence.
    - destruct (prefer_copy (transposed v) n m (fun i j => A j i) o) as (w & Ew & Tw & Pw & Hw & Ow); [now apply transposed_ok|destruct NE; now split|now apply transposed_holds|].
      assert (Ow' : at_start (t_layout v) -> l_offset (t_layout w) = 0). { intro S. apply Ow. destruct S as [S|[S1 S2]]; [now left|right]. pose proof (transposed_prefers v m n RowMajor Hv E) as X1. pose proof (transposed_prefers v m n ColMajor Hv E) as X2. cbn [prefers] in X1, X2. split; congruence. }
      rewrite Ew. cbn [unwrap bind]. destruct NE as [Nm Nn].
      destruct t; cbn [flip_ftrans bind]; [| | |contradiction].
      + exists Trans, w, n, m, (fun i j => A j i). split; auto. split; auto. split; auto. split; auto. split; [discriminate|]. split; [now split|]. split; [reflexivity|]. split; [reflexivity|]. split; auto. right. split; [discriminate|]. split; auto. split; auto. split; congruence.
      + exists NoTrans, w, n, m, (fun i j => A j i). split; auto. split; auto. split; auto. split; auto. split; [discriminate|]. split; [now split|]. split; [reflexivity|]. split; [reflexivity|]. split; auto. right. split; [discriminate|]. split; auto. split; auto. split; congruence.
      + destruct (map_copy conj w n m (fun i j => A j i) o Tw) as (c & Ec & Tc & Pc & Hc); [now split|exact Hw|exact Pw|]. rewrite Ec. cbn [unwrap bind]. 
        exists NoTrans, c, n, m, (fun i j => conj (A j i)). split; auto. split; auto. split; [apply Pc|]. split; auto. split; [discriminate|]. split; [now split|]. split; [reflexivity|]. split; [reflexivity|]. split; [intros _; apply Pc|]. right. split; [discriminate|]. split; auto. split; auto. split; congruence. Qed.
End Copies.
