(** The pseudo-inverse. *)
From Coq Require Import String.
From Verif Require Import Base Spec Spec_Matmul Spec_Tri Spec_Blas P_Index P_List M_Layout P_Layout P_Bounds P_Contig P_Strides M_Indexer P_Indexer M_Broadcast P_Broadcast M_Rearr P_Rearr P_BinOp M_Iter P_Iter M_Kernel P_Kernel Q_Kernel M_Tensor P_Tensor Q_Tensor Q_Copy P_Arg P_Axes M_Matmul P_Matmul P_Matmul2 P_Matmul3 P_Matmul4 Q_Matmul M_Tri P_Tri P_Tri2 P_Tri3 P_Tri4 Q_Tri M_Fast P_Fast P_Fast2 P_Fast3 P_Creation M_Blas Spec_BlasApi P_Blas P_Blas2 P_Blas3 P_Blas4 M_Reduce Q_Reduce M_Linalg Spec_Linalg P_Linalg P_Linalg2 P_Linalg3 Q_Indexer.
Local Open Scope Z_scope.

(** slices from the start *)
Lemma filter_all {A} (p : A -> bool) l : (forall x, In x l -> p x = true) -> filter p l = l.
Proof. induction l as [|x l IH]; [reflexivity|]. intro H. cbn [filter]. rewrite (H x) by now left. rewrite IH; auto. intros; apply H; now right. Qed.
Lemma filter_none {A} (p : A -> bool) l : (forall x, In x l -> p x = false) -> filter p l = [].
Proof. induction l as [|x l IH]; [reflexivity|]. intro H. cbn [filter]. rewrite (H x) by now left. apply IH. intros; apply H; now right. Qed.
Lemma positions_upto r d : (r <= d)%nat -> slice_positions (mkSlice None (Some (Z.of_nat r)) None) d = map Z.of_nat (seq 0 r).
Proof. intro H. unfold slice_positions, py_slice. cbn [sl_start sl_stop sl_step unwrap_or]. change (0 <? 1) with true. cbv iota. unfold py_adjust. destruct (Z.ltb_spec (Z.of_nat r) 0); [lia|].
  replace (Z.min (Z.of_nat r) (Z.of_nat d)) with (Z.of_nat r) by lia. replace d with (r + (d - r))%nat by lia. rewrite seq_app, map_app, filter_app. rewrite filter_all, filter_none.
  - now rewrite app_nil_r.
  - intros x Hx. apply in_map_iff in Hx as (i & <- & Hi). apply in_seq in Hi. replace (Z.of_nat i <? Z.of_nat r) with false by lia. now rewrite andb_false_r.
  - intros x Hx. apply in_map_iff in Hx as (i & <- & Hi). apply in_seq in Hi. rewrite Z.mod_1_r. lia. Qed.
Lemma positions_full d : slice_positions (mkSlice None None None) d = map Z.of_nat (seq 0 d).
Proof. unfold slice_positions, py_slice. cbn [sl_start sl_stop sl_step unwrap_or]. change (0 <? 1) with true. cbv iota. apply filter_all. intros x Hx. apply in_map_iff in Hx as (i & <- & Hi). apply in_seq in Hi. rewrite Z.mod_1_r. lia. Qed.
Lemma nth_positions r i : (i < r)%nat -> nth_error (map Z.of_nat (seq 0 r)) i = Some (Z.of_nat i).
Proof. intro H. rewrite nth_error_map, nth_error_seq by auto. reflexivity. Qed.
Definition first (s : slice) (d r : nat) : Prop := plain_slice s d /\ slice_positions s d = map Z.of_nat (seq 0 r) /\ unwrap_or (sl_step s) 1%Z <> 0%Z.
Lemma first_upto r d : (r <= d)%nat -> first (mkSlice None (Some (Z.of_nat r)) None) d r.
Proof. intro H. split; [intro N; cbn in N; lia|]. split; [now apply positions_upto|discriminate]. Qed.
Lemma first_full d : first (mkSlice None None None) d d.
Proof. split; [intro N; cbn in N; lia|]. split; [apply positions_full|discriminate]. Qed.
Lemma shape_two s1 s2 d1 d2 r1 r2 : first s1 d1 r1 -> first s2 d2 r2 -> index_shape [ISlice s1; ISlice s2; IEllipsis] [d1; d2] [r1; r2] /\ plain_indexers [ISlice s1; ISlice s2; IEllipsis] [d1; d2] /\
  forall i j, (i < r1)%nat -> (j < r2)%nat -> reads [ISlice s1; ISlice s2; IEllipsis] [d1; d2] [i; j] [i; j].
Proof. intros (P1 & E1 & N1) (P2 & E2 & N2). split; [|split].
  - replace r1 with (length (slice_positions s1 d1)) by (rewrite E1, map_length; apply seq_length). replace r2 with (length (slice_positions s2 d2)) by (rewrite E2, map_length; apply seq_length).
    constructor; auto. constructor; auto. apply (shape_ellipsis [] [] [] []). constructor.
  - constructor; auto. constructor; auto. apply (plain_ellipsis [] [] []). constructor.
  - intros i j Hi Hj. constructor; [rewrite E1; now apply nth_positions|]. constructor; [rewrite E2; now apply nth_positions|]. apply (reads_ellipsis [] [] [] [] [] []); constructor. Qed.
(** a matrix cut to its first rows and columns *)
Lemma cut_matrix {T} (t : tensor T) s1 s2 m n r1 r2 A : is_matrix t m n A -> first s1 m r1 -> first s2 n r2 -> (r1 <= m)%nat -> (r2 <= n)%nat ->
  exists l, dim_slice (t_layout t) [ISlice s1; ISlice s2] = Ok l /\ is_matrix (mkTensor (t_data t) l) r1 r2 A /\ (forall i j, (i < r1)%nat -> (j < r2)%nat -> addr l [i; j] = addr (t_layout t) [i; j]).
Proof. intros (Ht & Hh) F1 F2 L1 L2. destruct (shape_two _ _ _ _ _ _ F1 F2) as (S & P & Rd). pose proof (holds_shape _ _ _ _ _ Hh) as Sh.
  destruct (mixed_indexing (t_layout t) [ISlice s1; ISlice s2] [r1; r2]) as (l & E & Al & Sl & _ & Hl); [apply Ht|unfold one_ellipsis; cbn; lia|now rewrite Sh|now rewrite Sh|].
  cbn [with_ellipsis existsb is_ellipsis app orb] in *. exists l. split; auto. rewrite Sh in Hl.
  assert (Ad : forall i j, (i < r1)%nat -> (j < r2)%nat -> addr l [i; j] = addr (t_layout t) [i; j]) by (intros; now apply Hl, Rd).
  split; [|auto]. split; [split; [auto|]|split; [auto|]]; cbn [t_data t_layout].
  - intros ix V. rewrite Sl in V. apply P_Fast3.valid2 in V as (i & j & -> & Hi & Hj). rewrite Ad by auto. apply Ht. fold (t_shape t). unfold t_shape. rewrite Sh. apply valid_pair; lia.
  - intros i j Hi Hj. unfold elem. rewrite Ad by auto. apply Hh; lia. Qed.
(** a vector cut to its first entries, as a row *)
Lemma cut_vector {T} (t : tensor T) s n r f : is_vector t n f -> first s n r -> (r <= n)%nat ->
  exists l, dim_slice (t_layout t) [IInsert; ISlice s] = Ok l /\ is_matrix (mkTensor (t_data t) l) 1 r (fun _ j => f j).
Proof. intros (Ht & Sh & Hh) (P & E & N) L. unfold t_shape in Sh.
  destruct (mixed_indexing (t_layout t) [IInsert; ISlice s] [1%nat; r]) as (l & El & Al & Sl & _ & Hl); [apply Ht|unfold one_ellipsis; cbn; lia| | |].
  - rewrite Sh. cbn [with_ellipsis existsb is_ellipsis app orb]. constructor. replace r with (length (slice_positions s n)) by (rewrite E, map_length; apply seq_length). constructor; auto. apply (shape_ellipsis [] [] [] []). constructor.
  - rewrite Sh. cbn [with_ellipsis existsb is_ellipsis app orb]. constructor. constructor; auto. apply (plain_ellipsis [] [] []). constructor.
  - cbn [with_ellipsis existsb is_ellipsis app orb] in *. exists l. split; auto. rewrite Sh in Hl.
    assert (Ad : forall j, (j < r)%nat -> addr l [0%nat; j] = addr (t_layout t) [j]). { intros j Hj. apply Hl. constructor. constructor; [rewrite E; now apply nth_positions|]. apply (reads_ellipsis [] [] [] [] [] []); constructor. }
    split; [split; [auto|]|split; [auto|]]; cbn [t_data t_layout].
    + intros ix V. rewrite Sl in V. apply P_Fast3.valid2 in V as (i & j & -> & Hi & Hj). replace i with 0%nat by lia. rewrite Ad by auto. apply Ht. fold (t_shape t). unfold t_shape. rewrite Sh. apply valid1. lia.
    + intros i j Hi Hj. replace i with 0%nat by lia. unfold elem. rewrite Ad by auto. apply Hh; lia. Qed.
