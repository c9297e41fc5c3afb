(** Property lemmas about reshaping without a copy (C78) *)
From Verif Require Import Base Spec P_Index P_List M_Layout P_Layout P_Bounds P_Contig P_Strides M_Reshape P_Reshape P_Reshape3 Q_Reshape M_Kernel M_Tensor M_Compat P_Kernel P_Tensor P_Reshape2 Q_Tensor Q_Copy.
Local Open Scope Z_scope.

Lemma l_reshape_complete : forall o l shape l', wf l -> layout_reshapeable l shape o = Ok None -> length (l_stride l') = length (l_shape l') -> l_shape l' = shape -> addrs o l' <> addrs o l.
Proof. exact reshape_complete. Qed.

Lemma l_compatible : forall (A : Type) (a : tensor A) shape ord, tensor_ok a -> ~ (In (-1) shape /\ In 0 shape) ->
  match into_compatible_shape a shape ord with
  | Ok c => t_data c = t_data a /\ tensor_ok c /\ fills shape (t_shape c) /\ size (t_shape c) = size (t_shape a) /\ forall i j, same_rank ord (t_shape c) (t_shape a) i j -> at_ c i = at_ a j
  | Err _ => (2 <= count_occ Z.eq_dec shape (-1)%Z)%nat \/
      forall l', fills shape (l_shape l') -> length (l_stride l') = length (l_shape l') -> addrs ord l' <> addrs ord (t_layout a)
  | Panic => False
  end.
Proof.
  intros A a shape ord Ha Nz. pose proof (l_change_shape A Fixed a shape ord (Some false) Ha Nz ltac:(discriminate)) as H. unfold change_shape in H. unfold into_compatible_shape.
  assert (W : wf (t_layout a)) by apply Ha.
  change (l_size (t_layout a)) with (size (t_shape a)) in *.
  assert (Hsz : forall l', length (l_stride l') = length (l_shape l') -> addrs ord l' = addrs ord (t_layout a) -> size (l_shape l') = size (t_shape a)).
  { intros l' _ E. apply (f_equal (@length Z)) in E. unfold addrs in E. rewrite !map_length in E. unfold enum in E. destruct ord; rewrite ?length_row_major, ?length_col_major in E; exact E. }
  pose proof (l_substitute shape (size (t_shape a)) Nz) as Sub.
  destruct (reshape_substitute_negatives shape (size (t_shape a))) as [s|e|] eqn:Es; cbn [bind] in *.
  - destruct Sub as [F U]. destruct (layout_reshapeable (t_layout a) s ord) as [[l|]|e|] eqn:El; cbn [bind check] in *.
    + destruct H as (H1 & H2 & H3). assert (E : size (t_shape (mkTensor (t_data a) l)) = size (t_shape a)) by (apply H2; discriminate). destruct (H3 E) as [H4 H5]. split; [reflexivity|]. auto.
    + assert (Ss : size s = size (t_shape a)) by (apply (proj1 (l_reshape_same_size ord (t_layout a) s W)); now rewrite El).
      right. intros l' F' L' E. apply (l_reshape_complete ord (t_layout a) s l' W El L'); [|exact E]. specialize (Hsz l' L' E).
      destruct (in_dec Z.eq_dec (-1) shape) as [I|I]; [destruct (U I) as [_ U']; now apply U'|].
      clear -F F' I. revert s F F'. generalize (l_shape l'). induction shape as [|v shape IH]; intros s' s F F'; inversion F; inversion F'; subst; [reflexivity|]. f_equal; [|apply IH; [intros X; apply I; now right|assumption|assumption]].
      assert (v <> -1) by (intros X; apply I; now left). lia.
    + right. intros l' F' L' E. specialize (Hsz l' L' E). pose proof (proj1 (l_reshape_same_size ord (t_layout a) s W)) as X. rewrite El in X. cbn in X.
      assert (size s = size (t_shape a)); [|now apply X in H0].
      assert (l_shape l' = s); [|congruence].
      destruct (in_dec Z.eq_dec (-1) shape) as [I|I]; [destruct (U I) as [_ U']; now apply U'|].
      clear -F F' I. revert s F F'. generalize (l_shape l'). induction shape as [|v shape IH]; intros s' s F F'; inversion F; inversion F'; subst; [reflexivity|]. f_equal; [|apply IH; [intros X; apply I; now right|assumption|assumption]].
      assert (v <> -1) by (intros X; apply I; now left). lia.
    + now apply (proj2 (l_reshape_same_size ord (t_layout a) s W)).
  - destruct Sub as [(v & I & L)|[Sub|Sub]]; [|now left|].
    + right. intros l' F' _ _. clear -I L F'. revert I. induction F' as [|x y sx sy Hxy HF IH]; intros I; [destruct I|destruct I as [->|I]; [destruct Hxy; lia|auto]].
    + right. intros l' F' L' E. apply (Sub _ F'). now apply Hsz.
  - exact Sub.
Qed.

Lemma l_assume_contig : forall (A : Type) k dflt (a : tensor A) s, tensor_ok a -> 0 <= l_offset (t_layout a) ->
  match into_shape_assume_contig k dflt a s with
  | Ok c => t_data c = t_data a /\ tensor_ok c /\ t_shape c = s /\ size s = size (t_shape a) /\ forall i j, same_rank dflt s (t_shape a) i j -> at_ c i = at_ a j
  | Err _ => size s <> size (t_shape a) \/ size s <> 0%nat /\ addrs dflt (t_layout a) <> consecutive (l_offset (t_layout a)) (size (t_shape a))
  | Panic => False
  end.
Proof.
  intros A k dflt a s Ha Ho. unfold into_shape_assume_contig. cbv zeta. change (l_size (t_layout a)) with (size (t_shape a)). destruct (Nat.eqb_spec (size (t_shape a)) (size s)) as [E|E]; [|left; cbn; congruence]. cbn [check bind].
  assert (W : wf (t_layout a)) by apply Ha.
  assert (G : forall l', good l' -> l_shape l' = s -> addrs dflt l' = addrs dflt (t_layout a) -> t_data a = t_data a /\ tensor_ok (mkTensor (t_data a) l') /\ l_shape l' = s /\ size s = size (t_shape a) /\
    forall i j, same_rank dflt s (t_shape a) i j -> at_ (mkTensor (t_data a) l') i = at_ a j).
  { intros l' Gl Sl Ad. apply tensor_ok_good in Ha. destruct Ha as [Ga Ia]. split; [reflexivity|]. split; [apply tensor_ok_good; split; [exact Gl|]|].
    - cbn [t_layout t_data]. intros ix V. assert (I : In (addr l' ix) (addrs dflt (t_layout a))) by (rewrite <- Ad; unfold addrs; apply in_map; apply P_Iter.in_enum; exact V).
      unfold addrs in I. apply in_map_iff in I. destruct I as (jx & Ej & Hj). rewrite <- Ej. apply Ia. now apply P_Iter.in_enum in Hj.
    - split; [exact Sl|]. split; [now symmetry|]. intros i j (r & Hi & Hj). unfold at_, elem. cbn [t_data t_layout]. f_equal. unfold addrs in Ad. rewrite Sl in Ad.
      apply (map_nth_error (addr l')) in Hi. apply (map_nth_error (addr (t_layout a))) in Hj. rewrite Ad in Hi. unfold t_shape in Hj. congruence. }
  assert (Z0 : size s = 0%nat -> forall l', l_shape l' = s -> addrs dflt l' = addrs dflt (t_layout a)).
  { intros S0 l' Sl. rewrite (addrs_size0 dflt l') by congruence. rewrite (addrs_size0 dflt (t_layout a)); [reflexivity|]. unfold t_shape in E. congruence. }
  destruct dflt.
  - destruct (c_contig (t_layout a)) eqn:C.
    + apply G; [apply (contig_good k s _ RowMajor Ho)|reflexivity|]. destruct (Nat.eq_dec (size s) 0) as [S0|S0]; [now apply Z0|]. apply c_contig_iff in C; [|exact W|unfold t_shape in E; congruence].
      unfold addrs, enum. rewrite C. unfold t_shape in E. rewrite E. apply new_c_contig_addrs.
    + destruct (Nat.eq_dec (size s) 0) as [S0|S0]; [exfalso; unfold c_contig, ndim_of_c_contig, l_size, ndim in C; unfold t_shape in E; rewrite E, S0 in C; cbn [Nat.eqb] in C; rewrite orb_true_r in C; lia|].
      right. split; [exact S0|]. intros X. apply (c_contig_iff _ W) in X; [congruence|unfold t_shape in E; congruence].
  - destruct (f_contig (t_layout a)) eqn:C.
    + apply G; [apply (contig_good k s _ ColMajor Ho)|reflexivity|]. destruct (Nat.eq_dec (size s) 0) as [S0|S0]; [now apply Z0|]. apply f_contig_iff in C; [|exact W|unfold t_shape in E; congruence].
      unfold addrs, enum. rewrite C. unfold t_shape in E. rewrite E. apply new_f_contig_addrs.
    + destruct (Nat.eq_dec (size s) 0) as [S0|S0]; [exfalso; unfold f_contig, ndim_of_f_contig, l_size, ndim in C; unfold t_shape in E; rewrite E, S0 in C; cbn [Nat.eqb] in C; rewrite orb_true_r in C; lia|].
      right. split; [exact S0|]. intros X. apply (f_contig_iff _ W) in X; [congruence|unfold t_shape in E; congruence].
Qed.

Lemma l_reshape_no_needless_copy : forall (A : Type) k (a : tensor A) shape ord l', tensor_ok a -> ~ (In (-1) shape /\ In 0 shape) -> (count_occ Z.eq_dec shape (-1)%Z <= 1)%nat ->
  fills shape (l_shape l') -> length (l_stride l') = length (l_shape l') -> addrs ord l' = addrs ord (t_layout a) ->
  exists c, change_shape k a shape ord None = Ok c /\ t_data c = t_data a.
Proof.
  intros A k a shape ord l' Ha Nz C F L E. pose proof (l_compatible A a shape ord Ha Nz) as H. unfold into_compatible_shape in H. unfold change_shape.
  destruct (reshape_substitute_negatives shape (l_size (t_layout a))) as [s|e|]; cbn [bind] in *; [|exfalso; destruct H as [H|H]; [lia|now apply (H l' F L)]|contradiction].
  destruct (layout_reshapeable (t_layout a) s ord) as [[l|]|e|]; cbn [bind] in *; [eexists; split; reflexivity| | |contradiction]; exfalso; (destruct H as [H|H]; [lia|now apply (H l' F L)]).
Qed.
