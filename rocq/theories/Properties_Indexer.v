(** Property theorems about slicing and indexing (C09-C11, C52).  Statements use the vocabulary of Spec.v
    and the modelled entry points of M_Layout.v and M_Indexer.v only. *)
From Verif Require Import Base Spec M_Layout M_Indexer Q_Indexer.
Local Open Scope Z_scope.

(** C09: slicing one axis selects the positions Python's slice enumerates, in order; step 0 is an error.  Missing: negative steps with a start below -len or an explicit stop of -1 (plain_slice), where the code differs from Python - see the two refutations. *)
Theorem C09_slice_follows_python_partial : forall l axis a s, accepted l -> axis_denotes (ndim l) axis a ->
  let d := nth a (l_shape l) 0%nat in
  (unwrap_or (sl_step s) 1 <> 0 -> plain_slice s d ->
   exists l', dim_narrow l axis s = Ok l' /\ l_shape l' = upd (l_shape l) a (length (slice_positions s d)) /\
     forall jx, valid (l_shape l') jx ->
       exists i, nth_error (slice_positions s d) (nth a jx 0%nat) = Some (Z.of_nat i) /\
         valid (l_shape l) (upd jx a i) /\ addr l' jx = addr l (upd jx a i)) /\
  (unwrap_or (sl_step s) 1 = 0 -> exists e, dim_narrow l axis s = Err e).
Proof. exact narrow_python. Qed.
Example C09_example : dim_narrow (mkLayout [7%nat] [2] 3) 0 (mkSlice (Some (-2)) (Some 0) (Some (-2))) = Ok (mkLayout [3%nat] [-4] 13)
  /\ slice_positions (mkSlice (Some (-2)) (Some 0) (Some (-2))) 7 = [5; 3; 1].
Proof. split; reflexivity. Qed.
Example C09_example_out_of_range : slice_positions (mkSlice (Some (-100)) (Some 100) (Some 3)) 7 = [0; 3; 6].
Proof. reflexivity. Qed.
Print Assumptions C09_slice_follows_python_partial.

(** C09 is false of the code for x[-4::-1] with 3 elements: Python selects nothing, the code selects element 0. *)
Theorem C09_negative_step_low_start_refuted : exists l s, accepted l /\ sl_step s = Some (-1) /\ slice_positions s (nth 0 (l_shape l) 0%nat) = [] /\
  exists l', dim_narrow l 0 s = Ok l' /\ l_shape l' = [1%nat].
Proof. exact narrow_low_start. Qed.
Print Assumptions C09_negative_step_low_start_refuted.

(** C09 is false of the code for x[:-1:-1]: Python selects nothing, the code selects everything. *)
Theorem C09_negative_step_stop_minus_one_refuted : exists l s, accepted l /\ sl_step s = Some (-1) /\ slice_positions s (nth 0 (l_shape l) 0%nat) = [] /\
  exists l', dim_narrow l 0 s = Ok l' /\ l_shape l' = [3%nat].
Proof. exact narrow_stop_m1. Qed.
Print Assumptions C09_negative_step_stop_minus_one_refuted.

(** C10: whatever the slice, every element of the result is an element of the source, different ones for different indices, other axes are untouched, and the result stays inside any storage holding the source. *)
Theorem C10_slice_is_a_subview : forall l axis s l', accepted l -> dim_narrow l axis s = Ok l' ->
  exists a f, axis_denotes (ndim l) axis a /\ accepted l' /\ ndim l' = ndim l /\
    (forall jx, valid (l_shape l') jx -> valid (l_shape l) (f jx) /\ addr l' jx = addr l (f jx) /\
       forall k, k <> a -> nth k (f jx) 0%nat = nth k jx 0%nat) /\
    (forall jx jx', valid (l_shape l') jx -> valid (l_shape l') jx' -> f jx = f jx' -> jx = jx') /\
    (forall len, inside l len -> inside l' len).
Proof. exact narrow_subview. Qed.
Example C10_example : exists l', dim_narrow (mkLayout [3; 4]%nat [-8; 2] 20) (-1) (mkSlice (Some (-9)) (Some (-1)) (Some (-1))) = Ok l' /\ accepted (mkLayout [3; 4]%nat [-8; 2] 20).
Proof. eexists. repeat split; try reflexivity. cbn. lia. Qed.
Print Assumptions C10_slice_is_a_subview.

(** C11: indexing with integers, slices, new axes and an ellipsis gives exactly the sub-array NumPy's rules describe (plain slices, see C09). *)
Theorem C11_mixed_indexing_reads : forall l ixs out, accepted l -> one_ellipsis ixs ->
  index_shape (with_ellipsis ixs) (l_shape l) out -> plain_indexers (with_ellipsis ixs) (l_shape l) ->
  exists l', dim_slice l ixs = Ok l' /\ accepted l' /\ l_shape l' = out /\
    (forall jx, valid out jx <-> exists ix, reads (with_ellipsis ixs) (l_shape l) jx ix) /\
    (forall jx ix, reads (with_ellipsis ixs) (l_shape l) jx ix -> valid (l_shape l) ix /\ addr l' jx = addr l ix).
Proof. exact mixed_indexing. Qed.
Example C11_example : let l := mkLayout [2; 5; 3; 4]%nat [60; 12; 4; 1] 7 in
  let ixs := [ISelect (-1); IEllipsis; IInsert; ISlice (mkSlice None None (Some (-2)))] in
  accepted l /\ one_ellipsis ixs /\ index_shape (with_ellipsis ixs) (l_shape l) [5; 3; 1; 2]%nat /\ plain_indexers (with_ellipsis ixs) (l_shape l) /\
  dim_slice l ixs = Ok (mkLayout [5; 3; 1; 2]%nat [12; 4; -2; -2] 70).
Proof. split; [split; [split|]; try reflexivity; cbn; lia|]. split; [cbn; unfold one_ellipsis; cbn; lia|]. split; [|split; [|reflexivity]].
  - cbn. eapply shape_select with (i := 1%nat); [split; lia|]. apply (shape_ellipsis _ [5; 3]%nat [4]%nat). constructor.
    apply (shape_slice (mkSlice None None (Some (-2))) [] 4%nat [] []); [discriminate|constructor].
  - cbn. constructor. apply (plain_ellipsis _ [5; 3]%nat [4]%nat). constructor. constructor; [|constructor].
    intros _. cbn. split; discriminate. Qed.
Print Assumptions C11_mixed_indexing_reads.

(** C11: indexing never panics and fails exactly for more than one ellipsis, too many indices, an out-of-range integer or a zero step. *)
Theorem C11_mixed_indexing_rejects : forall l ixs, accepted l ->
  dim_slice l ixs <> Panic /\
  ((exists l', dim_slice l ixs = Ok l') <-> one_ellipsis ixs /\ exists out, index_shape (with_ellipsis ixs) (l_shape l) out) /\
  (forall l', dim_slice l ixs = Ok l' -> accepted l').
Proof. exact mixed_indexing_rejects. Qed.
Example C11_example_reject : dim_slice (mkLayout [2; 3]%nat [3; 1] 0) [ISelect 0; IEllipsis; ISelect 3] = Err IndexError
  /\ dim_slice (mkLayout [2; 3]%nat [3; 1] 0) [IEllipsis; IEllipsis] = Err InvalidValue
  /\ dim_slice (mkLayout [2; 3]%nat [3; 1] 0) [ISelect 0; ISelect 0; ISelect 0] = Err ValueOutOfRange.
Proof. repeat split. Qed.
Print Assumptions C11_mixed_indexing_rejects.

(** C11: selecting, eliminating and inserting one axis. *)
Theorem C11_single_axis_operations : forall l axis, accepted l ->
  (forall a i k, axis_denotes (ndim l) axis a -> index_denotes i (nth a (l_shape l) 0%nat) k ->
     exists l', dim_select l axis i = Ok l' /\ accepted l' /\ l_shape l' = remove_at (l_shape l) a /\
       forall jx, valid (l_shape l') jx -> valid (l_shape l) (insert_at jx a k) /\ addr l' jx = addr l (insert_at jx a k)) /\
  (forall a, axis_denotes (ndim l) axis a -> nth a (l_shape l) 0%nat = 1%nat ->
     exists l', dim_eliminate l axis = Ok l' /\ accepted l' /\ l_shape l' = remove_at (l_shape l) a /\
       forall jx, valid (l_shape l') jx -> valid (l_shape l) (insert_at jx a 0%nat) /\ addr l' jx = addr l (insert_at jx a 0%nat)) /\
  (forall a, insert_denotes (ndim l) axis a ->
     exists l', dim_insert l axis = Ok l' /\ accepted l' /\ l_shape l' = insert_at (l_shape l) a 1%nat /\
       forall jx, valid (l_shape l) jx -> valid (l_shape l') (insert_at jx a 0%nat) /\ addr l' (insert_at jx a 0%nat) = addr l jx) /\
  (forall i, (forall a k, axis_denotes (ndim l) axis a -> ~ index_denotes i (nth a (l_shape l) 0%nat) k) -> exists e, dim_select l axis i = Err e) /\
  ((forall a, axis_denotes (ndim l) axis a -> nth a (l_shape l) 0%nat <> 1%nat) -> exists e, dim_eliminate l axis = Err e) /\
  ((forall a, ~ insert_denotes (ndim l) axis a) -> exists e, dim_insert l axis = Err e).
Proof. exact mixed_indexing_select_insert. Qed.
Example C11_example_select : dim_select (mkLayout [2; 3]%nat [3; 1] 4) (-1) (-2) = Ok (mkLayout [2%nat] [3] 5)
  /\ dim_insert (mkLayout [2; 3]%nat [3; 1] 4) (-1) = Ok (mkLayout [2; 3; 1]%nat [3; 1; 1] 4).
Proof. split; reflexivity. Qed.
Print Assumptions C11_single_axis_operations.

(** C52: the two halves of dim_split_axes together address the original elements. *)
Theorem C52_split_axes_lossless : forall l axes la lr, wf l -> dim_split_axes l axes = Ok (la, lr) ->
  exists ax, Forall2 (axis_denotes (ndim l)) axes ax /\ NoDup ax /\ let rest := axes_except (ndim l) ax in
    l_shape la = pick ax 0%nat (l_shape l) /\ l_shape lr = pick rest 0%nat (l_shape l) /\
    forall ix, valid (l_shape l) ix ->
      valid (l_shape la) (pick ax 0%nat ix) /\ valid (l_shape lr) (pick rest 0%nat ix) /\
      addr l ix = addr la (pick ax 0%nat ix) + addr lr (pick rest 0%nat ix) - l_offset l.
Proof. exact split_axes_lossless. Qed.
Example C52_example : dim_split_axes (mkLayout [2; 3; 4]%nat [12; 4; 1] 5) [-1; 0] = Ok (mkLayout [4; 2]%nat [1; 12] 5, mkLayout [3%nat] [4] 5).
Proof. reflexivity. Qed.
Print Assumptions C52_split_axes_lossless.

(** C52: splitting a non-empty accepted layout along any distinct axes succeeds. *)
Theorem C52_split_axes_succeeds : forall l axes ax, accepted l -> size (l_shape l) <> 0%nat ->
  Forall2 (axis_denotes (ndim l)) axes ax -> NoDup ax -> exists la lr, dim_split_axes l axes = Ok (la, lr) /\ accepted la /\ accepted lr.
Proof. exact split_axes_succeeds. Qed.
Print Assumptions C52_split_axes_succeeds.

(** C52: splitting at a position separates leading and trailing axes. *)
Theorem C52_split_at_lossless : forall l axis, wf l ->
  (forall la lr, dim_split_at l axis = Ok (la, lr) ->
     l_shape la ++ l_shape lr = l_shape l /\
     (Z.of_nat (ndim la) = axis \/ Z.of_nat (ndim la) = axis + Z.of_nat (ndim l)) /\
     forall ia ir, valid (l_shape la) ia -> valid (l_shape lr) ir ->
       valid (l_shape l) (ia ++ ir) /\ addr l (ia ++ ir) = addr la ia + addr lr ir - l_offset l) /\
  (- Z.of_nat (ndim l) <= axis <= Z.of_nat (ndim l) <-> exists p, dim_split_at l axis = Ok p).
Proof. exact split_at_lossless. Qed.
Example C52_example_at : dim_split_at (mkLayout [2; 3; 4]%nat [12; 4; 1] 5) (-1) = Ok (mkLayout [2; 3]%nat [12; 4] 5, mkLayout [4%nat] [1] 5).
Proof. reflexivity. Qed.
Print Assumptions C52_split_at_lossless.
