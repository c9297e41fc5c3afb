(** Property theorems about functions that relabel the elements of a tensor and about iteration over sub-views (C38, C40, C51).
    Statements use Spec.v, Spec_Views.v and the modelled entry points of M_Layout.v, M_Iter.v, M_Tensor.v and M_Manip.v only. *)
From Verif Require Import Base Spec P_Index M_Layout M_Indexer M_Rearr M_Iter M_Tensor M_Manip P_Strides P_Tensor Spec_Views P_Manip Q_Manip.
Local Open Scope Z_scope.

(** C38: flip reverses the index on the chosen axes, keeps the shape, and undoes itself; it is refused exactly when the axes are out of range or repeated. *)
Theorem C38_flip : forall l axes v, accepted l -> lists_axes axes v ->
  (forall ax, Forall2 (axis_denotes (ndim l)) v ax -> NoDup ax ->
     exists l', flip l axes = Ok l' /\ accepted l' /\ l_shape l' = l_shape l /\
       (forall ix, valid (l_shape l) ix -> valid (l_shape l) (flip_index (l_shape l) ax ix) /\ addr l' ix = addr l (flip_index (l_shape l) ax ix)) /\
       flip l' axes = Ok l) /\
  ((~ exists ax, Forall2 (axis_denotes (ndim l)) v ax /\ NoDup ax) -> exists e, flip l axes = Err e).
Proof. exact l_flip. Qed.
Definition ex_l : layout := mkLayout [2; 3; 4]%nat [12; 4; 1] 0.
Example ex_l_accepted : accepted ex_l.
Proof. apply good_accepted. apply (good_new [2; 3; 4]%nat [12; 4; 1] 0); [lia|vm_compute; reflexivity]. Qed.
Example C38_example_flip : flip ex_l (AxVec [-1; 0]) = Ok (mkLayout [2; 3; 4]%nat [-12; 4; -1] 15) /\ Forall2 (axis_denotes (ndim ex_l)) [-1; 0] [2; 0]%nat.
Proof. split; [reflexivity|]. repeat constructor; unfold axis_denotes, ndim; cbn; lia. Qed.
Print Assumptions C38_flip.

(** C38: flip without axes reverses all of them. *)
Theorem C38_flip_all : forall l, accepted l ->
  exists l', flip l AxNone = Ok l' /\ accepted l' /\ l_shape l' = l_shape l /\
    (forall ix, valid (l_shape l) ix -> addr l' ix = addr l (flip_index (l_shape l) (seq 0 (ndim l)) ix)) /\ flip l' AxNone = Ok l.
Proof. exact l_flip_all. Qed.
Print Assumptions C38_flip_all.

(** C38: moveaxis sends every source axis to its destination, keeps the order of the others and relabels the elements accordingly; it is refused exactly when axes are out of range, repeated, or the two lists differ in length. *)
Theorem C38_moveaxis : forall l src dst vs vd, wf l -> lists_axes src vs -> lists_axes dst vd ->
  (forall s d, Forall2 (axis_denotes (ndim l)) vs s -> Forall2 (axis_denotes (ndim l)) vd d -> NoDup s -> NoDup d -> length s = length d ->
     exists l' p, moveaxis l src dst = Ok l' /\ wf l' /\ moved (ndim l) s d p /\ Permutation p (seq 0 (ndim l)) /\
       l_shape l' = pick p 0%nat (l_shape l) /\
       (forall ix, valid (l_shape l) ix -> valid (l_shape l') (pick p 0%nat ix) /\ addr l' (pick p 0%nat ix) = addr l ix)) /\
  ((~ exists s d, Forall2 (axis_denotes (ndim l)) vs s /\ Forall2 (axis_denotes (ndim l)) vd d /\ NoDup s /\ NoDup d /\ length s = length d) ->
     exists e, moveaxis l src dst = Err e).
Proof. exact l_moveaxis. Qed.
Example C38_example_moveaxis : moveaxis ex_l (AxVec [0; -1]) (AxVec [-1; 0]) = Ok (mkLayout [4; 3; 2]%nat [1; 4; 12] 0) /\ moveaxis ex_l (AxVal 2) (AxVal 0) = Ok (mkLayout [4; 2; 3]%nat [1; 12; 4] 0)
  /\ moved 3 [2]%nat [0]%nat [2; 0; 1]%nat /\ ~ moved 3 [2]%nat [0]%nat [2; 1; 0]%nat.
Proof. split; [reflexivity|]. split; [reflexivity|]. split.
  - split; [reflexivity|]. split; [|reflexivity]. intros [|i] Hi; cbn in *; [reflexivity|lia].
  - intros (_ & _ & H). discriminate. Qed.
Print Assumptions C38_moveaxis.

(** C38: expand_dims puts unit axes at the requested final positions and keeps the others in order; it is refused exactly when the axes are out of range or repeated. *)
Theorem C38_expand_dims : forall l axes v, accepted l -> lists_axes axes v ->
  (forall ax, Forall2 (axis_denotes (ndim l + length v)) v ax -> NoDup ax ->
     exists l', expand_dims l axes = Ok l' /\ accepted l' /\ ndim l' = (ndim l + length v)%nat /\
       (forall a, In a ax -> nth a (l_shape l') 0%nat = 1%nat) /\
       pick (axes_except (ndim l + length v) ax) 0%nat (l_shape l') = l_shape l /\
       (forall jx, valid (l_shape l') jx -> let ix := pick (axes_except (ndim l + length v) ax) 0%nat jx in valid (l_shape l) ix /\ addr l' jx = addr l ix)) /\
  ((~ exists ax, Forall2 (axis_denotes (ndim l + length v)) v ax /\ NoDup ax) -> exists e, expand_dims l axes = Err e).
Proof. exact l_expand_dims. Qed.
Example C38_example_expand : expand_dims ex_l (AxVec [-1; 0]) = Ok (mkLayout [1; 2; 3; 4; 1]%nat [12; 12; 4; 1; 1] 0).
Proof. reflexivity. Qed.
Print Assumptions C38_expand_dims.

(** C38: expand_dims given AxesIndex::None panics instead of returning an error. *)
Theorem C38_expand_dims_none_refuted : forall l, expand_dims l AxNone = Panic.
Proof. exact l_expand_none_refuted. Qed.
Print Assumptions C38_expand_dims_none_refuted.

(** C38: squeeze removes exactly the requested axes when all of them are distinct unit axes. *)
Theorem C38_squeeze : forall l axes v, accepted l -> lists_axes axes v ->
  (forall ax, Forall2 (axis_denotes (ndim l)) v ax -> NoDup ax -> (forall a, In a ax -> nth a (l_shape l) 0%nat = 1%nat) ->
     exists l', squeeze l axes = Ok l' /\ is_squeezed l ax l').
Proof. exact l_squeeze. Qed.
Example C38_example_squeeze : squeeze (mkLayout [1; 2; 1; 4; 1]%nat [9; 4; 7; 1; 3] 5) (AxVec [-1; 0]) = Ok (mkLayout [2; 1; 4]%nat [4; 7; 1] 5)
  /\ squeeze (mkLayout [1; 2; 1; 4; 1]%nat [9; 4; 7; 1; 3] 5) AxNone = Ok (mkLayout [2; 4]%nat [4; 1] 5).
Proof. split; reflexivity. Qed.
Print Assumptions C38_squeeze.

(** C38: squeeze without axes removes all unit axes. *)
Theorem C38_squeeze_all : forall l, accepted l -> exists l', squeeze l AxNone = Ok l' /\
  is_squeezed l (filter (fun a => (nth a (l_shape l) 0 =? 1)%nat) (seq 0 (ndim l))) l'.
Proof. exact l_squeeze_all. Qed.
Print Assumptions C38_squeeze_all.

(** C38: squeeze refuses axes that are too large, repeated or not of extent one.  Missing: axes below -ndim, see the next theorem. *)
Theorem C38_squeeze_rejects_partial : forall l axes v, accepted l -> lists_axes axes v -> (forall a, In a v -> - Z.of_nat (ndim l) <= a) ->
  (~ exists ax, Forall2 (axis_denotes (ndim l)) v ax /\ NoDup ax /\ forall a, In a ax -> nth a (l_shape l) 0%nat = 1%nat) -> exists e, squeeze l axes = Err e.
Proof. exact l_squeeze_rejects. Qed.
Example C38_example_reject : squeeze ex_l (AxVal 0) = Err InvalidValue.
Proof. reflexivity. Qed.
Print Assumptions C38_squeeze_rejects_partial.

(** C38: an axis below -ndim is accepted when a larger axis is given with it (only the largest one is compared with 0). *)
Theorem C38_squeeze_below_refuted : exists l v l', accepted l /\ (~ exists ax, Forall2 (axis_denotes (ndim l)) v ax) /\ squeeze l (AxVec v) = Ok l'.
Proof. exact l_squeeze_below_refuted. Qed.
Print Assumptions C38_squeeze_below_refuted.

(** C40: after any history of slicing, selecting, inserting, transposing, swapping, moving, flipping, expanding, squeezing, broadcasting and reshaping without copy the storage is the same, the view is again a valid tensor (accepted layout, all elements inside the storage), and every element of the view is an element of the original tensor. *)
Theorem C40_views_inside_storage : forall (T : Type) o ops (t t' : tensor T), tensor_ok t -> views o ops t = Ok t' ->
  t_data t' = t_data t /\ tensor_ok t' /\
  forall jx, valid (l_shape (t_layout t')) jx -> exists ix x, valid (l_shape (t_layout t)) ix /\
    elem (t_data t') (t_layout t') jx = Some x /\ elem (t_data t) (t_layout t) ix = Some x.
Proof. exact l_views_inside. Qed.
Definition ex_t : tensor Z := mkTensor [0; 1; 2; 3; 4; 5; 6; 7; 8; 9; 10; 11] (mkLayout [3; 4]%nat [4; 1] 0).
Example C40_example : tensor_ok ex_t /\ views RowMajor [VFlip (AxVal 0); VSlice [ISlice (mkSlice (Some 1) None None); IInsert; IEllipsis]; VTranspose AxNone; VBroadcast [2; 4; 1; 2]%nat; VSlice [ISelect (-1); ISlice (mkSlice None None (Some 2))]; VReshape [2; -1] RowMajor] ex_t
  = Ok (mkTensor (t_data ex_t) (mkLayout [2; 2]%nat [2; -4] 4)).
Proof. split; [concrete_tensor|reflexivity]. Qed.
Print Assumptions C40_views_inside_storage.

(** C40: diagonal is the exception among the view-producing functions: on a matrix with more rows than columns and an offset beyond the last column its result reaches outside the storage. *)
Theorem C40_diagonal_outside_refuted : exists (t : tensor Z) l', tensor_ok t /\ diagonal (t_layout t) (Some 3) None None = Ok l' /\ ~ inside l' (length (t_data t)).
Proof. exact l_diagonal_outside_refuted. Qed.
Print Assumptions C40_diagonal_outside_refuted.

(** C51: iterating over axes yields one view per index of these axes, in the requested order, showing the elements with that index; together the views contain every element exactly once; next, next_back and split_at behave as on the list of these views.  Missing: invalid axes are not always rejected, see the next theorem, and views without elements are not covered. *)
Theorem C51_axes_iter_partial : forall dflt l axes v ax o, accepted l -> lists_axes axes v -> v <> [] -> Forall2 (axis_denotes (ndim l)) v ax -> NoDup ax ->
  size (pick (axes_except (ndim l) ax) 0%nat (l_shape l)) <> 0%nat -> o <> OB ->
  exists it vs sxs, axes_iter_new dflt l axes o = Ok it /\ axes_iter_views it = Ok vs /\
    Permutation sxs (row_major (pick ax 0%nat (l_shape l))) /\
    (o = OC -> sxs = row_major (pick ax 0%nat (l_shape l))) /\ (o = OF -> sxs = col_major (pick ax 0%nat (l_shape l))) /\
    (o = OA -> sxs = enum dflt (pick ax 0%nat (l_shape l))) /\
    Forall2 (shows_subarray l ax) sxs vs /\
    Permutation (flat_map (addrs RowMajor) vs) (addrs RowMajor l) /\
    forall ops, size (l_shape l) <> 0%nat \/ Forall (fun op => op = Front \/ op = Back) ops -> splits_within ops vs ->
      exists it', axes_iter_run ops it = Ok (fst (deque ops vs), it') /\ axes_iter_views it' = Ok (snd (deque ops vs)).
Proof. exact l_axes_iter. Qed.
Example C51_example : (let* it := axes_iter_new RowMajor ex_l (AxVec [-1; 0]) OC in axes_iter_views it) =
  Ok (map (mkLayout [3]%nat [4]) [0; 12; 1; 13; 2; 14; 3; 15]).
Proof. reflexivity. Qed.
Print Assumptions C51_axes_iter_partial.

(** C51: no axes at all, an axis that is out of range, and a later axis below -ndim make axes_iter panic instead of returning an error. *)
Theorem C51_axes_iter_invalid_refuted : exists l, accepted l /\ axes_iter_new RowMajor l (AxVec []) OC = Panic /\ axes_iter_new RowMajor l (AxVal 2) OC = Panic /\
  axes_iter_new RowMajor l (AxVec [0; -3]) OC = Panic.
Proof. exact l_axes_iter_refuted. Qed.
Print Assumptions C51_axes_iter_invalid_refuted.

(** C51: next_back of the indexed iterator returns the last view together with the index of the first one. *)
Theorem C51_indexed_back_refuted : exists l it w it', accepted l /\ indexed_axes_new RowMajor l (AxVal 0) OC = Ok it /\
  indexed_axes_next_back it = Ok (Some ([0%nat], w), it') /\ ~ shows_subarray l [0%nat] [0%nat] w /\ shows_subarray l [0%nat] [1%nat] w.
Proof. exact l_indexed_axes_back_refuted. Qed.
Print Assumptions C51_indexed_back_refuted.
