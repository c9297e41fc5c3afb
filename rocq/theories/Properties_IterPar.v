(** Property theorems about parallel iteration with indices and over sub-views (C117).  Statements use Spec.v, Spec_Views.v and the modelled entry
    points of M_IterElem.v, M_Manip.v and M_IterPar.v only.  [tree] ranges over all the ways the scheduler may split the work. *)
From Verif Require Import Base Spec Spec_IterElem Spec_Views P_Index P_Iter M_Layout M_Indexer P_Indexer M_Rearr M_Iter M_Kernel M_Tensor M_Manip P_Strides P_Tensor Q_Layout M_Mesh M_IterElem M_IterPar Q_IterPar.
Local Open Scope Z_scope.

(** [[3; 2; 1]; [6; 5; 4]]: a row-major matrix with its columns reversed *)
Definition pm_t : tensor Z := mkTensor [1; 2; 3; 4; 5; 6] (mkLayout [2; 3]%nat [3; -1] 2).
Lemma pm_ok : tensor_ok pm_t. Proof. concrete_tensor. Qed.
Lemma pm_injective : injective (t_layout pm_t).
Proof. intros i j Vi Vj E. apply (in_enum RowMajor) in Vi, Vj. vm_compute in Vi, Vj. destruct Vi as [<-|[<-|[<-|[<-|[<-|[<-|[]]]]]]], Vj as [<-|[<-|[<-|[<-|[<-|[<-|[]]]]]]]; vm_compute in E; (reflexivity || discriminate). Qed.
(** six items: the first four go to the left, of which the first one is split off again *)
Definition pm_tree : split_tree := Node 4 (Node 1 Leaf Leaf) Leaf.
(** a cube and two of its axes, the last one first *)
Definition pm_cube : layout := mkLayout [2; 3; 4]%nat [12; 4; 1] 0.
Lemma pm_cube_ok : accepted pm_cube. Proof. repeat split; cbn; lia. Qed.
Lemma pm_axes : lists_axes (AxVec [-1; 0]) [-1; 0] /\ [-1; 0] <> [] /\ Forall2 (axis_denotes (ndim pm_cube)) [-1; 0] [2; 0]%nat /\ NoDup [2; 0]%nat.
Proof. split; [constructor|]. split; [discriminate|]. split; [repeat constructor; cbn; lia|]. repeat constructor; cbn; intuition discriminate. Qed.

(** C117: the parallel version of indexed_iter() hands every index of the tensor to exactly one worker, together with the element at that index; each worker gets a contiguous piece of the sequence of all indices in the order asked for, and works it off in that order. *)
Theorem C117_indexed : forall (T : Type) dflt k o (t : tensor T) tree, tensor_ok t -> size (t_shape t) <> 0%nat \/ tree = Leaf -> tree_within tree (enum o (t_shape t)) ->
  exists e parts, indexed_elems_with_order dflt k t (match o with RowMajor => OC | ColMajor => OF end) = Ok e /\ par_indexed k tree e = Ok parts /\
    map (map (fun p => (fst p, Some (snd p)))) parts = leaves tree (map (fun ix => (ix, at_ t ix)) (enum o (t_shape t))).
Proof. exact l_par_indexed. Qed.
Example C117_indexed_example : tensor_ok pm_t /\ tree_within pm_tree (enum ColMajor (t_shape pm_t)) /\
  (let* e := indexed_elems_with_order RowMajor Fixed pm_t OF in par_indexed Fixed pm_tree e) = Ok [[([0; 0]%nat, 3)]; [([1; 0]%nat, 6); ([0; 1]%nat, 2); ([1; 1]%nat, 5)]; [([0; 2]%nat, 1); ([1; 2]%nat, 4)]].
Proof. split; [apply pm_ok|]. split; [cbn; lia|vm_compute; reflexivity]. Qed.
Print Assumptions C117_indexed.

(** C117: a client that in parallel replaces the element x it is handed with index ix by f(ix, x) changes every element to f of its own index and its old value, exactly once, and nothing else in the storage, in every interleaving of the workers. *)
Theorem C117_indexed_mut : forall (T : Type) dflt k o (t : tensor T) f tree r, tensor_ok t -> injective (t_layout t) -> size (t_shape t) <> 0%nat \/ tree = Leaf -> tree_within tree (enum o (t_shape t)) ->
  exists e, indexed_elems_with_order dflt k t (match o with RowMajor => OC | ColMajor => OF end) = Ok e /\ (par_indexed_updates k f tree e r ->
    exists d, r = Ok d /\ length d = length (t_data t) /\ (forall ix, valid (t_shape t) ix -> elem d (t_layout t) ix = option_map (f ix) (at_ t ix)) /\ (forall p, ~ In p (addrs o (t_layout t)) -> peek d p = peek (t_data t) p)).
Proof. exact l_par_indexed_mut. Qed.
Example C117_indexed_mut_example : tensor_ok pm_t /\ injective (t_layout pm_t) /\ tree_within pm_tree (enum RowMajor (t_shape pm_t)) /\
  (exists e, indexed_elems_with_order RowMajor Fixed pm_t OC = Ok e /\ par_indexed_updates Fixed (fun ix x => 10 * x + Z.of_nat (nth 1 ix 0%nat)) pm_tree e (Ok [12; 21; 30; 42; 51; 60])).
Proof. split; [apply pm_ok|]. split; [apply pm_injective|]. split; [cbn; lia|]. eexists. split; [reflexivity|]. unfold par_indexed_updates. vm_compute par_places. eexists. split; [symmetry; apply Permutation_rev|vm_compute; reflexivity]. Qed.
Print Assumptions C117_indexed_mut.

(** C117: the parallel version of axes_iter() hands one view per index of the chosen axes to the workers, which shows the elements with that index; each worker gets a contiguous piece of the sequence, and together the views contain every element exactly once. *)
Theorem C117_axes : forall dflt l axes v ax o tree, accepted l -> lists_axes axes v -> v <> [] -> Forall2 (axis_denotes (ndim l)) v ax -> NoDup ax ->
  size (l_shape l) <> 0%nat -> o <> OB -> tree_within tree (row_major (pick ax 0%nat (l_shape l))) ->
  exists it parts sxs, axes_iter_new dflt l axes o = Ok it /\ par_axes tree it = Ok parts /\
    Permutation sxs (row_major (pick ax 0%nat (l_shape l))) /\
    (o = OC -> sxs = row_major (pick ax 0%nat (l_shape l))) /\ (o = OF -> sxs = col_major (pick ax 0%nat (l_shape l))) /\
    Forall2 (Forall2 (shows_subarray l ax)) (leaves tree sxs) parts /\
    Permutation (flat_map (addrs RowMajor) (concat parts)) (addrs RowMajor l).
Proof. exact l_par_axes. Qed.
Example C117_axes_example : accepted pm_cube /\ tree_within (Node 3 Leaf (Node 4 Leaf Leaf)) (row_major (pick [2; 0]%nat 0%nat (l_shape pm_cube))) /\
  (let* it := axes_iter_new RowMajor pm_cube (AxVec [-1; 0]) OC in par_axes (Node 3 Leaf (Node 4 Leaf Leaf)) it) = Ok (map (map (mkLayout [3]%nat [4])) [[0; 12; 1]; [13; 2; 14; 3]; [15]]).
Proof. split; [apply pm_cube_ok|]. split; [cbn; lia|vm_compute; reflexivity]. Qed.
Print Assumptions C117_axes.

(** C117: a client that in parallel replaces every element x of every view it is handed by the parallel version of axes_iter_mut() by f(x) changes every element of the tensor exactly once and nothing else in the storage, in every interleaving of the workers. *)
Theorem C117_axes_mut : forall (T : Type) dflt (t : tensor T) f axes v ax o tree r, tensor_ok t -> injective (t_layout t) -> lists_axes axes v -> v <> [] -> Forall2 (axis_denotes (ndim (t_layout t))) v ax -> NoDup ax ->
  size (t_shape t) <> 0%nat -> o <> OB -> tree_within tree (row_major (pick ax 0%nat (t_shape t))) ->
  exists it, axes_iter_new dflt (t_layout t) axes o = Ok it /\ (par_axes_updates f tree it (t_data t) r ->
    exists d, r = Ok d /\ length d = length (t_data t) /\ (forall ix, valid (t_shape t) ix -> elem d (t_layout t) ix = option_map f (at_ t ix)) /\ (forall p, ~ In p (addrs RowMajor (t_layout t)) -> peek d p = peek (t_data t) p)).
Proof. exact l_par_axes_mut. Qed.
Example C117_axes_mut_example : tensor_ok pm_t /\ injective (t_layout pm_t) /\
  (exists it, axes_iter_new RowMajor (t_layout pm_t) (AxVal 1) OK = Ok it /\ par_axes_updates (fun x => 10 * x) (Node 1 Leaf Leaf) it (t_data pm_t) (Ok [10; 20; 30; 40; 50; 60])).
Proof. split; [apply pm_ok|]. split; [apply pm_injective|]. eexists. split; [vm_compute; reflexivity|]. unfold par_axes_updates. vm_compute par_axes. eexists. split; [symmetry; apply Permutation_rev|vm_compute; reflexivity]. Qed.
Print Assumptions C117_axes_mut.

(** C117: the parallel version of indexed_axes_iter() (and of the mutable one) hands every index of the chosen axes to exactly one worker, together with the view of the elements with that index. *)
Theorem C117_indexed_axes : forall dflt l axes v ax o tree, accepted l -> lists_axes axes v -> v <> [] -> Forall2 (axis_denotes (ndim l)) v ax -> NoDup ax ->
  size (l_shape l) <> 0%nat -> tree_within tree (enum o (pick ax 0%nat (l_shape l))) ->
  exists it parts, indexed_axes_new dflt l axes (match o with RowMajor => OC | ColMajor => OF end) = Ok it /\ par_indexed_axes tree it = Ok parts /\
    map (map fst) parts = leaves tree (enum o (pick ax 0%nat (l_shape l))) /\
    Forall (Forall (fun p => shows_subarray l ax (fst p) (snd p))) parts.
Proof. exact l_par_indexed_axes. Qed.
Example C117_indexed_axes_example : accepted pm_cube /\ (let* it := indexed_axes_new RowMajor pm_cube (AxVec [-1; 0]) OC in par_indexed_axes (Node 3 Leaf Leaf) it) =
  Ok [[([0; 0], mkLayout [3] [4%Z] 0); ([0; 1], mkLayout [3] [4%Z] 12); ([1; 0], mkLayout [3] [4%Z] 1)];
      [([1; 1], mkLayout [3] [4%Z] 13); ([2; 0], mkLayout [3] [4%Z] 2); ([2; 1], mkLayout [3] [4%Z] 14); ([3; 0], mkLayout [3] [4%Z] 3); ([3; 1], mkLayout [3] [4%Z] 15)]]%nat.
Proof. split; [apply pm_cube_ok|vm_compute; reflexivity]. Qed.
Print Assumptions C117_indexed_axes.
