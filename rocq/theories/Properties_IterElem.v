(** Property theorems about iterators over the elements of a tensor (C73, C74).  Statements use Spec.v, Spec_IterElem.v and the modelled entry points of
    M_IterElem.v only.  [dflt] is the default order of the build, [dev] that of the device, [k] tells static from dynamic dimensions. *)
From Verif Require Import Base Spec Spec_IterElem P_Index P_Iter M_Layout M_Rearr M_Iter M_Kernel M_Tensor M_Manip M_Mesh P_Strides P_Tensor M_IterElem Q_IterElem.
Local Open Scope Z_scope.

(** [[3; 2; 1]; [6; 5; 4]]: a row-major matrix with its columns reversed *)
Definition ix_t : tensor Z := mkTensor [1; 2; 3; 4; 5; 6] (mkLayout [2; 3]%nat [3; -1] 2).
Lemma ix_injective : injective (t_layout ix_t).
Proof. intros i j Vi Vj E. apply (in_enum RowMajor) in Vi, Vj. vm_compute in Vi, Vj. destruct Vi as [<-|[<-|[<-|[<-|[<-|[<-|[]]]]]]], Vj as [<-|[<-|[<-|[<-|[<-|[<-|[]]]]]]]; vm_compute in E; (reflexivity || discriminate). Qed.

(** C73: iter() hands out the elements of the tensor in the device's order: after any history of next, next_back and split_at (going on with either half), what was returned is what a double-ended queue of the elements returns, len() is the number of elements left and collecting yields exactly those. *)
Theorem C73_iter : forall (T : Type) dflt k dev (t : tensor T) ops, tensor_ok t -> fair ops (enum dev (t_shape t)) ->
  exists e outs e' rest, elems dflt k dev t = Ok e /\ run_elems k ops e = Ok (outs, e') /\ elem_collect e' = Ok rest /\ elem_len e' = Ok (length rest) /\
    map (option_map Some) outs = fst (deque ops (map (at_ t) (enum dev (t_shape t)))) /\ map Some rest = snd (deque ops (map (at_ t) (enum dev (t_shape t)))).
Proof. exact l_iter_elements. Qed.
Example C73_iter_example : tensor_ok ix_t /\ fair [Front; Back; KeepRight 1; Front] (enum RowMajor (t_shape ix_t)) /\
  (let* e := elems RowMajor Fixed RowMajor ix_t in let* r := run_elems Fixed [Front; Back; KeepRight 1; Front] e in let* rest := elem_collect (snd r) in Ok (fst r, rest)) = Ok ([Some 3; Some 4; Some 1], [6; 5]).
Proof. split; [concrete_tensor|]. split; [|vm_compute; reflexivity]. split; [cbn; lia|left; discriminate]. Qed.
Print Assumptions C73_iter.

(** C73: iter_with_order(o) hands out all elements: row by row for C, column by column for F, in the default order for A, in some order for K and G; B is rejected. *)
Theorem C73_iter_order : forall (T : Type) dflt k (t : tensor T) o, tensor_ok t ->
  match o with
  | OC => exists e xs, elems_with_order dflt k t o = Ok e /\ elem_collect e = Ok xs /\ map Some xs = map (at_ t) (enum RowMajor (t_shape t))
  | OF => exists e xs, elems_with_order dflt k t o = Ok e /\ elem_collect e = Ok xs /\ map Some xs = map (at_ t) (enum ColMajor (t_shape t))
  | OA => exists e xs, elems_with_order dflt k t o = Ok e /\ elem_collect e = Ok xs /\ map Some xs = map (at_ t) (enum dflt (t_shape t))
  | OK | OG => exists e xs, elems_with_order dflt k t o = Ok e /\ elem_collect e = Ok xs /\ Permutation (map Some xs) (map (at_ t) (enum RowMajor (t_shape t)))
  | OB => elems_with_order dflt k t o = Err InvalidValue
  end.
Proof. exact l_iter_order. Qed.
Example C73_iter_order_example : (let* e := elems_with_order RowMajor Fixed ix_t OF in elem_collect e) = Ok [3; 6; 2; 5; 1; 4] /\ (let* e := elems_with_order RowMajor Fixed ix_t OK in elem_collect e) = Ok [1; 2; 3; 4; 5; 6].
Proof. split; vm_compute; reflexivity. Qed.
Print Assumptions C73_iter_order.

(** C73: indexed_iter() gives next() the index and the element at that index, in order; the elements given by next_back() are right as well.  Missing: the index that next_back() gives, see the next theorem but one. *)
Theorem C73_indexed_iter_partial : forall (T : Type) dflt k o (t : tensor T) ops, tensor_ok t -> Forall (fun op => op = Front \/ op = Back) ops ->
  exists e outs e', indexed_elems_with_order dflt k t (match o with RowMajor => OC | ColMajor => OF end) = Ok e /\ run_indexed_elems ops e = Ok (outs, e') /\
    map (fun p => (fst p, Some (snd p))) (fronts ops outs) = fronts ops (fst (deque ops (map (fun ix => (ix, at_ t ix)) (enum o (t_shape t))))) /\
    map (option_map (fun p => Some (snd p))) outs = fst (deque ops (map (at_ t) (enum o (t_shape t)))).
Proof. exact l_indexed_elements_partial. Qed.
Example C73_indexed_iter_example : (let* e := indexed_elems_with_order RowMajor Fixed ix_t OF in let* r := run_indexed_elems [Front; Front; Front] e in Ok (fst r)) = Ok [Some ([0; 0]%nat, 3); Some ([1; 0]%nat, 6); Some ([0; 1]%nat, 2)].
Proof. vm_compute. reflexivity. Qed.
Print Assumptions C73_indexed_iter_partial.

(** C73: orders that do not fix the sequence of indices (A, K, G, B) are rejected by indexed_iter_with_order. *)
Theorem C73_indexed_iter_orders : forall (T : Type) dflt k (t : tensor T) o, o <> OC -> o <> OF -> indexed_elems_with_order dflt k t o = Err InvalidValue.
Proof. exact l_indexed_orders. Qed.
Example C73_indexed_iter_orders_example : indexed_elems_with_order RowMajor Fixed ix_t OK = Err InvalidValue.
Proof. reflexivity. Qed.
Print Assumptions C73_indexed_iter_orders.

(** C73: indexed_iter().rev() pairs every element with the index of the front: the elements of a 2 by 2 matrix all come with index [0, 0]. *)
Theorem C73_indexed_iter_reversed_refuted : exists (t : tensor Z) e outs e', tensor_ok t /\ indexed_elems_with_order RowMajor Fixed t OC = Ok e /\ run_indexed_elems [Back; Back; Back; Back] e = Ok (outs, e') /\
  outs = [Some ([0; 0]%nat, 4); Some ([0; 0]%nat, 3); Some ([0; 0]%nat, 2); Some ([0; 0]%nat, 1)] /\ map (at_ t) [[1; 1]; [1; 0]; [0; 1]; [0; 0]]%nat = [Some 4; Some 3; Some 2; Some 1].
Proof. exact l_indexed_reversed_refuted. Qed.
Print Assumptions C73_indexed_iter_reversed_refuted.

(** C74: a client that replaces every element it is handed by iter_mut() by f of it, with any history of next, next_back and split_at, changes exactly the elements handed out, each once, and nothing else in the storage. *)
Theorem C74_iter_mut : forall (T : Type) dflt k dev (t : tensor T) f ops, tensor_ok t -> injective (t_layout t) -> fair ops (enum dev (t_shape t)) ->
  exists e e', elems dflt k dev t = Ok e /\ run_updates k f ops e = Ok e' /\
    let t' := mkTensor (ei_view e') (t_layout t) in
    length (t_data t') = length (t_data t) /\
    (forall ix, valid (t_shape t) ix -> In ix (handed (fst (deque ops (enum dev (t_shape t))))) -> at_ t' ix = option_map f (at_ t ix)) /\
    (forall ix, valid (t_shape t) ix -> ~ In ix (handed (fst (deque ops (enum dev (t_shape t))))) -> at_ t' ix = at_ t ix) /\
    (forall p, ~ In p (addrs dev (t_layout t)) -> peek (t_data t') p = peek (t_data t) p).
Proof. exact l_iter_mut_elements. Qed.
Example C74_iter_mut_example : tensor_ok ix_t /\ injective (t_layout ix_t) /\
  (let* e := elems RowMajor Fixed RowMajor ix_t in let* r := run_updates Fixed (fun x => 10 * x) [Front; Back; KeepRight 1; Front] e in Ok (ei_view r)) = Ok [10; 2; 30; 40; 5; 6].
Proof. split; [concrete_tensor|]. split; [apply ix_injective|vm_compute; reflexivity]. Qed.
Print Assumptions C74_iter_mut.

(** C74: the parallel iterator over iter_mut() updates every element exactly once and nothing else, however the scheduler splits the work and interleaves the workers. *)
Theorem C74_par_iter_mut : forall (T : Type) dflt k dev (t : tensor T) f tree r, tensor_ok t -> injective (t_layout t) -> size (t_shape t) <> 0%nat -> tree_within tree (enum dev (t_shape t)) ->
  exists e, elems dflt k dev t = Ok e /\ (par_updates k f tree e r ->
    exists d, r = Ok d /\ length d = length (t_data t) /\ (forall ix, valid (t_shape t) ix -> elem d (t_layout t) ix = option_map f (at_ t ix)) /\ (forall p, ~ In p (addrs dev (t_layout t)) -> peek d p = peek (t_data t) p)).
Proof. exact l_par_iter_mut. Qed.
Example C74_par_iter_mut_example : tree_within (Node 4 (Node 1 Leaf Leaf) Leaf) (enum RowMajor (t_shape ix_t)) /\
  (exists e, elems RowMajor Fixed RowMajor ix_t = Ok e /\ par_updates Fixed (fun x => 10 * x) (Node 4 (Node 1 Leaf Leaf) Leaf) e (Ok [10; 20; 30; 40; 50; 60])).
Proof. split; [cbn; lia|]. eexists. split; [reflexivity|]. unfold par_updates. vm_compute run_tree. exists [2; 1; 0; 5; 4; 3]. split; [reflexivity|vm_compute; reflexivity]. Qed.
Print Assumptions C74_par_iter_mut.

(** C74: iter_mut() of a mutable view that was broadcast (into_broadcast accepts mutable views) hands out the same element of the storage several times: two live mutable references to it, and an update by x + 1 adds 2. *)
Theorem C74_iter_mut_broadcast_refuted : exists (t v : tensor Z) e e', tensor_ok v /\ tensor_broadcast RowMajor [2; 2]%nat v = Ok t /\ elems RowMajor Fixed RowMajor t = Ok e /\
  run_updates Fixed (fun x => x + 1) [Front; Front; Front; Front] e = Ok e' /\ at_ t [0; 0]%nat = Some 5 /\ at_ (mkTensor (ei_view e') (t_layout t)) [0; 0]%nat = Some (5 + 1 + 1).
Proof. exact l_iter_mut_broadcast_refuted. Qed.
Print Assumptions C74_iter_mut_broadcast_refuted.
