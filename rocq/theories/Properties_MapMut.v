(** Property theorems about the order of memory (C115) and about closures that keep a state (C116).  Statements use Spec.v,
    Spec_MapMut.v and the modelled entry points of M_Iter.v and M_MapMut.v only. *)
From Verif Require Import Base Spec M_Layout M_Indexer M_Broadcast M_Rearr M_Iter M_Kernel M_Tensor P_Index P_Bounds P_Strides P_Rearr P_BinOp P_Tensor P_KOrder M_MapMut Spec_MapMut Q_MapMut.
Local Open Scope Z_scope.

(** C115: iterating over any layout in the order K (or G) visits every position as often as the elements lie there, and in ascending order of memory, whatever the signs and the order of the strides. *)
Theorem C115_ascending : forall dflt k l o, accepted l -> o = OK \/ o = OG ->
  exists it ps, iter_layout_new dflt k l o = Ok it /\ collect it = Ok ps /\ Permutation ps (addrs RowMajor l) /\ StronglySorted Z.le ps.
Proof. exact l_k_ascending. Qed.
(** a view with a reversed axis, a permuted pair of axes and a broadcast axis *)
Definition mixed : layout := mkLayout [2; 2; 3]%nat [-1; 0; 4] 1.
Example C115_example : accepted mixed /\ (let* it := iter_layout_new RowMajor Dyn mixed OK in collect it) = Ok [0; 0; 1; 1; 4; 4; 5; 5; 8; 8; 9; 9].
Proof. split; [repeat split; cbn; lia|vm_compute; reflexivity]. Qed.
Print Assumptions C115_ascending.

(** C115: without broadcast axes, strictly ascending. *)
Theorem C115_strictly : forall dflt k l o, accepted l -> injective l -> o = OK \/ o = OG ->
  exists it ps, iter_layout_new dflt k l o = Ok it /\ collect it = Ok ps /\ Permutation ps (addrs RowMajor l) /\ StronglySorted Z.lt ps.
Proof. exact l_k_strictly. Qed.
Example C115_strictly_example : accepted (mkLayout [2; 3]%nat [-1; 4] 1) /\ (let* it := iter_layout_new RowMajor Fixed (mkLayout [2; 3]%nat [-1; 4] 1) OG in collect it) = Ok [0; 1; 4; 5; 8; 9].
Proof. split; [repeat split; cbn; lia|vm_compute; reflexivity]. Qed.
Print Assumptions C115_strictly.

(** C116: map_fnmut calls the closure exactly once for each element, passes its state from call to call, and writes what each call returns to the place of the element it was called on; the calls follow the memory of the result. *)
Theorem C116_map : forall (St A B : Type) k dflt (g : St -> A -> St * B) (s : St) (a : tensor A), tensor_ok a ->
  exists s' c ixs xs ys, map_fnmut k dflt g s a = Ok (s', c) /\ tensor_ok c /\ t_shape c = t_shape a /\
    Permutation ixs (row_major (t_shape a)) /\ map (at_ a) ixs = map Some xs /\ called g s xs s' ys /\ map (at_ c) ixs = map Some ys /\ t_data c = ys.
Proof. exact l_map_fnmut. Qed.
(** a matrix stored by columns, with a closure that numbers the elements *)
Definition by_columns : tensor Z := mkTensor [10; 20; 30; 40; 50; 60] (mkLayout [2; 3]%nat [1; 2] 0).
Definition numbered (n x : Z) : Z * Z := (n + 1, x + n).
Lemma by_columns_ok : tensor_ok by_columns. Proof. concrete_tensor. Qed.
Example C116_map_example : tensor_ok by_columns /\ map_fnmut Dyn RowMajor numbered 0 by_columns = Ok (6, mkTensor [10; 21; 32; 43; 54; 65] (mkLayout [2; 3]%nat [1; 2] 0)) /\
  called numbered 0 [10; 20; 30] 3 [10; 21; 32].
Proof. split; [apply by_columns_ok|]. split; [vm_compute; reflexivity|]. repeat (econstructor; [reflexivity|]). constructor. Qed.
Print Assumptions C116_map.

(** C116: mapi_fnmut calls the closure exactly once for each cell of memory that the tensor has elements in (once for all elements of a broadcast axis), passes its state from call to call, writes what each call returns to the cell it was called on, and leaves all other cells alone. *)
Theorem C116_map_in_place : forall (St A : Type) k (g : St -> A -> St * A) (s : St) (a : tensor A), tensor_ok a ->
  exists s' a' ps xs ys, mapi_fnmut k g s a = Ok (s', a') /\ t_layout a' = t_layout a /\ length (t_data a') = length (t_data a) /\
    NoDup ps /\ (forall p, In p ps <-> exists ix, valid (t_shape a) ix /\ addr (t_layout a) ix = p) /\
    map (peek (t_data a)) ps = map Some xs /\ called g s xs s' ys /\ map (peek (t_data a')) ps = map Some ys /\
    (forall p, ~ In p ps -> peek (t_data a') p = peek (t_data a) p).
Proof. exact l_mapi_fnmut. Qed.
(** every second cell, backwards, repeated along the first axis *)
Definition backwards : tensor Z := mkTensor [10; 20; 30; 40; 50] (mkLayout [2; 3]%nat [0; -2] 4).
Lemma backwards_ok : tensor_ok backwards. Proof. concrete_tensor. Qed.
Example C116_map_in_place_example : tensor_ok backwards /\ mapi_fnmut Dyn numbered 1 backwards = Ok (4, mkTensor [13; 20; 32; 40; 51] (mkLayout [2; 3]%nat [0; -2] 4)).
Proof. split; [apply backwards_ok|vm_compute; reflexivity]. Qed.
Print Assumptions C116_map_in_place.

(** C116: mapb_fnmut of two tensors without broadcast axes of their own calls the closure exactly once for each element of the broadcast shape, on the operands that broadcasting names, passes its state from call to call, and writes what each call returns to that element; it fails exactly when the shapes cannot be broadcast. *)
Theorem C116_map_two : forall (St A B C : Type) k o (g : St -> A -> B -> St * C) (s : St) (a : tensor A) (b : tensor B), tensor_ok a -> tensor_ok b -> injective (t_layout a) -> injective (t_layout b) ->
  match mapb_fnmut k o g s a b with
  | Ok (s', c) => tensor_ok c /\ broadcasts o (t_shape a) (t_shape b) (t_shape c) /\
      exists ixs xs zs ys, Permutation ixs (row_major (t_shape c)) /\
        map (fun ix => at_ a (source_index o (t_shape a) ix)) ixs = map Some xs /\ map (fun ix => at_ b (source_index o (t_shape b) ix)) ixs = map Some zs /\
        called (fun st p => g st (fst p) (snd p)) s (combine xs zs) s' ys /\ map (at_ c) ixs = map Some ys
  | Err _ => forall sh, ~ broadcasts o (t_shape a) (t_shape b) sh
  | Panic => False
  end.
Proof. exact l_mapb_fnmut. Qed.
Definition row3 : tensor Z := mkTensor [1; 2; 3] (mkLayout [3]%nat [1] 0).
Lemma row3_ok : tensor_ok row3. Proof. concrete_tensor. Qed.
Definition summed (n x y : Z) : Z * Z := (n + x, x + y).
Lemma by_columns_injective : injective (t_layout by_columns).
Proof. intros i j Vi Vj. repeat (apply valid_cons_inv in Vi as (? & ? & -> & ? & Vi)). apply valid_nil in Vi. subst. repeat (apply valid_cons_inv in Vj as (? & ? & -> & ? & Vj)). apply valid_nil in Vj. subst. unfold addr. cbn [by_columns t_layout l_offset l_stride dot]. intro E. repeat f_equal; lia. Qed.
Lemma row3_injective : injective (t_layout row3).
Proof. intros i j Vi Vj. repeat (apply valid_cons_inv in Vi as (? & ? & -> & ? & Vi)). apply valid_nil in Vi. subst. repeat (apply valid_cons_inv in Vj as (? & ? & -> & ? & Vj)). apply valid_nil in Vj. subst. unfold addr. cbn [row3 t_layout l_offset l_stride dot]. intro E. repeat f_equal; lia. Qed.
Example C116_map_two_example : tensor_ok by_columns /\ tensor_ok row3 /\ injective (t_layout by_columns) /\ injective (t_layout row3) /\
  exists l, mapb_fnmut Dyn RowMajor summed 0 by_columns row3 = Ok (210, mkTensor [11; 32; 53; 21; 42; 63] l).
Proof. split; [apply by_columns_ok|]. split; [apply row3_ok|]. split; [apply by_columns_injective|]. split; [apply row3_injective|]. eexists. vm_compute. reflexivity. Qed.
Print Assumptions C116_map_two.

(** C116, false for operands that are both broadcast along an axis: the result is laid out with one cell for all elements along it, the closure is called for each of them, and the last call overwrites what the others returned. *)
Theorem C116_map_two_refuted : exists (a b : tensor Z) (g : Z -> Z -> Z -> Z * Z) (s s' : Z) (c : tensor Z), tensor_ok a /\ tensor_ok b /\ t_shape a = [2]%nat /\ t_shape b = [2]%nat /\
  mapb_fnmut Dyn RowMajor g s a b = Ok (s', c) /\
  ~ exists ixs xs zs ys, Permutation ixs (row_major (t_shape c)) /\ called (fun st p => g st (fst p) (snd p)) s (combine xs zs) s' ys /\ map (at_ c) ixs = map Some ys.
Proof. exact l_mapb_repeated_refuted. Qed.
Print Assumptions C116_map_two_refuted.
