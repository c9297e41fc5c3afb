(** Property theorems about elementwise operations, assignment, copies and their parallel versions (C26-C28, C44, C53,
    C55).  Statements use Spec.v and the modelled entry points of M_Layout.v, M_Kernel.v and M_Tensor.v only. *)
From Verif Require Import Base Spec P_Index M_Layout M_Broadcast M_Reshape M_Rearr M_Kernel M_Tensor P_Tensor Q_Kernel Q_Tensor Q_Copy.
Local Open Scope Z_scope.

(** C26: [&a op &b] (and mapb) succeeds exactly on broadcastable shapes and computes f of the broadcast elements at every index; the result is a well-formed tensor. *)
Theorem C26_binary : forall (A B C : Type) k o (g : A -> B -> C) (a : tensor A) (b : tensor B), tensor_ok a -> tensor_ok b ->
  match op_refa_refb_func k o g a b with
  | Ok c => tensor_ok c /\ broadcasts o (t_shape a) (t_shape b) (t_shape c) /\
      forall ix, valid (t_shape c) ix -> exists x y,
        at_ a (source_index o (t_shape a) ix) = Some x /\ at_ b (source_index o (t_shape b) ix) = Some y /\ at_ c ix = Some (g x y)
  | Err _ => forall s, ~ broadcasts o (t_shape a) (t_shape b) s
  | Panic => False
  end.
Proof. exact l_binary. Qed.
(** a reversed, transposed operand with a broadcast row *)
Definition ex_a : tensor Z := mkTensor [1; 2; 3; 4; 5; 6; 7] (mkLayout [2; 3]%nat [-1; 2] 2).
Definition ex_b : tensor Z := mkTensor [10; 20; 30] (mkLayout [3]%nat [1] 0).
Example C26_example : tensor_ok ex_a /\ tensor_ok ex_b /\ op_refa_refb_func Fixed RowMajor Z.sub ex_a ex_b = Ok (mkTensor [-7; -15; -23; -8; -16; -24] (mkLayout [2; 3]%nat [3; 1] 0)).
Proof. split; [concrete_tensor|]. split; [concrete_tensor|]. reflexivity. Qed.
Print Assumptions C26_binary.

(** C26: the same for comparisons and two-operand math functions. *)
Theorem C26_binary_common : forall (A B C : Type) k dflt o (g : A -> B -> C) (a : tensor A) (b : tensor B), tensor_ok a -> tensor_ok b ->
  match op_common k dflt o g a b with
  | Ok c => tensor_ok c /\ broadcasts o (t_shape a) (t_shape b) (t_shape c) /\
      forall ix, valid (t_shape c) ix -> exists x y,
        at_ a (source_index o (t_shape a) ix) = Some x /\ at_ b (source_index o (t_shape b) ix) = Some y /\ at_ c ix = Some (g x y)
  | Err _ => forall s, ~ broadcasts o (t_shape a) (t_shape b) s
  | Panic => False
  end.
Proof. exact l_common. Qed.
Example C26_example_common : op_common Fixed RowMajor ColMajor Z.leb ex_a (mkTensor [2; 6] (mkLayout [2]%nat [1] 0)) = Ok (mkTensor [false; true; false; true; false; true] (mkLayout [2; 3]%nat [1; 2] 0)).
Proof. reflexivity. Qed.
Print Assumptions C26_binary_common.

(** C26: the same when the left operand is owned and its storage may be reused. *)
Theorem C26_binary_owned_left : forall (A B : Type) k o (g : A -> B -> A) (a : tensor A) (b : tensor B), tensor_ok a -> tensor_ok b ->
  match op_consume_l k o g a b with
  | Ok c => tensor_ok c /\ broadcasts o (t_shape a) (t_shape b) (t_shape c) /\
      forall ix, valid (t_shape c) ix -> exists x y,
        at_ a (source_index o (t_shape a) ix) = Some x /\ at_ b (source_index o (t_shape b) ix) = Some y /\ at_ c ix = Some (g x y)
  | Err _ => forall s, ~ broadcasts o (t_shape a) (t_shape b) s
  | Panic => False
  end.
Proof. exact l_consume_l. Qed.
Example C26_example_owned : op_consume_l Fixed RowMajor Z.sub ex_a ex_b = Ok (mkTensor [1; -8; -7; -16; -15; -24; -23] (t_layout ex_a)).
Proof. reflexivity. Qed.
Print Assumptions C26_binary_owned_left.

(** C26: the same when the right operand is owned. *)
Theorem C26_binary_owned_right : forall (A B : Type) k o (g : A -> B -> B) (a : tensor A) (b : tensor B), tensor_ok a -> tensor_ok b ->
  match op_consume_r k o g a b with
  | Ok c => tensor_ok c /\ broadcasts o (t_shape a) (t_shape b) (t_shape c) /\
      forall ix, valid (t_shape c) ix -> exists x y,
        at_ a (source_index o (t_shape a) ix) = Some x /\ at_ b (source_index o (t_shape b) ix) = Some y /\ at_ c ix = Some (g x y)
  | Err _ => forall s, ~ broadcasts o (t_shape a) (t_shape b) s
  | Panic => False
  end.
Proof. exact l_consume_r. Qed.
Print Assumptions C26_binary_owned_right.

(** C26: the same when both operands are owned. *)
Theorem C26_binary_owned_both : forall (A : Type) k o (g : A -> A -> A) (a b : tensor A), tensor_ok a -> tensor_ok b ->
  match op_consume_lr k o g a b with
  | Ok c => tensor_ok c /\ broadcasts o (t_shape a) (t_shape b) (t_shape c) /\
      forall ix, valid (t_shape c) ix -> exists x y,
        at_ a (source_index o (t_shape a) ix) = Some x /\ at_ b (source_index o (t_shape b) ix) = Some y /\ at_ c ix = Some (g x y)
  | Err _ => forall s, ~ broadcasts o (t_shape a) (t_shape b) s
  | Panic => False
  end.
Proof. exact l_consume_lr. Qed.
Print Assumptions C26_binary_owned_both.

(** C26: [&a op number]. *)
Theorem C26_scalar_right : forall (A B C : Type) k dflt (g : A -> B -> C) (a : tensor A) (b : B), tensor_ok a ->
  exists c, op_refa_numb k dflt g a b = Ok c /\ tensor_ok c /\ t_shape c = t_shape a /\ forall ix, valid (t_shape a) ix -> exists x, at_ a ix = Some x /\ at_ c ix = Some (g x b).
Proof. exact l_scalar_rhs. Qed.
Print Assumptions C26_scalar_right.

(** C26: [number op &b], operand order preserved. *)
Theorem C26_scalar_left : forall (A B C : Type) k dflt (g : A -> B -> C) (a : A) (b : tensor B), tensor_ok b ->
  exists c, op_numa_refb k dflt g a b = Ok c /\ tensor_ok c /\ t_shape c = t_shape b /\ forall ix, valid (t_shape b) ix -> exists x, at_ b ix = Some x /\ at_ c ix = Some (g a x).
Proof. exact l_scalar_lhs. Qed.
Example C26_example_scalar : op_numa_refb Fixed RowMajor Z.sub 100 ex_a = Ok (mkTensor [97; 98; 95; 96; 93; 94] (mkLayout [2; 3]%nat [1; 2] 0)).
Proof. reflexivity. Qed.
Print Assumptions C26_scalar_left.

(** C26: owned tensor with a number, and [a op= number]: every element of the view is updated exactly once (also through broadcast axes), nothing else is touched. *)
Theorem C26_scalar_in_place : forall (A B : Type) k (g : A -> B -> A) (a : tensor A) (b : B), tensor_ok a ->
  exists a', op_muta_numb_f k g a b = Ok a' /\ t_layout a' = t_layout a /\ untouched_outside (t_layout a) (t_data a) (t_data a') /\
    forall ix, valid (t_shape a) ix -> exists x, at_ a ix = Some x /\ at_ a' ix = Some (g x b).
Proof. exact l_inplace_scalar. Qed.
Print Assumptions C26_scalar_in_place.

(** C26: unary operator on an owned tensor. *)
Theorem C26_unary_in_place : forall (A : Type) k (g : A -> A) (a : tensor A), tensor_ok a ->
  exists a', op_muta_func k g a = Ok a' /\ t_layout a' = t_layout a /\ untouched_outside (t_layout a) (t_data a) (t_data a') /\
    forall ix, valid (t_shape a) ix -> exists x, at_ a ix = Some x /\ at_ a' ix = Some (g x).
Proof. exact l_inplace_unary. Qed.
Print Assumptions C26_unary_in_place.

(** C26: elementwise update of a view without aliasing elements from a broadcast operand; rejected exactly when the operand does not broadcast to the view's shape. *)
Theorem C26_binary_in_place : forall (A B : Type) k o (g : A -> B -> A) (a : tensor A) (b : tensor B), tensor_ok a -> tensor_ok b -> injective (t_layout a) ->
  match op_muta_refb_func k o g a b with
  | Ok a' => broadcasts o (t_shape a) (t_shape b) (t_shape a) /\ t_layout a' = t_layout a /\ untouched_outside (t_layout a) (t_data a) (t_data a') /\
      forall ix, valid (t_shape a) ix -> exists x y, at_ a ix = Some x /\ at_ b (source_index o (t_shape b) ix) = Some y /\ at_ a' ix = Some (g x y)
  | Err _ => ~ broadcasts o (t_shape a) (t_shape b) (t_shape a)
  | Panic => False
  end.
Proof. exact l_inplace_binary. Qed.
Print Assumptions C26_binary_in_place.

(** C26: [a op= &b]. *)
Theorem C26_op_assign : forall (A B : Type) k o (g : A -> B -> A) (a : tensor A) (b : tensor B), tensor_ok a -> tensor_ok b -> injective (t_layout a) ->
  match op_assign k o g a b with
  | Ok a' => broadcasts o (t_shape a) (t_shape b) (t_shape a) /\ t_layout a' = t_layout a /\ untouched_outside (t_layout a) (t_data a) (t_data a') /\
      forall ix, valid (t_shape a) ix -> exists x y, at_ a ix = Some x /\ at_ b (source_index o (t_shape b) ix) = Some y /\ at_ a' ix = Some (g x y)
  | Err _ => ~ broadcasts o (t_shape a) (t_shape b) (t_shape a)
  | Panic => False
  end.
Proof. exact l_op_assign. Qed.
Example C26_example_assign : injective (t_layout ex_a) /\ op_assign Fixed RowMajor Z.sub ex_a ex_b = Ok (mkTensor [1; -8; -7; -16; -15; -24; -23] (t_layout ex_a)).
Proof. split; [|reflexivity]. intros i j Vi Vj. repeat (apply valid_cons_inv in Vi as (? & ? & -> & ? & Vi)). repeat (apply valid_cons_inv in Vj as (? & ? & -> & ? & Vj)). apply valid_nil in Vi, Vj. subst. unfold addr. cbn [t_layout ex_a l_offset l_stride dot]. intro E. f_equal; [lia|]. f_equal. lia. Qed.
Print Assumptions C26_op_assign.

(** C26: why the in-place theorems need a view without aliasing elements: [a op= &b] accepts a broadcast target and then applies the operation several times to one cell. *)
Theorem C26_op_assign_alias_refuted : exists (a b a' : tensor Z), tensor_ok a /\ tensor_ok b /\ t_shape a = t_shape b /\ op_assign Fixed RowMajor Z.add a b = Ok a' /\
  exists ix x y, valid (t_shape a) ix /\ at_ a ix = Some x /\ at_ b ix = Some y /\ at_ a' ix <> Some (x + y).
Proof. exact l_op_assign_alias_refuted. Qed.
Print Assumptions C26_op_assign_alias_refuted.

(** C26: operations writing to a given output view (with_output). *)
Theorem C26_with_output : forall (A B C : Type) k o (g : C -> A -> B -> C) (c : tensor C) (a : tensor A) (b : tensor B), tensor_ok c -> tensor_ok a -> tensor_ok b -> injective (t_layout c) ->
  match op_mutc_refa_refb_func k o g c a b with
  | Ok c' => broadcasts o (t_shape c) (t_shape a) (t_shape c) /\ broadcasts o (t_shape c) (t_shape b) (t_shape c) /\
      t_layout c' = t_layout c /\ untouched_outside (t_layout c) (t_data c) (t_data c') /\
      forall ix, valid (t_shape c) ix -> exists x y z, at_ c ix = Some x /\
        at_ a (source_index o (t_shape a) ix) = Some y /\ at_ b (source_index o (t_shape b) ix) = Some z /\ at_ c' ix = Some (g x y z)
  | Err _ => ~ (broadcasts o (t_shape c) (t_shape a) (t_shape c) /\ broadcasts o (t_shape c) (t_shape b) (t_shape c))
  | Panic => False
  end.
Proof. exact l_with_output. Qed.
Print Assumptions C26_with_output.

(** C27: assignment writes exactly the target view with the broadcast source, rejects broadcast targets and incompatible shapes and never panics.  Missing: a source that broadcasts together with the target to a larger shape is not rejected, see the next theorem. *)
Theorem C27_assign_partial : forall (A B : Type) k o (cast : B -> A) (a : tensor A) (b : tensor B), tensor_ok a -> tensor_ok b ->
  match assign_f k o cast a b with
  | Ok a' => ~ In 0 (l_stride (t_layout a)) /\ (exists s, broadcasts o (t_shape a) (t_shape b) s) /\ t_layout a' = t_layout a /\
      (broadcasts o (t_shape a) (t_shape b) (t_shape a) ->
        untouched_outside (t_layout a) (t_data a) (t_data a') /\
        forall ix, valid (t_shape a) ix -> exists y, at_ b (source_index o (t_shape b) ix) = Some y /\ at_ a' ix = Some (cast y))
  | Err _ => In 0 (l_stride (t_layout a)) \/ ~ broadcasts o (t_shape a) (t_shape b) (t_shape a)
  | Panic => False
  end.
Proof. exact l_assign. Qed.
Example C27_example : assign_f Fixed RowMajor (fun x : Z => x) ex_a ex_b = Ok (mkTensor [1; 10; 10; 20; 20; 30; 30] (t_layout ex_a)) /\ broadcasts RowMajor (t_shape ex_a) (t_shape ex_b) (t_shape ex_a).
Proof. split; [reflexivity|]. split; [reflexivity|]. intros [|[|k]]; cbn; auto. Qed.
Print Assumptions C27_assign_partial.

(** C27: a source larger than the target is accepted (the last repeated write wins) instead of being rejected. *)
Theorem C27_enlarging_source_refuted : exists (a b a' : tensor Z), tensor_ok a /\ tensor_ok b /\ ~ broadcasts RowMajor (t_shape a) (t_shape b) (t_shape a) /\ assign_f Fixed RowMajor (fun x : Z => x) a b = Ok a' /\ t_data a' <> t_data a.
Proof. exact l_assign_grow_refuted. Qed.
Print Assumptions C27_enlarging_source_refuted.

(** C28: fill sets every element of the view, leaves everything else alone, and is refused only for a layout with a zero stride. *)
Theorem C28_fill : forall (A B : Type) k (cast : B -> A) (a : tensor A) (v : B), tensor_ok a ->
  match fill_f k cast a v with
  | Ok a' => t_layout a' = t_layout a /\ untouched_outside (t_layout a) (t_data a) (t_data a') /\ (forall ix, valid (t_shape a) ix -> at_ a' ix = Some (cast v))
  | Err _ => In 0 (l_stride (t_layout a))
  | Panic => False
  end.
Proof. exact l_fill. Qed.
Example C28_example : fill_f Fixed (fun x : Z => x) ex_a 9 = Ok (mkTensor [1; 9; 9; 9; 9; 9; 9] (t_layout ex_a)).
Proof. reflexivity. Qed.
Print Assumptions C28_fill.

(** C28: a freshly created empty dynamic-dimension tensor has a zero stride, so fill is refused although no element aliases. *)
Theorem C28_fill_empty_refuted : exists (a : tensor Z), tensor_ok a /\ t_layout a = new_contig Dyn [2; 0]%nat 0 RowMajor /\ injective (t_layout a) /\ exists e, fill_f Dyn (fun x : Z => x) a 7 = Err e.
Proof. exact l_fill_empty_refuted. Qed.
Print Assumptions C28_fill_empty_refuted.

(** C44: copying into a fresh tensor keeps shape and elements; C (F) order yields a row-major (column-major) contiguous copy. *)
Theorem C44_asarray : forall (A : Type) k dflt (a : tensor A) ord, tensor_ok a -> ord = OC \/ ord = OF \/ ord = OA \/ ord = OK ->
  exists c, asarray k dflt a ord = Ok c /\ tensor_ok c /\ t_shape c = t_shape a /\ length (t_data c) = size (t_shape a) /\ (forall ix, valid (t_shape a) ix -> at_ c ix = at_ a ix) /\
    (ord = OC -> addrs RowMajor (t_layout c) = consecutive 0 (size (t_shape a))) /\ (ord = OF -> addrs ColMajor (t_layout c) = consecutive 0 (size (t_shape a))).
Proof. exact l_asarray. Qed.
Example C44_example : asarray Fixed RowMajor ex_a OC = Ok (mkTensor [3; 5; 7; 2; 4; 6] (mkLayout [2; 3]%nat [3; 1] 0)).
Proof. reflexivity. Qed.
Print Assumptions C44_asarray.

(** C44: the same for an owned source, whose storage may be reused. *)
Theorem C44_asarray_owned : forall (A : Type) k dflt (a : tensor A) ord, tensor_ok a -> ord = OC \/ ord = OF \/ ord = OA \/ ord = OK ->
  exists c, asarray_owned k dflt a ord = Ok c /\ tensor_ok c /\ t_shape c = t_shape a /\ (forall ix, valid (t_shape a) ix -> at_ c ix = at_ a ix) /\
    (ord = OC -> addrs RowMajor (t_layout c) = consecutive 0 (size (t_shape a))) /\ (ord = OF -> addrs ColMajor (t_layout c) = consecutive 0 (size (t_shape a))).
Proof. exact l_asarray_owned. Qed.
Print Assumptions C44_asarray_owned.

(** C44: to_owned / into_owned keep shape and elements and leave exactly one storage cell per element. *)
Theorem C44_into_owned : forall (A : Type) k dflt (a : tensor A), tensor_ok a ->
  exists c, into_owned k dflt a = Ok c /\ tensor_ok c /\ t_shape c = t_shape a /\ (forall ix, valid (t_shape a) ix -> at_ c ix = at_ a ix) /\ length (t_data c) = size (t_shape a).
Proof. exact l_into_owned. Qed.
Print Assumptions C44_into_owned.

(** C44: to_vec of a one-dimensional tensor lists its elements in order. *)
Theorem C44_to_vec : forall (A : Type) (a : tensor A), tensor_ok a ->
  match to_vec a with
  | Ok v => exists n, t_shape a = [n] /\ length v = n /\ forall i, (i < n)%nat -> nth_error v i = at_ a [i]
  | Err _ => length (t_shape a) <> 1%nat
  | Panic => False
  end.
Proof. exact l_to_vec. Qed.
Example C44_example_vec : to_vec (mkTensor [1; 2; 3; 4; 5] (mkLayout [3]%nat [-2] 4)) = Ok [5; 3; 1].
Proof. reflexivity. Qed.
Print Assumptions C44_to_vec.

(** C44: into_vec of an owned tensor likewise, with or without copying. *)
Theorem C44_into_vec : forall (A : Type) (a : tensor A), tensor_ok a ->
  match into_vec a with
  | Ok v => exists n, t_shape a = [n] /\ length v = n /\ forall i, (i < n)%nat -> nth_error v i = at_ a [i]
  | Err _ => length (t_shape a) <> 1%nat
  | Panic => False
  end.
Proof. exact l_into_vec. Qed.
Print Assumptions C44_into_vec.

(** C44: to_scalar returns the only element and fails exactly when there is not exactly one. *)
Theorem C44_to_scalar : forall (A : Type) (a : tensor A), tensor_ok a ->
  match to_scalar a with
  | Ok v => size (t_shape a) = 1%nat /\ forall ix, valid (t_shape a) ix -> at_ a ix = Some v
  | Err _ => size (t_shape a) <> 1%nat
  | Panic => False
  end.
Proof. exact l_to_scalar. Qed.
Print Assumptions C44_to_scalar.

(** C44: conversion to a layout without gaps keeps the elements, matched by rank in the device order.  Missing: layouts with gaps (next theorem), and empty tensors whose offset points outside the storage. *)
Theorem C44_to_layout_partial : forall (A : Type) k o (a : tensor A) l, tensor_ok a -> accepted l -> Permutation (addrs RowMajor l) (consecutive 0 (size (l_shape l))) -> l_offset l = 0 ->
  size (t_shape a) <> 0%nat \/ 0 <= l_offset (t_layout a) <= Z.of_nat (length (t_data a)) ->
  match change_layout k o a l with
  | Ok c => tensor_ok c /\ t_layout c = l /\ (length (t_data c) = size (l_shape l) \/ t_data c = t_data a) /\ forall i j, same_rank o (l_shape l) (t_shape a) i j -> at_ c i = at_ a j
  | Err _ => size (l_shape l) <> size (t_shape a)
  | Panic => False
  end.
Proof. exact l_change_layout. Qed.
Example C44_example_layout : accepted (mkLayout [2; 3]%nat [1; 2] 0) /\ Permutation (addrs RowMajor (mkLayout [2; 3]%nat [1; 2] 0)) (consecutive 0 6)
   /\ change_layout Fixed RowMajor ex_a (mkLayout [2; 3]%nat [1; 2] 0) = Ok (mkTensor [3; 2; 5; 4; 7; 6] (mkLayout [2; 3]%nat [1; 2] 0)).
Proof. split; [repeat split; cbn; lia|]. split; [|reflexivity]. apply (P_Rearr.contig_perm Fixed [2; 3]%nat ColMajor). Qed.
Print Assumptions C44_to_layout_partial.

(** C44: a target layout with gaps leaves storage cells uninitialised, which the code then declares initialised. *)
Theorem C44_to_layout_gap_refuted : exists (a : tensor Z) l, tensor_ok a /\ accepted l /\ l_shape l = t_shape a /\ change_layout Fixed RowMajor a l = Panic.
Proof. exact l_change_layout_gap_refuted. Qed.
Print Assumptions C44_to_layout_gap_refuted.

(** C44: to_contig keeps shape and elements and produces a contiguous layout.  Missing: empty views whose offset is outside the storage. *)
Theorem C44_to_contig_partial : forall (A : Type) k o (a : tensor A) ord, tensor_ok a -> size (t_shape a) <> 0%nat \/ 0 <= l_offset (t_layout a) <= Z.of_nat (length (t_data a)) ->
  exists c, change_contig k o a ord = Ok c /\ tensor_ok c /\ t_shape c = t_shape a /\ addrs ord (t_layout c) = consecutive 0 (size (t_shape a)) /\
    (length (t_data c) = size (t_shape a) \/ t_data c = t_data a) /\ forall ix, valid (t_shape a) ix -> at_ c ix = at_ a ix.
Proof. exact l_change_contig. Qed.
Print Assumptions C44_to_contig_partial.

(** C44: to_contig of an empty view whose offset lies past the end of the storage panics. *)
Theorem C44_to_contig_empty_refuted : exists (a : tensor Z), tensor_ok a /\ size (t_shape a) = 0%nat /\ change_contig Fixed RowMajor a RowMajor = Panic.
Proof. exact l_change_contig_empty_refuted. Qed.
Print Assumptions C44_to_contig_empty_refuted.

(** C44: to_prefer keeps shape and elements and gives a layout ordered as requested.  Missing: as for to_contig. *)
Theorem C44_to_prefer_partial : forall (A : Type) k o (a : tensor A) ord, tensor_ok a -> size (t_shape a) <> 0%nat \/ 0 <= l_offset (t_layout a) <= Z.of_nat (length (t_data a)) ->
  exists c, change_prefer k o a ord = Ok c /\ tensor_ok c /\ t_shape c = t_shape a /\ (size (t_shape a) <> 0%nat -> ordered ord (t_layout c)) /\
    forall ix, valid (t_shape a) ix -> at_ c ix = at_ a ix.
Proof. exact l_change_prefer. Qed.
Print Assumptions C44_to_prefer_partial.

(** C15: the layout of a reshape without copying passes the checks of Layout::new when that of the source does. *)
Theorem C15_reshape_accepted : forall o l shape l', accepted l -> layout_reshapeable l shape o = Ok (Some l') -> accepted l'.
Proof. exact l_reshape_accepted. Qed.
Print Assumptions C15_reshape_accepted.

(** C44: reshape (as a view or with a copy) yields the requested shape and keeps the elements, matched by rank in the requested order.  Missing: a forced copy does not check the size (next theorem) and of an empty tensor needs its offset within the storage; the excluded pairs of -1 and 0 (C16). *)
Theorem C44_reshape_partial : forall (A : Type) k (a : tensor A) shape ord copy, tensor_ok a -> ~ (In (-1) shape /\ In 0 shape) ->
  (copy = Some true -> size (t_shape a) <> 0%nat \/ 0 <= l_offset (t_layout a) <= Z.of_nat (length (t_data a))) ->
  match change_shape k a shape ord copy with
  | Ok c => fills shape (t_shape c) /\ (copy <> Some true -> size (t_shape c) = size (t_shape a)) /\
      (size (t_shape c) = size (t_shape a) -> tensor_ok c /\ forall i j, same_rank ord (t_shape c) (t_shape a) i j -> at_ c i = at_ a j)
  | Err _ => copy = Some false \/ (exists v, In v shape /\ v < -1) \/ (2 <= count_occ Z.eq_dec shape (-1)%Z)%nat \/ (forall s, fills shape s -> size s <> size (t_shape a))
  | Panic => copy = Some true /\ exists s, fills shape s /\ size s <> size (t_shape a)
  end.
Proof. exact l_change_shape. Qed.
Example C44_example_reshape : change_shape Fixed ex_a [3; -1] RowMajor None = Ok (mkTensor [3; 5; 7; 2; 4; 6] (mkLayout [3; 2]%nat [2; 1] 0)) /\ change_shape Fixed ex_a [2; 1; 3] RowMajor (Some false) = Ok (mkTensor [1; 2; 3; 4; 5; 6; 7] (mkLayout [2; 1; 3]%nat [-1; 6; 2] 2)).
Proof. split; reflexivity. Qed.
Print Assumptions C44_reshape_partial.

(** C44: with a forced copy a shape of a different size is accepted and elements are lost. *)
Theorem C44_reshape_truncates_refuted : exists (a c : tensor Z) shape, tensor_ok a /\ change_shape Fixed a shape RowMajor (Some true) = Ok c /\ (forall s, fills shape s -> size s <> size (t_shape a)).
Proof. exact l_change_shape_truncates_refuted. Qed.
Print Assumptions C44_reshape_truncates_refuted.

(** C53: the parallel binary kernel gives the serial result under every schedule when output elements do not alias. *)
Theorem C53_binary : forall (A B C : Type) pool k (c : list C) lc (a : list A) la (b : list B) lb (f : C -> A -> B -> C) r,
  accepted lc -> accepted la -> accepted lb -> l_shape la = l_shape lc -> l_shape lb = l_shape lc ->
  inside lc (length c) -> inside la (length a) -> inside lb (length b) -> injective lc ->
  op_mutc_refa_refb_rayon pool k c lc a la b lb f r -> r = op_mutc_refa_refb k c lc a la b lb f.
Proof. exact l_rayon_binary. Qed.
(** a schedule that runs the six element steps backwards *)
Example C53_example : let l := mkLayout [2; 3]%nat [-3; 1] 3 in let d := [1; 2; 3; 4; 5; 6] in
  exists r, joint_par Fixed [l; l; l] (cell3 d d (fun _ x y => x + 10 * y)) d r /\ r = Ok [11; 22; 33; 44; 55; 66] /\ r = op_mutc_refa_refb Fixed d l d l d l (fun _ x y => x + 10 * y).
Proof. eexists. split; [|split; reflexivity]. unfold joint_par. match goal with |- match ?e with Ok _ => _ | Err _ => _ | Panic => _ end => let v := eval vm_compute in e in change e with v end. cbv iota.
  match goal with |- in_some_order _ ?s _ _ => exists (rev s); split; [apply Permutation_sym, Permutation_rev|vm_compute; reflexivity] end. Qed.
Example C53_example_large : let l := mkLayout [64; 64]%nat [64; 1] 0 in accepted l /\ injective l /\ (4096 <=? Z.of_nat (l_size l)) = true.
Proof. cbv zeta. split; [repeat split; cbn; lia|]. split; [|reflexivity].
  intros i j Vi Vj. repeat (apply valid_cons_inv in Vi as (? & ? & -> & ? & Vi)). repeat (apply valid_cons_inv in Vj as (? & ? & -> & ? & Vj)). apply valid_nil in Vi, Vj. subst. unfold addr. cbn [l_offset l_stride dot]. intro E. f_equal; [lia|]. f_equal. lia. Qed.
Print Assumptions C53_binary.

(** C53: the parallel in-place binary kernel. *)
Theorem C53_in_place : forall (A B : Type) pool k (a : list A) la (b : list B) lb (f : A -> B -> A) r,
  accepted la -> accepted lb -> l_shape lb = l_shape la -> inside la (length a) -> inside lb (length b) -> injective la ->
  op_muta_refb_rayon pool k a la b lb f r -> r = op_muta_refb k a la b lb f.
Proof. exact l_rayon_inplace. Qed.
Print Assumptions C53_in_place.

(** C53: the parallel assignment kernel. *)
Theorem C53_assign : forall (A C : Type) pool k (cast : A -> C) (c : list C) lc (a : list A) la r,
  accepted lc -> accepted la -> l_shape la = l_shape lc -> inside lc (length c) -> inside la (length a) -> injective lc ->
  assign_rayon pool k cast c lc a la r -> r = assign k cast c lc a la.
Proof. exact l_rayon_assign. Qed.
Print Assumptions C53_assign.

(** C53: the parallel in-place map, also through broadcast axes. *)
Theorem C53_map : forall (A : Type) pool k (a : list A) la (f : A -> A) r, accepted la -> inside la (length a) ->
  op_muta_rayon pool k a la f r -> r = op_muta k a la f.
Proof. exact l_rayon_map. Qed.
Print Assumptions C53_map.

(** C53: the parallel fill, also through broadcast axes. *)
Theorem C53_fill : forall (A C : Type) pool k (cast : A -> C) (c : list C) lc v r, accepted lc -> inside lc (length c) ->
  fill_rayon pool k cast c lc v r -> r = fill k cast c lc v.
Proof. exact l_rayon_fill. Qed.
Print Assumptions C53_fill.

(** C55: map yields a well-formed tensor of the same shape holding f of every element. *)
Theorem C55_map : forall (A C : Type) k dflt (g : A -> C) (a : tensor A), tensor_ok a ->
  exists c, map_f k dflt g a = Ok c /\ tensor_ok c /\ t_shape c = t_shape a /\ forall ix, valid (t_shape a) ix -> exists x, at_ a ix = Some x /\ at_ c ix = Some (g x).
Proof. exact l_map. Qed.
Example C55_example : map_f Fixed RowMajor (fun x : Z => x * x) ex_a = Ok (mkTensor [9; 4; 25; 16; 49; 36] (mkLayout [2; 3]%nat [1; 2] 0)).
Proof. reflexivity. Qed.
Print Assumptions C55_map.

(** C55: mapi replaces every element of the view by f of it exactly once (also through broadcast axes) and touches nothing else. *)
Theorem C55_map_in_place : forall (A : Type) k (g : A -> A) (a : tensor A), tensor_ok a ->
  exists a', mapi_f k g a = Ok a' /\ t_layout a' = t_layout a /\ untouched_outside (t_layout a) (t_data a) (t_data a') /\
    forall ix, valid (t_shape a) ix -> exists x, at_ a ix = Some x /\ at_ a' ix = Some (g x).
Proof. exact l_mapi. Qed.
Example C55_example_in_place : mapi_f Fixed (fun x : Z => x * 10) (mkTensor [1; 2; 3] (mkLayout [2; 2]%nat [0; 2] 0)) = Ok (mkTensor [10; 2; 30] (mkLayout [2; 2]%nat [0; 2] 0)).
Proof. reflexivity. Qed.
Print Assumptions C55_map_in_place.
