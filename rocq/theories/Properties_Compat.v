(** Property theorems about reshaping without a copy (C78, and completeness for C15).  Statements use Spec.v, M_Layout.v, M_Reshape.v, M_Tensor.v and M_Compat.v. *)
From Verif Require Import Base Spec P_List M_Layout P_Layout M_Reshape P_Reshape P_Reshape3 Q_Reshape M_Kernel M_Tensor M_Compat P_Tensor Q_Compat.
Local Open Scope Z_scope.

(** every second column of a 4 by 6 matrix, rows in reverse order *)
Definition cp_t : tensor nat := mkTensor (seq 0 24) (mkLayout [4; 3]%nat [-6; 2] 18).
Lemma cp_ok : tensor_ok cp_t. Proof. unfold cp_t. cbn [seq]. concrete_tensor. Qed.

(** C15, completeness: when reshape reports that a layout has no strided view of the new shape (so that it must copy), no strides and offset at all give the elements in the required order. *)
Theorem C15_reshape_complete : forall o l shape l', wf l -> layout_reshapeable l shape o = Ok None -> length (l_stride l') = length (l_shape l') -> l_shape l' = shape -> addrs o l' <> addrs o l.
Proof. exact l_reshape_complete. Qed.
Example C15_reshape_complete_example : wf (t_layout cp_t) /\ layout_reshapeable (t_layout cp_t) [2; 6]%nat RowMajor = Ok None /\
  layout_reshapeable (t_layout cp_t) [2; 2; 3; 1]%nat RowMajor = Ok (Some (mkLayout [2; 2; 3; 1]%nat [-12; -6; 2; 2] 18)).
Proof. split; [apply cp_ok|]. split; vm_compute; reflexivity. Qed.
Print Assumptions C15_reshape_complete.

(** C15: if any layout over the same storage has a shape of the requested form and the elements in the requested order, reshape shares the storage. *)
Theorem C15_no_needless_copy : forall (A : Type) k (a : tensor A) shape ord l', tensor_ok a -> ~ (In (-1) shape /\ In 0 shape) -> (count_occ Z.eq_dec shape (-1)%Z <= 1)%nat ->
  fills shape (l_shape l') -> length (l_stride l') = length (l_shape l') -> addrs ord l' = addrs ord (t_layout a) ->
  exists c, change_shape k a shape ord None = Ok c /\ t_data c = t_data a.
Proof. exact l_reshape_no_needless_copy. Qed.
Example C15_no_needless_copy_example : let l' := mkLayout [2; 2; 3]%nat [-12; -6; 2] 18 in fills [2; -1; 3] (l_shape l') /\ addrs RowMajor l' = addrs RowMajor (t_layout cp_t) /\
  change_shape Fixed cp_t [2; -1; 3] RowMajor None = Ok (mkTensor (seq 0 24) l') /\
  change_shape Fixed cp_t [2; -1] RowMajor None = Ok (mkTensor [18; 20; 22; 12; 14; 16; 6; 8; 10; 0; 2; 4]%nat (mkLayout [2; 6]%nat [6; 1] 0)).
Proof. split; [repeat constructor; cbn; lia|]. repeat split; vm_compute; reflexivity. Qed.
Print Assumptions C15_no_needless_copy.

(** C78: into_compatible_shape / to_compatible_shape never panics and never copies: on success the storage is the input's and elements keep their rank; on error either the shape has several -1, or no strided view of the storage with a shape of the requested form has these elements in this order. *)
Theorem C78_compatible : forall (A : Type) (a : tensor A) shape ord, tensor_ok a -> ~ (In (-1) shape /\ In 0 shape) ->
  match into_compatible_shape a shape ord with
  | Ok c => t_data c = t_data a /\ tensor_ok c /\ fills shape (t_shape c) /\ size (t_shape c) = size (t_shape a) /\ forall i j, same_rank ord (t_shape c) (t_shape a) i j -> at_ c i = at_ a j
  | Err _ => (2 <= count_occ Z.eq_dec shape (-1)%Z)%nat \/
      forall l', fills shape (l_shape l') -> length (l_stride l') = length (l_shape l') -> addrs ord l' <> addrs ord (t_layout a)
  | Panic => False
  end.
Proof. exact l_compatible. Qed.
Example C78_compatible_example : tensor_ok cp_t /\ ~ (In (-1) [2; -1; 3] /\ In 0 [2; -1; 3]) /\
  into_compatible_shape cp_t [2; -1; 3] RowMajor = Ok (mkTensor (seq 0 24) (mkLayout [2; 2; 3]%nat [-12; -6; 2] 18)) /\
  into_compatible_shape cp_t [-1; 6] RowMajor = Err InvalidLayout /\ into_compatible_shape cp_t [5; -1] RowMajor = Err InvalidValue.
Proof. split; [exact cp_ok|]. split; [cbn; lia|]. repeat split; vm_compute; reflexivity. Qed.
Print Assumptions C78_compatible.

(** C78: into_shape_assume_contig keeps the storage and the rank of every element, and fails exactly for a shape of another size or a layout whose elements are not consecutive in the device's order. *)
Theorem C78_assume_contig : forall (A : Type) k dflt (a : tensor A) s, tensor_ok a -> 0 <= l_offset (t_layout a) ->
  match into_shape_assume_contig k dflt a s with
  | Ok c => t_data c = t_data a /\ tensor_ok c /\ t_shape c = s /\ size s = size (t_shape a) /\ forall i j, same_rank dflt s (t_shape a) i j -> at_ c i = at_ a j
  | Err _ => size s <> size (t_shape a) \/ size s <> 0%nat /\ addrs dflt (t_layout a) <> consecutive (l_offset (t_layout a)) (size (t_shape a))
  | Panic => False
  end.
Proof. exact l_assume_contig. Qed.
Example C78_assume_contig_example : let a := mkTensor (seq 0 9) (mkLayout [2; 4]%nat [4; 1] 1) in tensor_ok a /\ 0 <= l_offset (t_layout a) /\
  into_shape_assume_contig Fixed RowMajor a [4; 2]%nat = Ok (mkTensor (seq 0 9) (mkLayout [4; 2]%nat [2; 1] 1)) /\
  into_shape_assume_contig Fixed ColMajor a [4; 2]%nat = Err InvalidLayout /\ into_shape_assume_contig Fixed RowMajor a [3; 2]%nat = Err InvalidLayout.
Proof. split; [cbn [seq]; concrete_tensor|]. split; [cbn; lia|]. repeat split; vm_compute; reflexivity. Qed.
Print Assumptions C78_assume_contig.
