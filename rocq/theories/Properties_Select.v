(** Property theorems about index_select, take and bool_select (C41).  Statements use Spec.v, Spec_Select.v and the modelled entry
    points of M_Select.v only. *)
From Verif Require Import Base Spec Spec_Select P_Index M_Layout M_Rearr M_Iter M_Kernel M_Tensor M_Select P_Strides P_Tensor P_Rearr Q_Select.
Local Open Scope Z_scope.

(** C41: for every tensor (any layout, broadcast included), axis and list of indices with repetitions and negative entries, index_select gathers the named positions of the axis; an axis or an index out of range is an error, never a panic.  Missing: the empty list on an empty axis, see the refutation. *)
Theorem C41_index_select_partial : forall (T : Type) k o (t : tensor T) axis idx, tensor_ok t ->
  (forall a, axis_denotes (length (t_shape t)) axis a -> Forall (fun i => exists p, index_denotes i (nth a (t_shape t) 0%nat) p) idx -> idx <> [] \/ nth a (t_shape t) 0%nat <> 0%nat ->
     exists r, index_select_f k o t axis idx = Ok r /\ tensor_ok r /\ gathers a idx t r) /\
  ((~ exists a, axis_denotes (length (t_shape t)) axis a /\ Forall (fun i => exists p, index_denotes i (nth a (t_shape t) 0%nat) p) idx) -> exists e, index_select_f k o t axis idx = Err e).
Proof. exact l_index_select. Qed.
Example C41_example : tensor_ok (mkTensor [1; 2; 3; 4; 5; 6] (mkLayout [2; 3]%nat [1; 2] 0)) /\ index_select_f Dyn RowMajor (mkTensor [1; 2; 3; 4; 5; 6] (mkLayout [2; 3]%nat [1; 2] 0)) (-1) [2; -2; 2; 0] = Ok (mkTensor [5; 3; 5; 1; 6; 4; 6; 2] (mkLayout [2; 4]%nat [4; 1] 0)) /\
  index_select_f Dyn ColMajor (mkTensor [1; 2; 3; 4; 5; 6] (mkLayout [2; 3]%nat [1; 2] 0)) (-1) [2; -2] = Ok (mkTensor [5; 6; 3; 4] (mkLayout [2; 2]%nat [1; 2] 0)) /\ index_select_f Dyn RowMajor (mkTensor [1; 2; 3; 4; 5; 6] (mkLayout [2; 3]%nat [1; 2] 0)) 1 [0; -4] = Err IndexError.
Proof. split; [concrete_tensor|]. repeat split; vm_compute; reflexivity. Qed.
Print Assumptions C41_index_select_partial.

(** C41: the specification determines the shape and every element of the result. *)
Theorem C41_gathers_unique : forall (T : Type) a idx (t r1 r2 : tensor T), gathers a idx t r1 -> gathers a idx t r2 -> t_shape r1 = t_shape r2 /\ forall jx, valid (t_shape r1) jx -> at_ r1 jx = at_ r2 jx.
Proof. exact l_gathers_unique. Qed.
Print Assumptions C41_gathers_unique.

(** C41: on an axis of extent 0 the empty selection, which is the tensor itself, is rejected with an index error. *)
Theorem C41_empty_axis_refuted : forall (T : Type) k o (t : tensor T) axis a, tensor_ok t -> axis_denotes (length (t_shape t)) axis a -> nth a (t_shape t) 0%nat = 0%nat ->
  gathers a [] t t /\ index_select_f k o t axis [] = Err IndexError.
Proof. exact l_empty_index_refuted. Qed.
Example C41_example_empty : tensor_ok (mkTensor (@nil Z) (mkLayout [2; 0]%nat [0; 1] 0)) /\ axis_denotes 2 1 1 /\ index_select_f Dyn RowMajor (mkTensor (@nil Z) (mkLayout [2; 0]%nat [0; 1] 0)) 1 [] = Err IndexError.
Proof. split; [concrete_tensor|]. split; [split; lia|vm_compute; reflexivity]. Qed.
Print Assumptions C41_empty_axis_refuted.

(** C41: take is index_select with its arguments exchanged. *)
Theorem C41_take : forall (T : Type) k o (t : tensor T) axis idx, take_f k o t idx axis = index_select_f k o t axis idx.
Proof. exact l_take. Qed.
Print Assumptions C41_take.

(** C41: bool_select gathers exactly the true positions, in increasing order; a true position outside the axis is an error.  The mask may have any length: a short one is padded with false, a long one is accepted as long as the excess is false.  Missing: an axis of extent 0. *)
Theorem C41_bool_select_partial : forall (T : Type) k o (t : tensor T) axis mask, tensor_ok t ->
  (forall a, axis_denotes (length (t_shape t)) axis a -> (forall i, nth i mask false = true -> (i < nth a (t_shape t) 0)%nat) -> nth a (t_shape t) 0%nat <> 0%nat ->
     exists r, bool_select_f k o t axis mask = Ok r /\ tensor_ok r /\ gathers a (map Z.of_nat (trues mask)) t r) /\
  ((~ exists a, axis_denotes (length (t_shape t)) axis a /\ forall i, nth i mask false = true -> (i < nth a (t_shape t) 0)%nat) -> exists e, bool_select_f k o t axis mask = Err e).
Proof. exact l_bool_select. Qed.
Example C41_example_mask : bool_select_f Dyn RowMajor (mkTensor [1; 2; 3] (mkLayout [3]%nat [1] 0)) 0 [true; false; true] = Ok (mkTensor [1; 3] (mkLayout [2]%nat [1] 0)) /\ bool_select_f Dyn RowMajor (mkTensor [1; 2; 3] (mkLayout [3]%nat [1] 0)) 0 [true; false; true; false; false] = Ok (mkTensor [1; 3] (mkLayout [2]%nat [1] 0)) /\ bool_select_f Dyn RowMajor (mkTensor [1; 2; 3] (mkLayout [3]%nat [1] 0)) 0 [false; true] = Ok (mkTensor [2] (mkLayout [1]%nat [1] 0)) /\ bool_select_f Dyn RowMajor (mkTensor [1; 2; 3] (mkLayout [3]%nat [1] 0)) 0 [true; false; true; true] = Err IndexError.
Proof. repeat split; vm_compute; reflexivity. Qed.
Print Assumptions C41_bool_select_partial.

(** C41: gathering all positions of an axis in order is the identity. *)
Theorem C41_select_all : forall (T : Type) a (t : tensor T), tensor_ok t -> (a < length (t_shape t))%nat -> gathers a (map Z.of_nat (seq 0 (nth a (t_shape t) 0%nat))) t t.
Proof. exact l_gathers_all. Qed.
Print Assumptions C41_select_all.

(** C41: gathering along the same axis twice is gathering once with the composed list of indices. *)
Theorem C41_select_twice : forall (T : Type) a i1 i2 i3 (t r s : tensor T), (a < length (t_shape t))%nat -> gathers a i1 t r -> gathers a i2 r s ->
  length i3 = length i2 -> (forall p, (p < length i2)%nat -> exists q, index_denotes (nth p i2 0) (length i1) q /\ nth p i3 0 = nth q i1 0) -> gathers a i3 t s.
Proof. exact l_gathers_twice. Qed.
Example C41_example_twice : (let* r := index_select_f Dyn RowMajor (mkTensor [1; 2; 3] (mkLayout [3]%nat [1] 0)) 0 [2; 2; 0; -2] in index_select_f Dyn RowMajor r 0 [-1; 0]) = index_select_f Dyn RowMajor (mkTensor [1; 2; 3] (mkLayout [3]%nat [1] 0)) 0 [-2; 2].
Proof. vm_compute. reflexivity. Qed.
Print Assumptions C41_select_twice.

(** C41/C27: with threads, in any order of the writes, index_select returns what the serial device returns. *)
Theorem C41_rayon : forall (T : Type) pool k o (t : tensor T) axis idx r, tensor_ok t -> index_select_rayon pool k o t axis idx r -> r = index_select_f k o t axis idx.
Proof. exact l_select_rayon. Qed.
Example C41_example_rayon : exists r, index_select_rayon true Dyn RowMajor (mkTensor [1; 2; 3] (mkLayout [3]%nat [1] 0)) 0 [] r.
Proof. eexists. unfold index_select_rayon. cbn. eexists. split; [|reflexivity]. unfold select_kernel_rayon. cbn. unfold select_par. cbn. apply Permutation.Permutation_refl || (eexists; split; [apply Permutation.Permutation_refl|reflexivity]). Qed.
Print Assumptions C41_rayon.
