(** Property theorems about packing into fixed arrays (C45, C59).  Statements use Spec.v, Spec_Pack.v and the modelled entry points of
    M_Pack.v; [packable] lists the conditions the code checks and [others_fit] says that the stride of every other axis of extent
    above 1 is a multiple of N. *)
From Verif Require Import Base Spec Spec_Pack P_Index M_Layout M_Tensor M_Pack P_Strides P_Tensor P_Rearr Q_Pack.
Local Open Scope Z_scope.

(** C45: for every vector and N > 0, packing succeeds exactly if N divides the length; array q holds elements q*N .. q*N+N-1, and unpacking gives the vector back. *)
Theorem C45_pack : forall (T : Type) n (xs : list T), (0 < n)%nat ->
  (Nat.divide n (length xs) -> exists ys, pack_array_f n xs = Ok ys /\ unpack_array ys = xs /\ (length ys * n = length xs)%nat /\ Forall (fun y => length y = n) ys /\
     forall q r, (q < length ys)%nat -> (r < n)%nat -> exists y, nth_error ys q = Some y /\ nth_error y r = nth_error xs (q * n + r)%nat) /\
  (~ Nat.divide n (length xs) -> pack_array_f n xs = Err InvalidValue).
Proof. exact l_pack. Qed.
Example C45_example : pack_array_f 2 [1; 2; 3; 4; 5; 6] = Ok [[1; 2]; [3; 4]; [5; 6]] /\ pack_array_f 4 [1; 2; 3; 4; 5; 6] = Err InvalidValue /\ pack_array_f 3 (@nil Z) = Ok [].
Proof. repeat split; reflexivity. Qed.
Print Assumptions C45_pack.

(** C45: packing what was unpacked gives the arrays back. *)
Theorem C45_unpack_pack : forall (T : Type) n (ys : list (list T)), (0 < n)%nat -> Forall (fun y => length y = n) ys -> pack_array_f n (unpack_array ys) = Ok ys.
Proof. exact l_unpack. Qed.
Print Assumptions C45_unpack_pack.

(** C45: N = 0 panics (remainder by zero) although the function returns a Result. *)
Theorem C45_pack_zero_refuted : forall (T : Type) (xs : list T), pack_array_f 0 xs = Panic.
Proof. exact l_pack_zero_refuted. Qed.
Print Assumptions C45_pack_zero_refuted.

(** C59: into_pack_array::<N> of any tensor that meets the checks and whose other strides are multiples of N is the packed tensor; a tensor that fails a check is an error.  Missing: the other tensors (see the refutation), and empty tensors with a wrapped offset. *)
Theorem C59_into_pack_partial : forall (T : Type) n (t : tensor T) axis, tensor_ok t -> 0 <= l_offset (t_layout t) -> (0 < n)%nat ->
  (forall a, axis_denotes (length (t_shape t)) axis a -> packable n t a -> others_fit n t a -> exists r, into_pack_array_f n t axis = Ok r /\ tensor_ok r /\ packs n a t r) /\
  ((~ exists a, axis_denotes (length (t_shape t)) axis a /\ packable n t a) -> exists e, into_pack_array_f n t axis = Err e).
Proof. exact l_into_pack. Qed.
Example C59_example : tensor_ok (mkTensor [1; 2; 3; 4; 5; 6; 7; 8] (mkLayout [2; 2]%nat [1; 4] 2)) /\ packable 2 (mkTensor [1; 2; 3; 4; 5; 6; 7; 8] (mkLayout [2; 2]%nat [1; 4] 2)) 0 /\ others_fit 2 (mkTensor [1; 2; 3; 4; 5; 6; 7; 8] (mkLayout [2; 2]%nat [1; 4] 2)) 0 /\
  into_pack_array_f 2 (mkTensor [1; 2; 3; 4; 5; 6; 7; 8] (mkLayout [2; 2]%nat [1; 4] 2)) 0 = Ok (mkTensor [[1; 2]; [3; 4]; [5; 6]; [7; 8]] (mkLayout [2]%nat [2] 1)).
Proof. split; [concrete_tensor|]. split. { split; [reflexivity|]. split; [reflexivity|]. split; [exists 1; reflexivity|exists 4%nat; reflexivity]. } split; [|reflexivity]. intros [|[|b]] H1 H2; cbn in *; [congruence| |lia]. right. exists 2. reflexivity. Qed.
Print Assumptions C59_into_pack_partial.

(** C59: as soon as another axis has extent above 1 and a stride that is not a multiple of N, the call succeeds and returns a tensor with wrong elements (for every tensor with distinct stored values). *)
Theorem C59_into_pack_refuted : forall (T : Type) n (t : tensor T) axis a b, tensor_ok t -> NoDup (t_data t) -> size (t_shape t) <> 0%nat -> axis_denotes (length (t_shape t)) axis a -> packable n t a ->
  (b < length (t_shape t))%nat -> b <> a -> (1 < nth b (t_shape t) 0)%nat -> ~ (Z.of_nat n | nth b (l_stride (t_layout t)) 0) ->
  exists r, into_pack_array_f n t axis = Ok r /\ ~ packs n a t r.
Proof. exact l_into_pack_refuted. Qed.
Example C59_example_stride : tensor_ok (mkTensor [1; 2; 3; 4; 5; 6] (mkLayout [2; 2]%nat [3; 1] 0)) /\ packable 2 (mkTensor [1; 2; 3; 4; 5; 6] (mkLayout [2; 2]%nat [3; 1] 0)) 1 /\ into_pack_array_f 2 (mkTensor [1; 2; 3; 4; 5; 6] (mkLayout [2; 2]%nat [3; 1] 0)) 1 = Ok (mkTensor [[1; 2]; [3; 4]; [5; 6]] (mkLayout [2]%nat [1] 0)).
Proof. split; [concrete_tensor|]. split; [|reflexivity]. split; [reflexivity|]. split; [reflexivity|]. split; [exists 0; reflexivity|exists 3%nat; reflexivity]. Qed.
Print Assumptions C59_into_pack_refuted.

(** C59: into_unpack_array of any tensor of arrays of length N puts the array elements on a new axis. *)
Theorem C59_into_unpack : forall (T : Type) n (t : tensor (list T)) axis, tensor_ok t -> (0 < n)%nat -> Forall (fun y => length y = n) (t_data t) ->
  (forall a, insert_denotes (length (t_shape t)) axis a -> exists r, into_unpack_array_f n t axis = Ok r /\ tensor_ok r /\ packs n a r t) /\
  ((~ exists a, insert_denotes (length (t_shape t)) axis a) -> exists e, into_unpack_array_f n t axis = Err e).
Proof. exact l_into_unpack. Qed.
Example C59_example_unpack : into_unpack_array_f 2 (mkTensor [[1; 2]; [3; 4]; [5; 6]] (mkLayout [2]%nat [-2] 2)) (-1) = Ok (mkTensor [1; 2; 3; 4; 5; 6] (mkLayout [2; 2]%nat [-4; 1] 4)).
Proof. reflexivity. Qed.
Print Assumptions C59_into_unpack.

(** C59: packing the axis that into_unpack_array created gives exactly the original tensor. *)
Theorem C59_unpack_pack : forall (T : Type) n (t : tensor (list T)) a r, tensor_ok t -> 0 <= l_offset (t_layout t) -> (0 < n)%nat -> Forall (fun y => length y = n) (t_data t) -> (a <= length (t_shape t))%nat ->
  into_unpack_array_f n t (Z.of_nat a) = Ok r -> into_pack_array_f n r (Z.of_nat a) = Ok t.
Proof. exact l_unpack_pack. Qed.
Print Assumptions C59_unpack_pack.

(** C59: unpacking what into_pack_array packed gives the original storage, shape and elements. *)
Theorem C59_pack_unpack : forall (T : Type) n (t : tensor T) a r u, tensor_ok t -> 0 <= l_offset (t_layout t) -> (0 < n)%nat -> (a < length (t_shape t))%nat -> packable n t a -> others_fit n t a ->
  into_pack_array_f n t (Z.of_nat a) = Ok r -> into_unpack_array_f n r (Z.of_nat a) = Ok u -> t_data u = t_data t /\ t_shape u = t_shape t /\ forall ix, valid (t_shape t) ix -> at_ u ix = at_ t ix.
Proof. exact l_pack_unpack. Qed.
Print Assumptions C59_pack_unpack.
