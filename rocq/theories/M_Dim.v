(** Dimension types of layouts and tensors and conversions between them (rstsr-common/src/layout/layoutbase.rs:618-677,
    rstsr-core/src/tensor/manipulation/into_dim.rs), and the transposed matrices of a stack (rstsr-core/src/tensor/linalg/matrix_transpose.rs). *)
From Verif Require Import Base Spec Spec_Dim M_Layout M_Tensor.
Local Open Scope Z_scope.

(** The two families of dimension types ([dimtype], Spec_Dim.v) are [Ix<N>] = [[usize; N]] and [IxD] = [Vec<usize>], dim.rs:6-18. *)
(** DimBaseAPI::const_ndim, dim.rs:65-68, 91-94 *)
Definition const_ndim (d : dimtype) : option nat := match d with Ix n => Some n | IxD => None end.
(** [Vec<_>::try_into] for the array [[_; n]] and for [Vec<_>]: an array takes vectors of its length only (standard library). *)
Definition try_into {A} (d : dimtype) (v : list A) : option (list A) :=
  match d with
  | Ix n => if (length v =? n)%nat then Some v else None
  | IxD => Some v
  end.
Definition or_layout_error {A} (o : option A) : res A := match o with Some x => Ok x | None => Err InvalidLayout end.
Definition unwrapped {A} (o : option A) : res A := match o with Some x => Ok x | None => Panic end.
(** DimIntoAPI::into_dim of [d] to [d2], layoutbase.rs:627-661.  A layout of the type [Layout<Ix<N>>] has [N] axes; the layouts here carry their type beside them. *)
Definition into_dim (d d2 : dimtype) (l : layout) : res layout :=
  match d, d2 with
  | IxD, _ =>
    let* sh := or_layout_error (try_into d2 (l_shape l)) in
    let* st := or_layout_error (try_into d2 (l_stride l)) in
    Ok (mkLayout sh st (l_offset l))
  | Ix _, IxD => Ok (mkLayout (l_shape l) (l_stride l) (l_offset l))
  | Ix n, Ix m =>
    if negb (n =? m)%nat then Err InvalidLayout else
    let* sh := unwrapped (try_into d2 (l_shape l)) in
    let* st := unwrapped (try_into d2 (l_stride l)) in
    Ok (mkLayout sh st (l_offset l))
  end.
(** into_dim_f, tensor/manipulation/into_dim.rs:6-14; to_dim_f (:127-136) is the same on the view of the tensor, which shares its storage *)
Definition tensor_into_dim {T} (d d2 : dimtype) (t : tensor T) : res (tensor T) :=
  let* l := into_dim d d2 (t_layout t) in Ok (mkTensor (t_data t) l).
(** into_dim (:142-150) and to_dim (:113-122): rstsr_unwrap of the above *)
Definition tensor_into_dim_unwrap {T} (d d2 : dimtype) (t : tensor T) : res (tensor T) :=
  match tensor_into_dim d d2 t with Ok x => Ok x | _ => Panic end.
(** into_dyn (:167-172) and to_dyn (:155-162) *)
Definition tensor_into_dyn {T} (d : dimtype) (t : tensor T) : res (tensor T) := tensor_into_dim_unwrap d IxD t.

(** into_swapaxes_f, tensor/manipulation/transpose.rs:448-458: the layout changes, the storage stays *)
Definition tensor_swapaxes {T} (t : tensor T) (a b : Z) : res (tensor T) :=
  let* l := swapaxes (t_layout t) a b in Ok (mkTensor (t_data t) l).
(** into_matrix_transpose_f, matrix_transpose.rs:8-13 *)
Definition matrix_transpose {T} (t : tensor T) : res (tensor T) := tensor_swapaxes t (-1) (-2).
