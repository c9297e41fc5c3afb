(** Outputs that the BLAS devices can add to (C66). *)
From Verif Require Import Base Spec.
Local Open Scope Z_scope.

(** The strides of a stack of matrices: [x] and [y] along rows and columns, [ss] along the batch axes (which come first for row-major, last for column-major). *)
Definition matrix_strides (o : order) (ss : list Z) (x y : Z) : list Z := match o with RowMajor => ss ++ [x; y] | ColMajor => x :: y :: ss end.
Definition vector_strides (o : order) (ss : list Z) (x : Z) : list Z := match o with RowMajor => ss ++ [x] | ColMajor => x :: ss end.
(** Every matrix of the stack has a stride of 1 along one of its axes and a positive one along the other. *)
Definition unit_stride_matrices (o : order) (l : layout) : Prop :=
  exists ss s, 1 <= s /\ (l_stride l = matrix_strides o ss 1 s \/ l_stride l = matrix_strides o ss s 1).
(** Every vector of the stack has a positive stride. *)
Definition ascending_vectors (o : order) (l : layout) : Prop := exists ss s, 1 <= s /\ l_stride l = vector_strides o ss s.
