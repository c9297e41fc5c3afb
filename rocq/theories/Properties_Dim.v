(** Property theorems about dimension types (C122) and transposed stacks of matrices (C07).  Statements use Spec.v, Spec_Dim.v and M_Dim.v only. *)
From Verif Require Import Base Spec Spec_Dim M_Layout M_Tensor M_Dim P_Tensor Q_Dim.
Local Open Scope Z_scope.

(** a stack of two 2 by 3 matrices in column-major order *)
Definition dim_t : tensor Z := mkTensor [0; 1; 2; 3; 4; 5; 6; 7; 8; 9; 10; 11] (mkLayout [2; 2; 3]%nat [1; 2; 4] 0).
Lemma dim_t_ok : tensor_ok dim_t. Proof. unfold dim_t. concrete_tensor. Qed.

(** C122: conversion to a dimension type succeeds exactly for tensors with the number of axes of the type; otherwise the fallible form is an error and the other panics. *)
Theorem C122_dim_defined : forall T d d2 (t : tensor T), tensor_ok t -> fits d (length (t_shape t)) ->
  ((exists r, tensor_into_dim d d2 t = Ok r) <-> fits d2 (length (t_shape t))) /\
  (~ fits d2 (length (t_shape t)) -> tensor_into_dim d d2 t = Err InvalidLayout /\ tensor_into_dim_unwrap d d2 t = Panic).
Proof. exact l_dim_defined. Qed.
Example C122_dim_defined_example : tensor_ok dim_t /\ fits IxD (length (t_shape dim_t)) /\ fits (Ix 3) (length (t_shape dim_t)) /\ ~ fits (Ix 2) (length (t_shape dim_t)).
Proof. split; [exact dim_t_ok|]. cbn. repeat split. discriminate. Qed.
Print Assumptions C122_dim_defined.

(** C122: a converted tensor has the shape, elements, storage and layout of the tensor, and converts back. *)
Theorem C122_dim_elements : forall T d d2 (t r : tensor T), tensor_ok t -> fits d (length (t_shape t)) -> tensor_into_dim d d2 t = Ok r ->
  t_shape r = t_shape t /\ (forall ix, at_ r ix = at_ t ix) /\ t_data r = t_data t /\ t_layout r = t_layout t /\
  tensor_into_dim_unwrap d d2 t = Ok r /\ tensor_into_dim d2 d r = Ok t.
Proof. exact l_dim_elements. Qed.
Example C122_dim_elements_example : tensor_into_dim IxD (Ix 3) dim_t = Ok dim_t /\ tensor_into_dim (Ix 3) (Ix 2) dim_t = Err InvalidLayout. Proof. split; reflexivity. Qed.
Print Assumptions C122_dim_elements.

(** C122: conversion to the dynamic dimension never fails. *)
Theorem C122_into_dyn : forall T d (t : tensor T), tensor_ok t -> fits d (length (t_shape t)) ->
  exists r, tensor_into_dyn d t = Ok r /\ t_shape r = t_shape t /\ (forall ix, at_ r ix = at_ t ix) /\ t_data r = t_data t.
Proof. exact l_into_dyn. Qed.
Example C122_into_dyn_example : tensor_into_dyn (Ix 3) dim_t = Ok dim_t. Proof. reflexivity. Qed.
Print Assumptions C122_into_dyn.

(** C07: matrix_transpose accepts exactly the tensors with two or more axes. *)
Theorem C07_matrix_transpose_defined : forall T (t : tensor T), tensor_ok t ->
  ((exists r, matrix_transpose t = Ok r) <-> (2 <= length (t_shape t))%nat) /\ ((length (t_shape t) < 2)%nat -> matrix_transpose t = Err AxisError).
Proof. exact l_mT_defined. Qed.
Example C07_matrix_transpose_defined_example : tensor_ok dim_t /\ (2 <= length (t_shape dim_t))%nat /\ tensor_ok (mkTensor [5; 6] (mkLayout [2]%nat [1] 0)).
Proof. split; [exact dim_t_ok|]. split; [cbn; lia|]. concrete_tensor. Qed.
Print Assumptions C07_matrix_transpose_defined.

(** C07: matrix_transpose transposes every matrix of a stack and leaves the other axes as they are, on the same storage, and undoes itself. *)
Theorem C07_matrix_transpose : forall T (t r : tensor T) bs m n, tensor_ok t -> t_shape t = bs ++ [m; n] -> matrix_transpose t = Ok r ->
  t_shape r = bs ++ [n; m] /\ t_data r = t_data t /\
  (forall b i j, valid bs b -> (i < m)%nat -> (j < n)%nat -> at_ r (b ++ [j; i]) = at_ t (b ++ [i; j])) /\
  matrix_transpose r = Ok t.
Proof. exact l_mT. Qed.
Example C07_matrix_transpose_example : t_shape dim_t = ([2] ++ [2; 3])%nat /\ matrix_transpose dim_t = Ok (mkTensor (t_data dim_t) (mkLayout [2; 3; 2]%nat [1; 4; 2] 0)). Proof. split; reflexivity. Qed.
Print Assumptions C07_matrix_transpose.
