(** Property theorems about eye, diag, full, zeros, ones and linspace (C47, C58).  Statements use Spec.v, Spec_Creation.v and the
    modelled entry points of M_Creation.v and M_Concat.v only. *)
From Coq Require Import QArith.
From Verif Require Import Base Spec Spec_Creation P_Index M_Layout M_Rearr M_Iter M_Kernel M_Tensor M_Concat M_Creation P_Strides P_Tensor P_Rearr P_Creation Q_Creation.
Local Open Scope Z_scope.

(** C47: eye(n, m, k) has ones exactly where j - i = k, zeros elsewhere, and shape [n, m].  Missing: column-major rectangular matrices and the diagonals [diag_ok] leaves out, see the refutations. *)
Theorem C47_eye_partial : forall (T : Type) (zero one : T) n m k o, o = RowMajor \/ n = m -> diag_ok n m k ->
  exists r, eye_f zero one n m k o = Ok r /\ tensor_ok r /\ t_shape r = [n; m] /\
    forall i j, (i < n)%nat -> (j < m)%nat -> at_ r [i; j] = Some (if Z.of_nat j - Z.of_nat i =? k then one else zero).
Proof. exact l_eye. Qed.
Example C47_example_eye : diag_ok 3 4 (-1) /\ eye_f 0 1 3 4 (-1) RowMajor = Ok (mkTensor [0; 0; 0; 0; 1; 0; 0; 0; 0; 1; 0; 0] (mkLayout [3; 4]%nat [4; 1] 0)) /\ eye_f 0 1 2 2 1 ColMajor = Ok (mkTensor [0; 0; 1; 0] (mkLayout [2; 2]%nat [1; 2] 0)) /\ diag_ok 3 3 100.
Proof. split; [split; lia|]. split; [vm_compute; reflexivity|]. split; [vm_compute; reflexivity|split; lia]. Qed.
Print Assumptions C47_eye_partial.

(** C47: in column-major order eye(n, m, k) has the shape [m, n] for every n <> m. *)
Theorem C47_eye_column_refuted : forall (T : Type) (zero one : T) n m k, n <> m -> diag_ok m n k ->
  exists r, eye_f zero one n m k ColMajor = Ok r /\ t_shape r = [m; n] /\ t_shape r <> [n; m].
Proof. exact l_eye_column_refuted. Qed.
Example C47_example_column : eye_f 0 1 2 3 1 ColMajor = Ok (mkTensor [0; 0; 0; 1; 0; 0] (mkLayout [3; 2]%nat [1; 3] 0)).
Proof. vm_compute. reflexivity. Qed.
Print Assumptions C47_eye_column_refuted.

(** C47: eye(2, 5, 3) is the zero matrix although (0, 3) and (1, 4) should be 1, and eye(5, 2, 3), which should be the zero matrix, fails. *)
Theorem C47_eye_offset_refuted : (exists r : tensor Z, eye_f 0 1 2 5 3 RowMajor = Ok r /\ at_ r [0; 3]%nat = Some 0) /\ (forall r : tensor Z, eye_f 0 1 5 2 3 RowMajor <> Ok r).
Proof. exact l_eye_offset_refuted. Qed.
Print Assumptions C47_eye_offset_refuted.

(** C47: diag of a vector, of any layout and for any offset k, is the square matrix with the vector on its k-th diagonal and the default value elsewhere. *)
Theorem C47_diag_vector : forall (T : Type) (dflt : T) o (t : tensor T) n k, tensor_ok t -> t_shape t = [n] ->
  exists r, diag_f dflt o t k = Ok r /\ tensor_ok r /\ let N := (n + Z.abs_nat k)%nat in t_shape r = [N; N] /\
    forall i j, (i < N)%nat -> (j < N)%nat -> at_ r [i; j] = if Z.of_nat j - Z.of_nat i =? k then at_ t [Nat.min i j] else Some dflt.
Proof. exact l_diag_vector. Qed.
Example C47_example_diag : tensor_ok (mkTensor [6; 5; 4] (mkLayout [2]%nat [-2] 2)) /\ diag_f 0 RowMajor (mkTensor [6; 5; 4] (mkLayout [2]%nat [-2] 2)) (-1) = Ok (mkTensor [0; 0; 0; 4; 0; 0; 0; 6; 0] (mkLayout [3; 3]%nat [3; 1] 0)).
Proof. split; [concrete_tensor|vm_compute; reflexivity]. Qed.
Print Assumptions C47_diag_vector.

(** C47: diag of a matrix is the vector of its k-th diagonal, in order.  Missing: the diagonals [diag_ok] leaves out, where Layout::diagonal is wrong (C04). *)
Theorem C47_diag_matrix_partial : forall (T : Type) (dflt : T) o (t : tensor T) m n k, tensor_ok t -> t_shape t = [m; n] -> diag_ok m n k ->
  exists r, diag_f dflt o t k = Ok r /\ tensor_ok r /\ t_shape r = [diag_len m n k] /\
    forall p, (p < diag_len m n k)%nat -> at_ r [p] = at_ t [p + diag_row k; p + diag_col k]%nat /\ exists x, at_ r [p] = Some x.
Proof. exact l_diag_matrix. Qed.
Example C47_example_matrix : diag_ok 2 3 1 /\ diag_len 2 3 1 = 2%nat /\ diag_f 0 RowMajor (mkTensor [1; 2; 3; 4; 5; 6] (mkLayout [2; 3]%nat [3; 1] 0)) 1 = Ok (mkTensor [2; 6] (mkLayout [2]%nat [1] 0)) /\ diag_f 0 RowMajor (mkTensor [1; 2; 3; 4; 5; 6] (mkLayout [2; 3]%nat [3; 1] 0)) (-1) = Ok (mkTensor [4] (mkLayout [1]%nat [1] 0)).
Proof. split; [split; lia|]. repeat split; vm_compute; reflexivity. Qed.
Print Assumptions C47_diag_matrix_partial.

(** C47: diag of anything but a vector or a matrix is an error. *)
Theorem C47_diag_rank : forall (T : Type) (dflt : T) o (t : tensor T) k, length (t_shape t) <> 1%nat -> length (t_shape t) <> 2%nat -> exists e, diag_f dflt o t k = Err e.
Proof. exact l_diag_rank. Qed.
Print Assumptions C47_diag_rank.

(** C47: taking the k-th diagonal of diag(v, k) gives v back, for every offset. *)
Theorem C47_diag_of_diag : forall (T : Type) (dflt : T) o (t : tensor T) n k, tensor_ok t -> t_shape t = [n] ->
  exists m r, diag_f dflt o t k = Ok m /\ diag_f dflt o m k = Ok r /\ t_shape r = [n] /\ forall p, (p < n)%nat -> at_ r [p] = at_ t [p].
Proof. exact l_diag_diag. Qed.
Example C47_example_round : (let* m := diag_f 0 ColMajor (mkTensor [7; 8] (mkLayout [2]%nat [1] 0)) 2 in diag_f 0 RowMajor m 2) = Ok (mkTensor [7; 8] (mkLayout [2]%nat [1] 0)).
Proof. vm_compute. reflexivity. Qed.
Print Assumptions C47_diag_of_diag.

(** C58: full of any shape in either order. *)
Theorem C58_full_shape : forall (T : Type) k sh (x : T) o, exists r, full_shape k sh x o = Ok r /\ tensor_ok r /\ t_shape r = sh /\ all_are x r /\ length (t_data r) = size sh.
Proof. exact l_full_shape. Qed.
Example C58_example : full_shape Dyn [2; 0; 3]%nat 7 RowMajor = Ok (mkTensor [] (mkLayout [2; 0; 3]%nat [0; 3; 1] 0)) /\ full_shape Dyn [] 7 RowMajor = Ok (mkTensor [7] (mkLayout [] [] 0)) /\ full_shape Fixed [2; 2]%nat 7 ColMajor = Ok (mkTensor [7; 7; 7; 7] (mkLayout [2; 2]%nat [1; 2] 0)).
Proof. repeat split; reflexivity. Qed.
Print Assumptions C58_full_shape.

(** C58: zeros and ones of any shape in either order. *)
Theorem C58_zeros_ones_shape : forall (T : Type) k sh (x : T) o, exists r, const_shape k sh x o = Ok r /\ tensor_ok r /\ t_shape r = sh /\ all_are x r /\ length (t_data r) = size sh.
Proof. exact l_const_shape. Qed.
Print Assumptions C58_zeros_ones_shape.

(** C58: zeros and ones of any accepted layout, strided, reversed, with an offset or broadcast: every element is inside the storage. *)
Theorem C58_zeros_ones_layout : forall (T : Type) (l : layout) (x : T), accepted l -> exists r, const_layout l x = Ok r /\ t_layout r = l /\ tensor_ok r /\ all_are x r.
Proof. exact l_const_layout. Qed.
Example C58_example_layout : accepted (mkLayout [2; 2]%nat [-3; 2] 5) /\ const_layout (mkLayout [2; 2]%nat [-3; 2] 5) 1 = Ok (mkTensor (repeat 1 8) (mkLayout [2; 2]%nat [-3; 2] 5)).
Proof. split; [apply good_accepted, (good_new [2; 2]%nat [-3; 2] 5); [lia|vm_compute; reflexivity]|reflexivity]. Qed.
Print Assumptions C58_zeros_ones_layout.

(** C58: full of an accepted layout whose elements lie among the first [size] positions.  Missing: all other layouts, see C58_full_layout_refuted. *)
Theorem C58_full_layout_partial : forall (T : Type) (l : layout) (x : T), accepted l -> inside l (size (l_shape l)) -> exists r, full_layout l x = Ok r /\ t_layout r = l /\ tensor_ok r /\ all_are x r.
Proof. exact l_full_layout. Qed.
Example C58_example_full_layout : full_layout (mkLayout [2; 2]%nat [-2; 1] 2) 9 = Ok (mkTensor [9; 9; 9; 9] (mkLayout [2; 2]%nat [-2; 1] 2)) /\ tensor_ok (mkTensor [9; 9; 9; 9] (mkLayout [2; 2]%nat [-2; 1] 2)).
Proof. split; [reflexivity|concrete_tensor]. Qed.
Print Assumptions C58_full_layout_partial.

(** C58: full of a strided layout allocates too few cells: the tensor it returns has elements outside its storage. *)
Theorem C58_full_layout_refuted : exists (l : layout) (r : tensor Z), accepted l /\ full_layout l 7 = Ok r /\ ~ tensor_ok r /\ exists ix, valid (t_shape r) ix /\ at_ r ix = None.
Proof. exact l_full_layout_refuted. Qed.
Print Assumptions C58_full_layout_refuted.

(** C58: full_like, zeros_like and ones_like of any tensor and any of the orders C, F, A, K. *)
Theorem C58_like : forall (T U : Type) k dflt (t : tensor U) (x : T) o, tensor_ok t -> o = OC \/ o = OF \/ o = OA \/ o = OK ->
  exists r, like k dflt t x o = Ok r /\ tensor_ok r /\ t_shape r = t_shape t /\ all_are x r /\ injective (t_layout r) /\ length (t_data r) = size (t_shape t).
Proof. exact l_like. Qed.
Example C58_example_like : like Dyn RowMajor (mkTensor [1; 2; 3; 4; 5; 6] (mkLayout [3; 2]%nat [1; 3] 0)) 0 OK = Ok (mkTensor (repeat 0 6) (mkLayout [3; 2]%nat [1; 3] 0)) /\ like Dyn RowMajor (mkTensor [1; 2] (mkLayout [3; 2]%nat [0; 1] 0)) 8 OC = Ok (mkTensor (repeat 8 6) (mkLayout [3; 2]%nat [2; 1] 0)).
Proof. split; vm_compute; reflexivity. Qed.
Print Assumptions C58_like.

(** C58: linspace has n elements, starts at start, is evenly spaced, and with the endpoint ends at stop - in exact arithmetic.  Missing: the rounding of floating-point numbers (the code accumulates the step). *)
Theorem C58_linspace_partial : forall start stop n (endpoint : bool), (
  length (linspace_f start stop n endpoint) = n /\
  (forall i, (i < n)%nat -> (2 <= n)%nat -> nth i (linspace_f start stop n endpoint) 0 == start + inject_Z (Z.of_nat i) * (stop - start) / inject_Z (Z.of_nat (if endpoint then n - 1 else n))) /\
  ((1 <= n)%nat -> nth 0 (linspace_f start stop n endpoint) 0 = start) /\
  ((2 <= n)%nat -> endpoint = true -> nth (n - 1) (linspace_f start stop n endpoint) 0 == stop))%Q.
Proof. exact l_linspace. Qed.
Example C58_example_linspace : map Qred (linspace_f 1 2 5 true) = [1; 5 # 4; 3 # 2; 7 # 4; 2]%Q /\ map Qred (linspace_f 1 2 2 false) = [1; 3 # 2]%Q /\ linspace_f 1 2 1 true = [1%Q] /\ linspace_f 1 2 0 true = [].
Proof. repeat split; reflexivity. Qed.
Print Assumptions C58_linspace_partial.

(** C58: the parallel linspace, which multiplies instead of accumulating, agrees in exact arithmetic.  (In floating-point arithmetic the two devices round differently.) *)
Theorem C58_linspace_rayon_partial : forall start stop n (endpoint : bool), Forall2 Qeq (linspace_rayon start stop n endpoint) (linspace_f start stop n endpoint).
Proof. exact l_linspace_rayon. Qed.
Example C58_example_linspace_rayon : map Qred (linspace_rayon 1 2 5 true) = [1; 5 # 4; 3 # 2; 7 # 4; 2]%Q.
Proof. reflexivity. Qed.
Print Assumptions C58_linspace_rayon_partial.
