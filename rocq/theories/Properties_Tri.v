(** Property theorems about triangles of matrices and the blocked order change (C35, C36, C39).  Statements use Spec.v, Spec_Matmul.v,
    Spec_Tri.v and the modelled entry points of M_Tri.v only. *)
From Verif Require Import Base Spec Spec_Matmul Spec_Tri P_Index M_Layout M_Rearr M_Iter M_Kernel M_Tensor M_Matmul M_Tri P_Strides P_Tensor P_Rearr Q_Tri.
Local Open Scope Z_scope.

Definition ex_mats : tensor Z := mkTensor [1; 2; 3; 2; 5; 6; 3; 6; 9; 10; 20; 30; 20; 50; 60; 30; 60; 90] (mkLayout [2; 3; 3]%nat [9; 3; 1] 0).
Definition ex_packed : tensor Z := mkTensor [1; 2; 3; 4; 5; 6; 0] (mkLayout [6]%nat [-1] 5).

(** C35: the specification's list of the cells of a triangle has no repetition, n(n+1)/2 entries, exactly the cells of the triangle, in row-major or column-major order. *)
Theorem C35_cells : forall o u n, NoDup (tri_cells o u n) /\ length (tri_cells o u n) = (n * (n + 1) / 2)%nat /\
  (forall i j, In (i, j) (tri_cells o u n) <-> (i < n)%nat /\ (j < n)%nat /\ match u with Lower => (j <= i)%nat | Upper => (i <= j)%nat end) /\
  (forall p q i j i' j', (p < q)%nat -> nth_error (tri_cells o u n) p = Some (i, j) -> nth_error (tri_cells o u n) q = Some (i', j') ->
     match o with RowMajor => (i < i')%nat \/ i = i' /\ (j < j')%nat | ColMajor => (j < j')%nat \/ j = j' /\ (i < i')%nat end).
Proof. exact l_tri_cells. Qed.
Example C35_example_cells : tri_cells RowMajor Lower 3 = [(0, 0); (1, 0); (1, 1); (2, 0); (2, 1); (2, 2)]%nat /\ tri_cells ColMajor Lower 3 = [(0, 0); (1, 0); (2, 0); (1, 1); (2, 1); (2, 2)]%nat.
Proof. split; reflexivity. Qed.
Print Assumptions C35_cells.

(** C35: pack_tri of a stack of square matrices, strided in any way, gives the triangle of each matrix in the order of the device.  Missing: stacks of empty matrices, see C35_empty_batch_refuted. *)
Theorem C35_pack_partial : forall (T : Type) o (t : tensor T) u B n, tensor_ok t -> t_shape t = mat o B n n -> n <> 0%nat \/ B = [] /\ 0 <= l_offset (t_layout t) <= Z.of_nat (length (t_data t)) ->
  exists r, pack_tri_f o t u = Ok r /\ tensor_ok r /\ t_shape r = vec o B (n * (n + 1) / 2) /\
    forall bx p i j, valid B bx -> nth_error (tri_cells o u n) p = Some (i, j) -> at_ t (mat o bx i j) <> None /\ at_ r (vec o bx p) = at_ t (mat o bx i j).
Proof. exact l_pack. Qed.
Example C35_example_pack : tensor_ok ex_mats /\ t_shape ex_mats = mat RowMajor [2]%nat 3 3 /\ pack_tri_f RowMajor ex_mats Lower = Ok (mkTensor [1; 2; 5; 3; 6; 9; 10; 20; 50; 30; 60; 90] (mkLayout [2; 6]%nat [6; 1] 0)) /\
  pack_tri_f RowMajor ex_mats Upper = Ok (mkTensor [1; 2; 3; 5; 6; 9; 10; 20; 30; 50; 60; 90] (mkLayout [2; 6]%nat [6; 1] 0)).
Proof. split; [concrete_tensor|]. repeat split; vm_compute; reflexivity. Qed.
Print Assumptions C35_pack_partial.

(** C35: pack_tri of an array with fewer than two axes or of matrices that are not square is an error. *)
Theorem C35_pack_error : forall (T : Type) o (t : tensor T) u, (length (t_shape t) < 2)%nat \/ (exists B m n, t_shape t = mat o B m n /\ m <> n) -> exists e, pack_tri_f o t u = Err e.
Proof. exact l_pack_err. Qed.
Example C35_example_pack_error : pack_tri_f RowMajor (mkTensor [1; 2; 3; 4; 5; 6] (mkLayout [2; 3]%nat [3; 1] 0)) Lower = Err InvalidLayout.
Proof. reflexivity. Qed.
Print Assumptions C35_pack_error.

(** C35: unpack_tri gives the matrix whose triangle is the packed one and whose other triangle is the mirror image that the symmetry asks for (a Hermitian diagonal comes out conjugated, an antisymmetric one zero).  Missing: stacks of empty matrices, and the symmetry N, see the refutations. *)
Theorem C35_unpack_partial : forall (T : Type) (zero : T) conj opp o (t : tensor T) u s B n, tensor_ok t -> s <> NoSymm -> t_shape t = vec o B (n * (n + 1) / 2) -> n <> 0%nat \/ B = [] /\ 0 <= l_offset (t_layout t) <= Z.of_nat (length (t_data t)) ->
  exists r, unpack_tri_f zero conj opp o t u s = Ok r /\ tensor_ok r /\ t_shape r = mat o B n n /\
    forall bx p i j, valid B bx -> nth_error (tri_cells o u n) p = Some (i, j) -> exists x, at_ t (vec o bx p) = Some x /\
      (i = j -> at_ r (mat o bx i i) = Some (on_diagonal zero conj s x)) /\
      (i <> j -> at_ r (mat o bx i j) = Some x /\ at_ r (mat o bx j i) = Some (mirrored conj opp s x)).
Proof. exact l_unpack. Qed.
Example C35_example_unpack : tensor_ok ex_packed /\ t_shape ex_packed = vec RowMajor [] (3 * (3 + 1) / 2) /\
  unpack_tri_f 0 (fun x => x) Z.opp RowMajor ex_packed Lower Sy = Ok (mkTensor [6; 5; 3; 5; 4; 2; 3; 2; 1] (mkLayout [3; 3]%nat [3; 1] 0)) /\
  unpack_tri_f 0 (fun x => x) Z.opp RowMajor ex_packed Upper Ay = Ok (mkTensor [0; 5; 4; -5; 0; 2; -4; -2; 0] (mkLayout [3; 3]%nat [3; 1] 0)).
Proof. split; [concrete_tensor|]. repeat split; vm_compute; reflexivity. Qed.
Print Assumptions C35_unpack_partial.

(** C35: unpack_tri of an array whose packed axis does not have n(n+1)/2 elements for any n is an error. *)
Theorem C35_unpack_error : forall (T : Type) (zero : T) conj opp o (t : tensor T) u s, t_shape t = [] \/ (exists B N, t_shape t = vec o B N /\ forall n, N <> (n * (n + 1) / 2)%nat) -> exists e, unpack_tri_f zero conj opp o t u s = Err e.
Proof. exact l_unpack_err. Qed.
Example C35_example_unpack_error : unpack_tri_f 0 (fun x => x) Z.opp RowMajor (mkTensor [1; 2; 3; 4; 5] (mkLayout [5]%nat [1] 0)) Lower Sy = Err InvalidLayout.
Proof. reflexivity. Qed.
Print Assumptions C35_unpack_error.

(** C35: unpacking symmetrically and packing again gives the packed array back. *)
Theorem C35_unpack_then_pack : forall (T : Type) (zero : T) conj opp o (t : tensor T) u B n, tensor_ok t -> t_shape t = vec o B (n * (n + 1) / 2) -> n <> 0%nat \/ B = [] /\ 0 <= l_offset (t_layout t) <= Z.of_nat (length (t_data t)) ->
  exists m r, unpack_tri_f zero conj opp o t u Sy = Ok m /\ pack_tri_f o m u = Ok r /\ t_shape r = t_shape t /\ forall ix, valid (t_shape t) ix -> at_ r ix = at_ t ix.
Proof. exact l_unpack_pack. Qed.
Example C35_example_round : (let* m := unpack_tri_f 0 (fun x => x) Z.opp ColMajor ex_packed Lower Sy in pack_tri_f ColMajor m Lower) = Ok (mkTensor [6; 5; 4; 3; 2; 1] (mkLayout [6]%nat [1] 0)).
Proof. reflexivity. Qed.
Print Assumptions C35_unpack_then_pack.

(** C35: packing a stack of symmetric matrices and unpacking it symmetrically gives the stack back. *)
Theorem C35_pack_then_unpack : forall (T : Type) (zero : T) conj opp o (t : tensor T) u B n, tensor_ok t -> t_shape t = mat o B n n -> n <> 0%nat \/ B = [] /\ 0 <= l_offset (t_layout t) <= Z.of_nat (length (t_data t)) ->
  (forall bx i j, valid B bx -> (i < n)%nat -> (j < n)%nat -> at_ t (mat o bx i j) = at_ t (mat o bx j i)) ->
  exists m r, pack_tri_f o t u = Ok m /\ unpack_tri_f zero conj opp o m u Sy = Ok r /\ t_shape r = t_shape t /\ forall ix, valid (t_shape t) ix -> at_ r ix = at_ t ix.
Proof. exact l_pack_unpack. Qed.
Example C35_example_round2 : (let* m := pack_tri_f RowMajor ex_mats Upper in unpack_tri_f 0 (fun x => x) Z.opp RowMajor m Upper Sy) = Ok ex_mats.
Proof. vm_compute. reflexivity. Qed.
Print Assumptions C35_pack_then_unpack.

(** C35: in whichever order rayon handles the matrices, the packed result is the same. *)
Theorem C35_pack_rayon : forall (T : Type) (a : list (option T)) la (b : list T) lb u B n r, n <> 0%nat -> accepted la -> accepted lb -> injective la -> l_shape la = vec RowMajor B (n * (n + 1) / 2) -> l_shape lb = mat RowMajor B n n ->
  inside la (length a) -> inside lb (length b) -> pack_tri_rayon a la b lb u r -> exists a', r = Ok a' /\ untouched_outside la a a' /\ is_packed RowMajor u n B b lb a' la.
Proof. exact l_pack_rayon. Qed.
Example C35_example_rayon : pack_tri_rayon (repeat None 12) (mkLayout [2; 6]%nat [6; 1] 0) (t_data ex_mats) (t_layout ex_mats) Lower (Ok (map Some [1; 2; 5; 3; 6; 9; 10; 20; 50; 30; 60; 90])).
Proof. exists [[6; 9]; [0; 0]]. split; [vm_compute; apply perm_swap|vm_compute; reflexivity]. Qed.
Print Assumptions C35_pack_rayon.

(** C35: the same for unpacking. *)
Theorem C35_unpack_rayon : forall (T : Type) (zero : T) conj opp (a : list (option T)) la (b : list T) lb u s B n r, n <> 0%nat -> s <> NoSymm -> accepted la -> accepted lb -> injective la -> l_shape la = mat RowMajor B n n -> l_shape lb = vec RowMajor B (n * (n + 1) / 2) ->
  inside la (length a) -> inside lb (length b) -> unpack_tri_rayon zero conj opp a la b lb u s r -> exists a', r = Ok a' /\ untouched_outside la a a' /\ is_unpacked zero conj opp RowMajor u s n B b lb a' la.
Proof. exact l_unpack_rayon. Qed.
Example C35_example_rayon2 : unpack_tri_rayon 0 (fun x => x) Z.opp (repeat None 8) (mkLayout [2; 2; 2]%nat [4; 2; 1] 0) [1; 2; 3; 4; 5; 6] (mkLayout [2; 3]%nat [3; 1] 0) Lower Ah (Ok (map Some [0; -2; 2; 0; 0; -5; 5; 0])).
Proof. exists [[4; 3]; [0; 0]]. split; [vm_compute; apply perm_swap|vm_compute; reflexivity]. Qed.
Print Assumptions C35_unpack_rayon.

(** C35: packing or unpacking a stack of empty matrices held with the strides a fixed-rank contiguous layout gives it panics (an internal check of the iteration order rejects the zero strides). *)
Theorem C35_empty_batch_refuted : exists (t : tensor Z) (v : tensor Z), tensor_ok t /\ tensor_ok v /\ t_shape t = [2; 0; 0]%nat /\ t_shape v = [2; 0]%nat /\
  pack_tri_f RowMajor t Lower = Panic /\ unpack_tri_f 0 (fun x => x) Z.opp RowMajor v Lower Sy = Panic.
Proof. exact l_pack_empty_refuted. Qed.
Print Assumptions C35_empty_batch_refuted.

(** C35: unpack_tri with the symmetry N leaves the other triangle unwritten and then treats it as initialised (undefined behaviour in the program, a panic in the model). *)
Theorem C35_unpack_none_refuted : exists (t : tensor Z), tensor_ok t /\ t_shape t = [3]%nat /\ unpack_tri_f 0 (fun x => x) Z.opp RowMajor t Lower NoSymm = Panic.
Proof. exact l_unpack_nosymm_refuted. Qed.
Print Assumptions C35_unpack_none_refuted.

(** C36: tril of an owned tensor or a mutable view keeps element (i, j) of every matrix iff j <= i + k, zeroes the others, and touches nothing outside.  Every integer k, every matrix shape, every batch. *)
Theorem C36_tril : forall (T : Type) (zero : T) (t : tensor T) k B m n, tensor_ok t -> anchored (t_layout t) -> injective (t_layout t) -> t_shape t = B ++ [m; n] ->
  exists r, tril_mut zero t k = Ok r /\ t_layout r = t_layout t /\ untouched_outside (t_layout t) (t_data t) (t_data r) /\
    forall bx i j, valid B bx -> (i < m)%nat -> (j < n)%nat -> at_ r (bx ++ [i; j]) = if Z.of_nat j <=? Z.of_nat i + k then at_ t (bx ++ [i; j]) else Some zero.
Proof. exact l_tril. Qed.
Definition ex_stack : tensor Z := mkTensor [9; 1; 2; 3; 4; 5; 6; 7; 8; 9; 10; 11; 12; 9] (mkLayout [2; 2; 3]%nat [6; 3; 1] 1).
Lemma ex_stack_inj : injective (t_layout ex_stack). Proof. intros i j Vi Vj E. apply (perm_injective _ 12 (contig_perm Fixed [2; 2; 3]%nat RowMajor)); auto. change (1 + dot [6; 3; 1] i = 1 + dot [6; 3; 1] j) in E. change (0 + dot [6; 3; 1] i = 0 + dot [6; 3; 1] j). lia. Qed.
Example C36_example : tensor_ok ex_stack /\ anchored (t_layout ex_stack) /\ t_shape ex_stack = [2]%nat ++ [2; 3]%nat /\ tril_mut 0 ex_stack 0 = Ok (mkTensor [9; 1; 0; 0; 4; 5; 0; 7; 0; 0; 10; 11; 0; 9] (t_layout ex_stack)) /\
  tril_mut 0 ex_stack (-5) = Ok (mkTensor [9; 0; 0; 0; 0; 0; 0; 0; 0; 0; 0; 0; 0; 9] (t_layout ex_stack)) /\ tril_mut 0 ex_stack 7 = Ok ex_stack.
Proof. split; [concrete_tensor|]. split; [intro H; discriminate|]. repeat split; vm_compute; reflexivity. Qed.
Print Assumptions C36_tril.

(** C36: tril of a view is a new tensor with the same law. *)
Theorem C36_tril_view : forall (T : Type) kd o (zero : T) (t : tensor T) k B m n, tensor_ok t -> size (t_shape t) <> 0%nat \/ 0 <= l_offset (t_layout t) <= Z.of_nat (length (t_data t)) -> t_shape t = B ++ [m; n] ->
  exists r, tril_view kd o zero t k = Ok r /\ t_shape r = t_shape t /\
    forall bx i j, valid B bx -> (i < m)%nat -> (j < n)%nat -> at_ r (bx ++ [i; j]) = if Z.of_nat j <=? Z.of_nat i + k then at_ t (bx ++ [i; j]) else Some zero.
Proof. exact l_tril_view. Qed.
Example C36_example_view : tril_view Fixed RowMajor 0 (mkTensor [1; 2; 3; 4; 5; 6] (mkLayout [3; 2]%nat [1; 3] 0)) (-1) = Ok (mkTensor [0; 0; 2; 0; 3; 6] (mkLayout [3; 2]%nat [2; 1] 0)).
Proof. reflexivity. Qed.
Print Assumptions C36_tril_view.

(** C36: triu keeps element (i, j) iff j >= i + k, when the last row's diagonal position m - 1 + k does not lie past the last column.  Missing: all other k and shapes, where the code is wrong, see C36_triu_refuted. *)
Theorem C36_triu_partial : forall (T : Type) (zero : T) (t : tensor T) k B m n, tensor_ok t -> anchored (t_layout t) -> injective (t_layout t) -> t_shape t = B ++ [m; n] -> m = 0%nat \/ Z.of_nat m - 1 + k <= Z.of_nat n ->
  exists r, triu_mut zero t k = Ok r /\ t_layout r = t_layout t /\ untouched_outside (t_layout t) (t_data t) (t_data r) /\
    forall bx i j, valid B bx -> (i < m)%nat -> (j < n)%nat -> at_ r (bx ++ [i; j]) = if Z.of_nat i + k <=? Z.of_nat j then at_ t (bx ++ [i; j]) else Some zero.
Proof. exact l_triu. Qed.
Example C36_example_triu : triu_mut 0 ex_stack 1 = Ok (mkTensor [9; 0; 2; 3; 0; 0; 6; 0; 8; 9; 0; 0; 12; 9] (t_layout ex_stack)) /\ Z.of_nat 2 - 1 + 1 <= Z.of_nat 3.
Proof. split; [reflexivity|lia]. Qed.
Print Assumptions C36_triu_partial.

(** C36: triu of a view, under the same condition. *)
Theorem C36_triu_view_partial : forall (T : Type) kd o (zero : T) (t : tensor T) k B m n, tensor_ok t -> size (t_shape t) <> 0%nat \/ 0 <= l_offset (t_layout t) <= Z.of_nat (length (t_data t)) -> t_shape t = B ++ [m; n] -> m = 0%nat \/ Z.of_nat m - 1 + k <= Z.of_nat n ->
  exists r, triu_view kd o zero t k = Ok r /\ t_shape r = t_shape t /\
    forall bx i j, valid B bx -> (i < m)%nat -> (j < n)%nat -> at_ r (bx ++ [i; j]) = if Z.of_nat i + k <=? Z.of_nat j then at_ t (bx ++ [i; j]) else Some zero.
Proof. exact l_triu_view. Qed.
Print Assumptions C36_triu_view_partial.

(** C36: tril and triu of an array with fewer than two axes are errors. *)
Theorem C36_rank : forall (T : Type) (zero : T) (t : tensor T) k, (length (t_shape t) < 2)%nat -> (exists e, tril_mut zero t k = Err e) /\ (exists e, triu_mut zero t k = Err e).
Proof. exact l_tri_rank. Qed.
Example C36_example_rank : tril_mut 0 (mkTensor [1; 2] (mkLayout [2]%nat [1] 0)) 0 = Err InvalidValue \/ exists e, tril_mut 0 (mkTensor [1; 2] (mkLayout [2]%nat [1] 0)) 0 = Err e.
Proof. right. eexists. reflexivity. Qed.
Print Assumptions C36_rank.

(** C36: triu past the last column panics (3 x 3 with k = 2, 4 x 2 with k = 0) or, in a stack of matrices, zeroes elements of the next matrix that must be kept. *)
Theorem C36_triu_refuted : (exists (t : tensor Z), tensor_ok t /\ t_shape t = [3; 3]%nat /\ triu_mut 0 t 2 = Panic) /\
  (exists (t : tensor Z), tensor_ok t /\ t_shape t = [4; 2]%nat /\ triu_mut 0 t 0 = Panic) /\
  (exists (t r : tensor Z), tensor_ok t /\ injective (t_layout t) /\ t_shape t = [2; 4; 2]%nat /\ triu_mut 0 t 0 = Ok r /\ at_ t [1; 0; 0]%nat = Some 7 /\ at_ r [1; 0; 0]%nat = Some 0).
Proof. exact l_triu_refuted. Qed.
Print Assumptions C36_triu_refuted.

(** C39: the blocked copy from a row-major to a column-major matrix copies every element to its place, for every number of rows and columns and every leading dimension; anything but unit strides and equal shapes is an error. *)
Theorem C39_row_to_column : forall (T : Type) (c : list T) lc (a : list T) la m n, wf lc -> wf la -> injective lc -> inside lc (length c) -> inside la (length a) -> length (l_shape lc) = 2%nat -> l_shape la = [m; n] ->
  (l_shape lc = [m; n] /\ nth 0 (l_stride lc) 0 = 1 /\ nth 1 (l_stride la) 0 = 1 /\ exists c', orderchange_r2c c lc a la = Ok c' /\ untouched_outside lc c c' /\ forall ix, valid [m; n] ix -> elem c' lc ix = elem a la ix) \/
  (~ (l_shape lc = [m; n] /\ nth 0 (l_stride lc) 0 = 1 /\ nth 1 (l_stride la) 0 = 1) /\ exists e, orderchange_r2c c lc a la = Err e).
Proof. exact l_r2c. Qed.
Example C39_example : orderchange_r2c (repeat 0 8) (mkLayout [2; 3]%nat [1; 2] 1) [1; 2; 3; 4; 5; 6; 7; 8] (mkLayout [2; 3]%nat [4; 1] 0) = Ok [0; 1; 5; 2; 6; 3; 7; 0].
Proof. reflexivity. Qed.
Print Assumptions C39_row_to_column.

(** C39: the same from column-major to row-major. *)
Theorem C39_column_to_row : forall (T : Type) (c : list T) lc (a : list T) la m n, wf lc -> wf la -> injective lc -> inside lc (length c) -> inside la (length a) -> length (l_shape lc) = 2%nat -> l_shape la = [m; n] ->
  (l_shape lc = [m; n] /\ nth 1 (l_stride lc) 0 = 1 /\ nth 0 (l_stride la) 0 = 1 /\ exists c', orderchange_c2r c lc a la = Ok c' /\ untouched_outside lc c c' /\ forall ix, valid [m; n] ix -> elem c' lc ix = elem a la ix) \/
  (~ (l_shape lc = [m; n] /\ nth 1 (l_stride lc) 0 = 1 /\ nth 0 (l_stride la) 0 = 1) /\ exists e, orderchange_c2r c lc a la = Err e).
Proof. exact l_c2r. Qed.
Example C39_example_c2r : orderchange_c2r (repeat 0 8) (mkLayout [2; 3]%nat [3; 1] 1) [1; 2; 3; 4; 5; 6; 7; 8] (mkLayout [2; 3]%nat [1; 2] 0) = Ok [0; 1; 3; 5; 2; 4; 6; 0].
Proof. reflexivity. Qed.
Print Assumptions C39_column_to_row.

(** C39: with rayon, in whichever order the blocks are handled, with or without a thread pool. *)
Theorem C39_rayon : forall (T : Type) pool (c : list T) lc (a : list T) la m n r, wf lc -> wf la -> injective lc -> inside lc (length c) -> inside la (length a) -> length (l_shape lc) = 2%nat -> l_shape la = [m; n] -> orderchange_r2c_rayon pool c lc a la r ->
  (l_shape lc = [m; n] /\ nth 0 (l_stride lc) 0 = 1 /\ nth 1 (l_stride la) 0 = 1 /\ exists c', r = Ok c' /\ untouched_outside lc c c' /\ forall ix, valid [m; n] ix -> elem c' lc ix = elem a la ix) \/
  (~ (l_shape lc = [m; n] /\ nth 0 (l_stride lc) 0 = 1 /\ nth 1 (l_stride la) 0 = 1) /\ exists e, r = Err e).
Proof. exact l_r2c_rayon. Qed.
Print Assumptions C39_rayon.
