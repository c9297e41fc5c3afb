(** Property theorems about matrix products on the faer and BLAS devices (C65, C66).  Statements use Spec.v, Spec_Matmul.v and the modelled
    entry points of M_Fast.v only.  [tri] and [sched] are arbitrary orders in which the copies of a triangle and the batches are worked on, [t] an arbitrary
    splitting of an inner product, [same] whether the two factors are the same slice. *)
From Verif Require Import Base Spec Spec_Matmul P_Index M_Layout M_Rearr M_Kernel M_Tensor M_Matmul P_Strides P_Tensor Spec_Fast M_Fast P_Iter Q_Fast Q_Fast2.
Local Open Scope Z_scope.

Lemma z_laws : comm_semiring 0 Z.add Z.mul /\ (forall x, Z.mul 1 x = x) /\ (forall x y, Z.eqb x y = true <-> x = y) /\ (forall l : list (list Z), Permutation (rev l) l) /\ (forall l : list (nat * nat), Permutation (rev l) l).
Proof. split; [split; [repeat split; intros; lia|]; repeat split; intros; lia|]. split; [intros; lia|]. split; [apply Z.eqb_eq|]. split; intro; symmetry; apply Permutation_rev. Qed.
Definition faer (o : order) := device_faer 0 1 Z.add Z.mul Z.eqb o (Node 1 Leaf Leaf) (fun l => rev l) (fun l => rev l).
Definition blas (o : order) := device_blas 0 Z.add Z.mul Z.eqb o (Node 1 Leaf Leaf) (fun l => rev l) (fun l => rev l).
Definition ex_a : tensor Z := mkTensor [1; 2; 3; 4; 5; 6] (mkLayout [2; 3]%nat [3; 1] 0).
Definition ex_at : tensor Z := mkTensor [1; 2; 3; 4; 5; 6] (mkLayout [3; 2]%nat [1; 3] 0).
Definition ex_b : tensor Z := mkTensor [1; 0; 2; 0; 3; 0; 4; 0; 5; 0; 6; 0] (mkLayout [3; 2]%nat [4; 2] 0).

(** C65: matmul on the faer device succeeds exactly when the operands have a product and their batch ranks agree; the result is alpha times the product, in contiguous storage, under every schedule; a factor multiplied with its own transpose (computed as one triangle and mirrored) included. *)
Theorem C65_faer_matmul : forall (T : Type) (zero one : T) add mul eqb k o t tri sched same junk (a b : tensor T) alpha,
  comm_semiring zero add mul -> (forall x, mul one x = x) -> (forall x y, eqb x y = true <-> x = y) -> (forall l, Permutation (tri l) l) -> (forall l, Permutation (sched l) l) -> (same = true -> t_data a = t_data b) ->
  tensor_ok a -> tensor_ok b -> anchored (t_layout a) -> anchored (t_layout b) ->
  match op_matmul_on zero (device_faer zero one add mul eqb o t tri sched same) k o junk a b alpha with
  | Ok r => product_shape o (l_shape (t_layout a)) (l_shape (t_layout b)) (l_shape (t_layout r)) /\ same_batch_rank (l_shape (t_layout a)) (l_shape (t_layout b)) /\
      tensor_ok r /\ addrs o (t_layout r) = consecutive 0 (length (t_data r)) /\
      forall cx, valid (l_shape (t_layout r)) cx -> exists ts vs, contracts o (l_shape (t_layout a)) (l_shape (t_layout b)) cx ts /\
        products mul (t_data a) (t_layout a) (t_data b) (t_layout b) ts vs /\ elem (t_data r) (t_layout r) cx = Some (mul alpha (total zero add vs))
  | Err _ => (forall s, ~ product_shape o (l_shape (t_layout a)) (l_shape (t_layout b)) s) \/ ~ same_batch_rank (l_shape (t_layout a)) (l_shape (t_layout b))
  | Panic => False
  end.
Proof. exact l_faer_matmul. Qed.
Example C65_example : tensor_ok ex_a /\ tensor_ok ex_at /\ tensor_ok ex_b /\
  op_matmul_on 0 (faer RowMajor true) Fixed RowMajor (fun i => 9) ex_a ex_at 10 = Ok (mkTensor [140; 320; 320; 770] (mkLayout [2; 2]%nat [2; 1] 0)) /\
  op_matmul_on 0 (faer ColMajor false) Fixed ColMajor (fun i => 9) ex_a ex_b 1 = Ok (mkTensor [22; 49; 28; 64] (mkLayout [2; 2]%nat [1; 2] 0)).
Proof. split; [unfold ex_a; concrete_tensor|]. split; [unfold ex_at; concrete_tensor|]. split; [unfold ex_b; concrete_tensor|]. split; reflexivity. Qed.
Print Assumptions C65_faer_matmul.

(** C65: matmul into an existing tensor on the faer device turns c into beta * c + alpha * a b and changes nothing else of its storage; c may be strided in any way. *)
Theorem C65_faer_matmul_from : forall (T : Type) (zero one : T) add mul eqb o t tri sched same (a b c : tensor T) alpha beta,
  comm_semiring zero add mul -> (forall x, mul one x = x) -> (forall x y, eqb x y = true <-> x = y) -> (forall l, Permutation (tri l) l) -> (forall l, Permutation (sched l) l) -> (same = true -> t_data a = t_data b) ->
  tensor_ok a -> tensor_ok b -> tensor_ok c -> anchored (t_layout a) -> anchored (t_layout b) -> anchored (t_layout c) -> injective (t_layout c) ->
  product_shape o (l_shape (t_layout a)) (l_shape (t_layout b)) (l_shape (t_layout c)) -> same_batch_rank (l_shape (t_layout a)) (l_shape (t_layout b)) ->
  exists c', op_mutc_matmul_on (device_faer zero one add mul eqb o t tri sched same) c a b alpha beta = Ok (mkTensor c' (t_layout c)) /\
    is_product o mul zero add mul alpha beta (t_data a) (t_layout a) (t_data b) (t_layout b) (t_data c) (t_layout c) c'.
Proof. exact l_faer_from. Qed.
Definition ex_c : tensor Z := mkTensor [1; 1; 1; 1; 1; 1; 1; 1] (mkLayout [2; 2]%nat [4; -2] 3).
Example C65_example_from : tensor_ok ex_c /\ op_mutc_matmul_on (faer RowMajor true) ex_c ex_a ex_at 1 100 = Ok (mkTensor [1; 132; 1; 114; 1; 177; 1; 132] (t_layout ex_c)).
Proof. split; [unfold ex_c; concrete_tensor|reflexivity]. Qed.
Print Assumptions C65_faer_matmul_from.

(** C65: with beta = 0 the product of two matrices on the faer device does not depend on the old contents of the output, for any arithmetic at all (a NaN in uninitialised memory does not spread; compare C34_uninitialised_refuted). *)
Theorem C65_faer_overwrites : forall (T : Type) (zero one : T) add mul eqb o t tri sched same (a b : tensor T) (c d : list T) lc alpha M N r,
  eqb zero zero = true -> (forall l, Permutation (tri l) l) -> wf lc -> length (l_shape (t_layout a)) = 2%nat -> length (l_shape (t_layout b)) = 2%nat -> l_shape lc = [M; N] -> length c = length d ->
  op_mutc_matmul_on (device_faer zero one add mul eqb o t tri sched same) (mkTensor c lc) a b alpha zero = Ok r ->
  exists r', op_mutc_matmul_on (device_faer zero one add mul eqb o t tri sched same) (mkTensor d lc) a b alpha zero = Ok r' /\ t_layout r' = t_layout r /\ forall ix, valid [M; N] ix -> elem (t_data r') lc ix = elem (t_data r) lc ix.
Proof. exact l_faer_fresh. Qed.
Example C65_example_nan : let nan_mul := fun x y : option Z => match x, y with Some x, Some y => Some (x * y) | _, _ => None end in
  let nan_add := fun x y : option Z => match x, y with Some x, Some y => Some (x + y) | _, _ => None end in
  let eqb := fun x y : option Z => match x, y with Some x, Some y => x =? y | _, _ => false end in
  op_mutc_matmul_on (device_faer (Some 0) (Some 1) nan_add nan_mul eqb RowMajor Leaf (fun l => l) (fun l => l) false) (mkTensor [None] (mkLayout [1; 1]%nat [1; 1] 0))
    (mkTensor [Some 2] (mkLayout [1; 1]%nat [1; 1] 0)) (mkTensor [Some 3] (mkLayout [1; 1]%nat [1; 1] 0)) (Some 1) (Some 0) = Ok (mkTensor [Some 6] (mkLayout [1; 1]%nat [1; 1] 0)).
Proof. reflexivity. Qed.
Print Assumptions C65_faer_overwrites.

(** C66: matmul on a BLAS device gives alpha times the product, for every layout of the operands (copied first where the library cannot read them), under every schedule; it fails only if the operands have no product or their batch ranks differ. *)
Theorem C66_blas_matmul : forall (T : Type) (zero : T) add mul eqb k o t tri sched same junk (a b : tensor T) alpha,
  comm_semiring zero add mul -> (forall x y, eqb x y = true <-> x = y) -> (forall l, Permutation (tri l) l) -> (forall l, Permutation (sched l) l) -> (same = true -> t_data a = t_data b) ->
  tensor_ok a -> tensor_ok b -> anchored (t_layout a) -> anchored (t_layout b) ->
  match op_matmul_on zero (device_blas zero add mul eqb o t tri sched same) k o junk a b alpha with
  | Ok r => product_shape o (l_shape (t_layout a)) (l_shape (t_layout b)) (l_shape (t_layout r)) /\ (same_batch_rank (l_shape (t_layout a)) (l_shape (t_layout b)) \/ size (l_shape (t_layout r)) = 0%nat) /\
      tensor_ok r /\ addrs o (t_layout r) = consecutive 0 (length (t_data r)) /\
      forall cx, valid (l_shape (t_layout r)) cx -> exists ts vs, contracts o (l_shape (t_layout a)) (l_shape (t_layout b)) cx ts /\
        products mul (t_data a) (t_layout a) (t_data b) (t_layout b) ts vs /\ elem (t_data r) (t_layout r) cx = Some (mul alpha (total zero add vs))
  | Err _ => (forall s, ~ product_shape o (l_shape (t_layout a)) (l_shape (t_layout b)) s) \/ ~ same_batch_rank (l_shape (t_layout a)) (l_shape (t_layout b))
  | Panic => False
  end.
Proof. exact l_blas_matmul. Qed.
Example C66_example : op_matmul_on 0 (blas RowMajor true) Fixed RowMajor (fun i => 9) ex_a ex_at 10 = Ok (mkTensor [140; 320; 320; 770] (mkLayout [2; 2]%nat [2; 1] 0)) /\
  op_matmul_on 0 (blas ColMajor false) Fixed ColMajor (fun i => 9) ex_a ex_b 1 = Ok (mkTensor [22; 49; 28; 64] (mkLayout [2; 2]%nat [1; 2] 0)).
Proof. split; reflexivity. Qed.
Print Assumptions C66_blas_matmul.

(** C66: the same into an existing tensor with beta = 0: nothing but the output's elements changes, whatever the output's strides. *)
Theorem C66_blas_matmul_from : forall (T : Type) (zero : T) add mul eqb o t tri sched same (a b c : tensor T) alpha,
  comm_semiring zero add mul -> (forall x y, eqb x y = true <-> x = y) -> (forall l, Permutation (tri l) l) -> (forall l, Permutation (sched l) l) -> (same = true -> t_data a = t_data b) ->
  tensor_ok a -> tensor_ok b -> tensor_ok c -> anchored (t_layout a) -> anchored (t_layout b) -> anchored (t_layout c) -> injective (t_layout c) ->
  product_shape o (l_shape (t_layout a)) (l_shape (t_layout b)) (l_shape (t_layout c)) -> same_batch_rank (l_shape (t_layout a)) (l_shape (t_layout b)) ->
  exists c', op_mutc_matmul_on (device_blas zero add mul eqb o t tri sched same) c a b alpha zero = Ok (mkTensor c' (t_layout c)) /\
    is_product o mul zero add mul alpha zero (t_data a) (t_layout a) (t_data b) (t_layout b) (t_data c) (t_layout c) c'.
Proof. exact l_blas_from. Qed.
Example C66_example_from : op_mutc_matmul_on (blas RowMajor true) ex_c ex_a ex_at 1 0 = Ok (mkTensor [1; 32; 1; 14; 1; 77; 1; 32] (t_layout ex_c)).
Proof. reflexivity. Qed.
Print Assumptions C66_blas_matmul_from.

(** C66: with any beta, for an output matrix one of whose strides is 1 (the other positive) and a product of at least one term.  Missing: other outputs and empty products, refuted below; stacks are the next theorems. *)
Theorem C66_blas_accumulate_partial : forall (T : Type) (zero : T) add mul eqb t tri sched same (a b c : tensor T) M K N s alpha beta,
  comm_semiring zero add mul -> (forall x y, eqb x y = true <-> x = y) -> (forall l, Permutation (tri l) l) -> (same = true -> t_data a = t_data b) ->
  tensor_ok a -> tensor_ok b -> tensor_ok c -> injective (t_layout c) ->
  l_shape (t_layout a) = [M; K] -> l_shape (t_layout b) = [K; N] -> l_shape (t_layout c) = [M; N] -> K <> 0%nat -> (1 <= s)%Z -> l_stride (t_layout c) = [1%Z; s] \/ l_stride (t_layout c) = [s; 1%Z] ->
  exists c', op_mutc_matmul_on (device_blas zero add mul eqb RowMajor t tri sched same) c a b alpha beta = Ok (mkTensor c' (t_layout c)) /\
    is_product RowMajor mul zero add mul alpha beta (t_data a) (t_layout a) (t_data b) (t_layout b) (t_data c) (t_layout c) c'.
Proof. exact l_blas_accumulate_partial. Qed.
Definition ex_d : tensor Z := mkTensor [1; 1; 1; 1; 1] (mkLayout [2; 2]%nat [3; 1] 0).
Example C66_example_accumulate : tensor_ok ex_d /\ op_mutc_matmul_on (blas RowMajor false) ex_d ex_a ex_b 1 100 = Ok (mkTensor [122; 128; 1; 149; 164] (t_layout ex_d)).
Proof. split; [unfold ex_d; concrete_tensor|reflexivity]. Qed.
Print Assumptions C66_blas_accumulate_partial.

(** C66: with any beta, any batch axes and both orders, for an output whose matrices have a stride of 1 along one axis and a positive one along the other, and products of at least one term.  Missing: other outputs and empty products, refuted below. *)
Theorem C66_blas_accumulate_stacks_partial : forall (T : Type) (zero : T) add mul eqb o t tri sched same (a b c : tensor T) BA BB BC M K N alpha beta,
  comm_semiring zero add mul -> (forall x y, eqb x y = true <-> x = y) -> (forall l, Permutation (tri l) l) -> (forall l, Permutation (sched l) l) -> (same = true -> t_data a = t_data b) ->
  tensor_ok a -> tensor_ok b -> tensor_ok c -> anchored (t_layout a) -> anchored (t_layout b) -> anchored (t_layout c) -> injective (t_layout c) ->
  t_shape a = mat o BA M K -> t_shape b = mat o BB K N -> t_shape c = mat o BC M N -> broadcasts o BA BB BC -> same_batch_rank (t_shape a) (t_shape b) ->
  K <> 0%nat -> unit_stride_matrices o (t_layout c) ->
  exists c', op_mutc_matmul_on (device_blas zero add mul eqb o t tri sched same) c a b alpha beta = Ok (mkTensor c' (t_layout c)) /\
    is_product o mul zero add mul alpha beta (t_data a) (t_layout a) (t_data b) (t_layout b) (t_data c) (t_layout c) c'.
Proof. exact l_blas_accumulate_stacks_partial. Qed.
Definition ex_sa : tensor Z := mkTensor [1; 2; 3; 4; 5; 6; 7; 8] (mkLayout [2; 2; 2]%nat [4; 2; 1] 0).
Definition ex_sb : tensor Z := mkTensor [1; 1; 0; 2] (mkLayout [2; 2]%nat [1; 2] 0).
Definition ex_sc : tensor Z := mkTensor [1; 1; 1; 1; 1; 1; 1; 1; 1; 1; 1; 1] (mkLayout [2; 2; 2]%nat [6; 3; 1] 0).
Example C66_example_stacks : tensor_ok ex_sa /\ tensor_ok ex_sb /\ tensor_ok ex_sc /\ injective (t_layout ex_sc) /\ t_shape ex_sa = mat RowMajor [2%nat] 2 2 /\ t_shape ex_sb = mat RowMajor [] 2 2 /\ broadcasts RowMajor [2%nat] [] [2%nat] /\
  unit_stride_matrices RowMajor (t_layout ex_sc) /\
  op_mutc_matmul_on (blas RowMajor false) ex_sc ex_sa ex_sb 1 100 = Ok (mkTensor [103; 104; 1; 107; 108; 1; 111; 112; 1; 115; 116; 1] (t_layout ex_sc)).
Proof. split; [unfold ex_sa; concrete_tensor|]. split; [unfold ex_sb; concrete_tensor|]. split; [unfold ex_sc; concrete_tensor|]. split; [intros i j Vi Vj E; apply (in_enum RowMajor) in Vi, Vj; vm_compute in Vi, Vj; repeat (destruct Vi as [<-|Vi]; [repeat (destruct Vj as [<-|Vj]; [vm_compute in E; (reflexivity || discriminate)|]); destruct Vj|]); destruct Vi|]. split; [reflexivity|]. split; [reflexivity|].
  split; [split; [reflexivity|intros [|[|k]]; cbn; auto]|]. split; [exists [6], 3; split; [lia|right; reflexivity]|]. reflexivity. Qed.
Print Assumptions C66_blas_accumulate_stacks_partial.

(** C66: with any beta, products of a vector with a stack of matrices, from either side, into a stack of vectors with a positive stride; at least one term.  Missing: other strides of the result and empty products. *)
Theorem C66_blas_accumulate_vectors_partial : forall (T : Type) (zero : T) add mul eqb o t tri sched same (a b c : tensor T) B M K alpha beta,
  comm_semiring zero add mul -> (forall x y, eqb x y = true <-> x = y) -> (forall l, Permutation (tri l) l) -> (forall l, Permutation (sched l) l) -> (same = true -> t_data a = t_data b) ->
  tensor_ok a -> tensor_ok b -> tensor_ok c -> anchored (t_layout a) -> anchored (t_layout b) -> anchored (t_layout c) -> injective (t_layout c) ->
  (t_shape a = [K] /\ t_shape b = mat o B K M) \/ (t_shape a = mat o B M K /\ t_shape b = [K]) -> t_shape c = vec o B M ->
  K <> 0%nat -> ascending_vectors o (t_layout c) ->
  exists c', op_mutc_matmul_on (device_blas zero add mul eqb o t tri sched same) c a b alpha beta = Ok (mkTensor c' (t_layout c)) /\
    is_product o mul zero add mul alpha beta (t_data a) (t_layout a) (t_data b) (t_layout b) (t_data c) (t_layout c) c'.
Proof. exact l_blas_accumulate_vectors_partial. Qed.
Definition ex_v : tensor Z := mkTensor [10; 0; 1] (mkLayout [2]%nat [2] 0).
Definition ex_w : tensor Z := mkTensor [1; 2; 3; 4; 5; 6; 7; 8] (mkLayout [2; 2]%nat [4; 2] 0).
Example C66_example_vectors : tensor_ok ex_v /\ tensor_ok ex_w /\ ascending_vectors RowMajor (t_layout ex_w) /\
  op_mutc_matmul_on (blas RowMajor false) ex_w ex_sa ex_v 1 100 = Ok (mkTensor [112; 2; 334; 4; 556; 6; 778; 8] (t_layout ex_w)).
Proof. split; [unfold ex_v; concrete_tensor|]. split; [unfold ex_w; concrete_tensor|]. split; [exists [4], 2; split; [lia|reflexivity]|]. reflexivity. Qed.
Print Assumptions C66_blas_accumulate_vectors_partial.

(** C66: with any beta, inner products of vectors of any length, also 0. *)
Theorem C66_blas_accumulate_dot : forall (T : Type) (zero : T) add mul eqb o t tri sched same (a b c : tensor T) K alpha beta,
  comm_semiring zero add mul -> tensor_ok a -> tensor_ok b -> tensor_ok c -> t_shape a = [K] -> t_shape b = [K] -> t_shape c = [] ->
  exists c', op_mutc_matmul_on (device_blas zero add mul eqb o t tri sched same) c a b alpha beta = Ok (mkTensor c' (t_layout c)) /\
    is_product o mul zero add mul alpha beta (t_data a) (t_layout a) (t_data b) (t_layout b) (t_data c) (t_layout c) c'.
Proof. exact l_blas_accumulate_dot. Qed.
Example C66_example_dot : op_mutc_matmul_on (blas ColMajor false) (mkTensor [1; 7] (mkLayout [] [] 1)) ex_v ex_v 2 3 = Ok (mkTensor [1; 223] (mkLayout [] [] 1)).
Proof. reflexivity. Qed.
Print Assumptions C66_blas_accumulate_dot.

(** C66: an output whose strides are neither row- nor column-major loses beta * c: the copy of c made for the library is overwritten because the inner call gets beta = 0. *)
Theorem C66_blas_strided_refuted : exists (a b c : tensor Z) c', tensor_ok a /\ tensor_ok b /\ tensor_ok c /\ injective (t_layout c) /\ l_shape (t_layout a) = [2; 1]%nat /\ l_shape (t_layout b) = [1; 2]%nat /\ l_shape (t_layout c) = [2; 2]%nat /\
  op_mutc_matmul_on (device_blas 0%Z Z.add Z.mul Z.eqb RowMajor Leaf (fun l => l) (fun l => l) false) c a b 1%Z 1%Z = Ok (mkTensor c' (t_layout c)) /\
  elem (t_data c) (t_layout c) [0; 0]%nat = Some 100%Z /\ elem c' (t_layout c) [0; 0]%nat = Some 6%Z.
Proof. exact l_blas_strided_refuted. Qed.
Print Assumptions C66_blas_strided_refuted.

(** C66: a product with contracted length 0 sets the output to zero, also when beta is 1 and it ought to be left alone. *)
Theorem C66_blas_empty_refuted : exists (a b c : tensor Z) c', tensor_ok a /\ tensor_ok b /\ tensor_ok c /\ t_layout c = mkLayout [1; 1]%nat [1; 1]%Z 0%Z /\ l_shape (t_layout a) = [1; 0]%nat /\ l_shape (t_layout b) = [0; 1]%nat /\
  op_mutc_matmul_on (device_blas 0%Z Z.add Z.mul Z.eqb RowMajor Leaf (fun l => l) (fun l => l) false) c a b 1%Z 1%Z = Ok (mkTensor c' (t_layout c)) /\ t_data c = [100%Z] /\ c' = [0%Z].
Proof. exact l_blas_empty_refuted. Qed.
Print Assumptions C66_blas_empty_refuted.

(** C66: an empty product of two stacks of different batch rank is accepted by the BLAS devices and refused by the faer device. *)
Theorem C66_blas_rank_refuted : exists (a b : tensor Z), tensor_ok a /\ tensor_ok b /\
  (exists r, op_matmul_on 0%Z (device_blas 0%Z Z.add Z.mul Z.eqb RowMajor Leaf (fun l => l) (fun l => l) false) Dyn RowMajor (fun _ => 0%Z) a b 1%Z = Ok r) /\
  (exists e, op_matmul_on 0%Z (device_faer 0%Z 1%Z Z.add Z.mul Z.eqb RowMajor Leaf (fun l => l) (fun l => l) false) Dyn RowMajor (fun _ => 0%Z) a b 1%Z = Err e).
Proof. exact l_blas_rank_refuted. Qed.
Print Assumptions C66_blas_rank_refuted.
