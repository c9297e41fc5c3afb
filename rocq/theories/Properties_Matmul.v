(** Property theorems about matrix products (C33, C34).  Statements use Spec.v, Spec_Matmul.v and the modelled entry points of
    M_Matmul.v only. *)
From Verif Require Import Base Spec Spec_Matmul P_Index M_Layout M_Rearr M_Kernel M_Tensor M_Matmul P_Strides P_Tensor P_Matmul4 Q_Matmul.
Local Open Scope Z_scope.

Lemma z_semiring : comm_semiring 0 Z.add Z.mul. Proof. split; [repeat split; intros; lia|]. repeat split; intros; lia. Qed.

(** C33: the layout rules of matmul accept exactly the operand shapes that have a product by the array API's rules, prescribe the shape of those rules, and give the result contiguous storage in the device's order. *)
Theorem C33_layout_rules : forall k o la lb, accepted la -> accepted lb -> anchored la -> anchored lb ->
  match layout_matmul k la lb o with
  | Ok cfg => product_shape o (l_shape la) (l_shape lb) (l_shape (mm_lc cfg)) /\ l_offset (mm_lc cfg) = 0 /\ addrs o (mm_lc cfg) = consecutive 0 (size (l_shape (mm_lc cfg)))
  | Err _ => forall s, ~ product_shape o (l_shape la) (l_shape lb) s
  | Panic => False
  end.
Proof. exact l_matmul_layout. Qed.
Definition ex_ma : layout := mkLayout [2; 1; 2; 3]%nat [6; 6; 3; 1] 0.
Definition ex_mb : layout := mkLayout [4; 3; 5]%nat [15; 5; 1] 0.
Example C33_example : accepted ex_ma /\ accepted ex_mb /\ anchored ex_ma /\ (let* cfg := layout_matmul Dyn ex_ma ex_mb RowMajor in Ok (mm_lc cfg)) = Ok (mkLayout [2; 4; 2; 5]%nat [40; 10; 5; 1] 0)
  /\ layout_matmul Dyn ex_ma ex_mb ColMajor = Err InvalidLayout.
Proof. split; [apply good_accepted, (good_new [2; 1; 2; 3]%nat [6; 6; 3; 1] 0); [lia|vm_compute; reflexivity]|].
  split; [apply good_accepted, (good_new [4; 3; 5]%nat [15; 5; 1] 0); [lia|vm_compute; reflexivity]|]. split; [intro H; discriminate|]. split; reflexivity. Qed.
Print Assumptions C33_layout_rules.

(** C33: the rules prescribe at most one shape. *)
Theorem C33_product_shape_unique : forall o sa sb s s', product_shape o sa sb s -> product_shape o sa sb s' -> s = s'.
Proof. exact l_product_shape_fun. Qed.
Print Assumptions C33_product_shape_unique.

(** C33, C34: matmul succeeds exactly when the operands have a product and their batch ranks agree; the result has the prescribed shape, fills its storage in the device's order, and holds alpha times the sum of the products over the contracted axis.  Missing: operands of different batch rank (both three or more axes) are rejected although they broadcast, see the next theorem. *)
Theorem C33_matmul_partial : forall (A B C : Type) k o (mab : A -> B -> C) (mba : B -> A -> C) (zero : C) add mul junk (a : tensor A) (b : tensor B) alpha,
  comm_semiring zero add mul -> (forall x y, mba y x = mab x y) -> tensor_ok a -> tensor_ok b -> anchored (t_layout a) -> anchored (t_layout b) ->
  match op_matmul k o mab mba mul add zero junk a b alpha with
  | Ok t => product_shape o (l_shape (t_layout a)) (l_shape (t_layout b)) (l_shape (t_layout t)) /\ same_batch_rank (l_shape (t_layout a)) (l_shape (t_layout b)) /\
      tensor_ok t /\ addrs o (t_layout t) = consecutive 0 (length (t_data t)) /\
      forall cx, valid (l_shape (t_layout t)) cx -> exists ts vs, contracts o (l_shape (t_layout a)) (l_shape (t_layout b)) cx ts /\
        products mab (t_data a) (t_layout a) (t_data b) (t_layout b) ts vs /\ elem (t_data t) (t_layout t) cx = Some (mul alpha (total zero add vs))
  | Err _ => (forall s, ~ product_shape o (l_shape (t_layout a)) (l_shape (t_layout b)) s) \/ ~ same_batch_rank (l_shape (t_layout a)) (l_shape (t_layout b))
  | Panic => False
  end.
Proof. exact l_matmul. Qed.
Definition ex_a2 : tensor Z := mkTensor [1; 2; 3; 4; 5; 6] (mkLayout [2; 3]%nat [3; 1] 0).
Definition ex_b2 : tensor Z := mkTensor [1; 2; 3; 4; 5; 6] (mkLayout [3; 2]%nat [1; 3] 0).
Example C33_example_matmul : tensor_ok ex_a2 /\ tensor_ok ex_b2 /\
  op_matmul Fixed RowMajor Z.mul Z.mul Z.mul Z.add 0 (fun i => Z.of_nat i) ex_a2 ex_b2 10 = Ok (mkTensor [140; 320; 320; 770] (mkLayout [2; 2]%nat [2; 1] 0)) /\
  op_matmul Fixed ColMajor Z.mul Z.mul Z.mul Z.add 0 (fun i => 7) ex_a2 ex_b2 10 = Ok (mkTensor [140; 320; 320; 770] (mkLayout [2; 2]%nat [1; 2] 0)).
Proof. split; [concrete_tensor|]. split; [concrete_tensor|]. split; reflexivity. Qed.
Print Assumptions C33_matmul_partial.

(** C33: two stacks of matrices of different rank that broadcast together are rejected: the kernel's layout rules compare the ranks of both operands with that of the result. *)
Theorem C33_batch_rank_refuted : exists (a b : tensor Z), tensor_ok a /\ tensor_ok b /\ product_shape RowMajor (l_shape (t_layout a)) (l_shape (t_layout b)) [1; 1; 1; 1]%nat /\
  forall k junk, op_matmul k RowMajor Z.mul Z.mul Z.mul Z.add 0 junk a b 1 = Err InvalidLayout.
Proof. exact l_matmul_rank_refuted. Qed.
Print Assumptions C33_batch_rank_refuted.

(** C33: matmul into an output whose batch shape is not that of the product is accepted when the batch axes come from one operand only; part of the output is written, the rest stays. *)
Theorem C33_output_shape_refuted : exists (a b c : tensor Z) c', tensor_ok a /\ tensor_ok b /\ tensor_ok c /\ injective (t_layout c) /\
  ~ product_shape RowMajor (l_shape (t_layout a)) (l_shape (t_layout b)) (l_shape (t_layout c)) /\
  op_mutc_matmul RowMajor Z.mul Z.mul Z.mul Z.add c a b 1 0 = Ok (mkTensor c' (t_layout c)) /\ c' = [10; 20; 7].
Proof. exact l_matmul_output_refuted. Qed.
Print Assumptions C33_output_shape_refuted.

(** C34: matmul into an existing tensor turns c into beta * c + alpha * a b, for every order, every strided operand and every batch; nothing else of c's storage changes.  Missing: a scalar output that does not lie at the start of its storage, see below, and different batch ranks. *)
Theorem C34_matmul_from_partial : forall (A B C : Type) o (mab : A -> B -> C) (mba : B -> A -> C) (zero : C) add mul (a : tensor A) (b : tensor B) (c : tensor C) alpha beta,
  comm_semiring zero add mul -> (forall x y, mba y x = mab x y) ->
  tensor_ok a -> tensor_ok b -> tensor_ok c -> anchored (t_layout a) -> anchored (t_layout b) -> anchored (t_layout c) -> injective (t_layout c) ->
  product_shape o (l_shape (t_layout a)) (l_shape (t_layout b)) (l_shape (t_layout c)) -> same_batch_rank (l_shape (t_layout a)) (l_shape (t_layout b)) ->
  (l_shape (t_layout c) = [] -> l_offset (t_layout c) = 0) ->
  exists c', op_mutc_matmul o mab mba mul add c a b alpha beta = Ok (mkTensor c' (t_layout c)) /\
    is_product o mab zero add mul alpha beta (t_data a) (t_layout a) (t_data b) (t_layout b) (t_data c) (t_layout c) c'.
Proof. exact l_matmul_from. Qed.
Definition ex_c2 : tensor Z := mkTensor [1; 1; 1; 1; 1; 1; 1; 1] (mkLayout [2; 2]%nat [4; -2] 3).
Example C34_example_from : tensor_ok ex_c2 /\ op_mutc_matmul RowMajor Z.mul Z.mul Z.mul Z.add ex_c2 ex_a2 ex_b2 1 100 = Ok (mkTensor [1; 132; 1; 114; 1; 177; 1; 132] (t_layout ex_c2)).
Proof. split; [concrete_tensor|reflexivity]. Qed.
Print Assumptions C34_matmul_from_partial.

(** C34: the matrix-matrix kernel. *)
Theorem C34_gemm : forall (A B C : Type) (mab : A -> B -> C) (zero : C) add mul a la b lb c lc M K N alpha beta, comm_semiring zero add mul ->
  l_shape la = [M; K] -> l_shape lb = [K; N] -> l_shape lc = [M; N] -> inside la (length a) -> inside lb (length b) -> inside lc (length c) -> injective lc ->
  exists c', gemm mab mul add c lc a la b lb alpha beta = Ok c' /\ is_product RowMajor mab zero add mul alpha beta a la b lb c lc c'.
Proof. exact l_gemm. Qed.
Example C34_example_gemm : gemm Z.mul Z.mul Z.add (repeat 0 4) (mkLayout [2; 2]%nat [2; 1] 0) [1; 2; 3; 4] (mkLayout [2; 2]%nat [2; 1] 0) [5; 6; 7; 8] (mkLayout [2; 2]%nat [2; 1] 0) 1 0 = Ok [19; 22; 43; 50].
Proof. reflexivity. Qed.
Print Assumptions C34_gemm.

(** C34: the matrix-vector kernel. *)
Theorem C34_gemv : forall (A B C : Type) (mab : A -> B -> C) (zero : C) add mul a la b lb c lc M K alpha beta, comm_semiring zero add mul ->
  l_shape la = [M; K] -> l_shape lb = [K] -> l_shape lc = [M] -> inside la (length a) -> inside lb (length b) -> inside lc (length c) -> injective lc ->
  exists c', gemv mab mul add c lc a la b lb alpha beta = Ok c' /\ is_product RowMajor mab zero add mul alpha beta a la b lb c lc c'.
Proof. exact l_gemv. Qed.
Example C34_example_gemv : gemv Z.mul Z.mul Z.add [1; 1] (mkLayout [2]%nat [1] 0) [1; 2; 3; 4] (mkLayout [2; 2]%nat [2; 1] 0) [5; 6] (mkLayout [2]%nat [1] 0) 1 100 = Ok [117; 139].
Proof. reflexivity. Qed.
Print Assumptions C34_gemv.

(** C34: the vector-matrix kernel. *)
Theorem C34_gevm : forall (A B C : Type) (mab : A -> B -> C) (zero : C) add mul a la b lb c lc K N alpha beta, comm_semiring zero add mul ->
  l_shape la = [K] -> l_shape lb = [K; N] -> l_shape lc = [N] -> inside la (length a) -> inside lb (length b) -> inside lc (length c) -> injective lc ->
  exists c', gevm mab mul add c lc a la b lb alpha beta = Ok c' /\ is_product RowMajor mab zero add mul alpha beta a la b lb c lc c'.
Proof. exact l_gevm. Qed.
Example C34_example_gevm : gevm Z.mul Z.mul Z.add [1; 1] (mkLayout [2]%nat [1] 0) [5; 6] (mkLayout [2]%nat [1] 0) [1; 2; 3; 4] (mkLayout [2; 2]%nat [2; 1] 0) 1 100 = Ok [123; 134].
Proof. reflexivity. Qed.
Print Assumptions C34_gevm.

(** C34: the vector-vector kernel, for an output at the start of its storage.  Missing: any other output, see the next theorem. *)
Theorem C34_inner_dot_partial : forall (A B C : Type) (mab : A -> B -> C) (zero : C) add mul a la b lb c lc K alpha beta, comm_semiring zero add mul ->
  l_shape la = [K] -> l_shape lb = [K] -> l_shape lc = [] -> inside la (length a) -> inside lb (length b) -> inside lc (length c) -> l_offset lc = 0 ->
  exists c', inner_dot mab mul add c lc a la b lb alpha beta = Ok c' /\ is_product RowMajor mab zero add mul alpha beta a la b lb c lc c'.
Proof. exact l_inner_dot. Qed.
Example C34_example_dot : inner_dot Z.mul Z.mul Z.add [1; 9] (mkLayout [] [] 0) [5; 6] (mkLayout [2]%nat [1] 0) [1; 2] (mkLayout [2]%nat [1] 0) 1 100 = Ok [117; 9].
Proof. reflexivity. Qed.
Print Assumptions C34_inner_dot_partial.

(** C34: the vector-vector product is written to the first cell of the output's storage whatever the output's offset: the output keeps its old value and another element is overwritten. *)
Theorem C34_inner_dot_refuted : exists (a b c : tensor Z) c', tensor_ok a /\ tensor_ok b /\ tensor_ok c /\ product_shape RowMajor (l_shape (t_layout a)) (l_shape (t_layout b)) (l_shape (t_layout c)) /\
  op_mutc_matmul RowMajor Z.mul Z.mul Z.mul Z.add c a b 1 0 = Ok (mkTensor c' (t_layout c)) /\
  elem c' (t_layout c) [] = elem (t_data c) (t_layout c) [] /\ elem c' (t_layout c) [] <> Some 12 /\ peek c' 0 = Some 12.
Proof. exact l_inner_dot_refuted. Qed.
Print Assumptions C34_inner_dot_refuted.

(** C34: the parallel vector-vector kernel, for every way the scheduler may split the sum. *)
Theorem C34_inner_dot_rayon : forall (A B C : Type) t (mab : A -> B -> C) (zero : C) add mul a la b lb c lc K alpha beta, comm_semiring zero add mul ->
  l_shape la = [K] -> l_shape lb = [K] -> l_shape lc = [] -> inside la (length a) -> inside lb (length b) -> inside lc (length c) ->
  exists c', inner_dot_rayon t mab mul add zero c lc a la b lb alpha beta = Ok c' /\ is_product RowMajor mab zero add mul alpha beta a la b lb c lc c'.
Proof. exact l_inner_dot_rayon. Qed.
Example C34_example_dot_rayon : inner_dot_rayon (Node 1 Leaf (Node 1 Leaf Leaf)) Z.mul Z.mul Z.add 0 [9; 1] (mkLayout [] [] 1) [5; 6; 7] (mkLayout [3]%nat [1] 0) [1; 2; 3] (mkLayout [3]%nat [1] 0) 1 100 = Ok [9; 138].
Proof. reflexivity. Qed.
Print Assumptions C34_inner_dot_rayon.

(** C34: the parallel matrix-matrix kernel gives the product under every schedule of its element tasks. *)
Theorem C34_gemm_rayon : forall (A B C : Type) (mab : A -> B -> C) (zero : C) add mul a la b lb c lc M K N alpha beta r, comm_semiring zero add mul ->
  l_shape la = [M; K] -> l_shape lb = [K; N] -> l_shape lc = [M; N] -> inside la (length a) -> inside lb (length b) -> inside lc (length c) -> injective lc ->
  gemm_rayon mab mul add zero c lc a la b lb alpha beta r ->
  exists c', r = Ok c' /\ is_product RowMajor mab zero add mul alpha beta a la b lb c lc c'.
Proof. exact l_gemm_rayon. Qed.
Example C34_example_rayon : gemm_rayon Z.mul Z.mul Z.add 0 (repeat 0 4) (mkLayout [2; 2]%nat [2; 1] 0) [1; 2; 3; 4] (mkLayout [2; 2]%nat [2; 1] 0) [5; 6; 7; 8] (mkLayout [2; 2]%nat [2; 1] 0) 1 0 (Ok [19; 22; 43; 50]).
Proof. unfold gemm_rayon. cbv [extent l_shape nth Nat.eqb andb]. exists [(1, 1); (0, 0); (1, 0); (0, 1)]%nat. split; [|reflexivity].
  apply NoDup_Permutation; [repeat constructor; cbn; intuition congruence|repeat constructor; cbn; intuition congruence|]. intro x. cbn. intuition congruence. Qed.
Print Assumptions C34_gemm_rayon.

(** C34: matmul scales the uninitialised contents of its fresh result by zero instead of overwriting them, so for numbers that zero does not annihilate (a NaN) the product depends on those contents. *)
Theorem C34_uninitialised_refuted : exists (a b : tensor (option Z)), tensor_ok a /\ tensor_ok b /\
  op_matmul Fixed RowMajor nan_mul nan_mul nan_mul nan_add (Some 0) (fun _ => Some 9) a b (Some 1) = Ok (mkTensor [Some 6] (mkLayout [1; 1]%nat [1; 1] 0)) /\
  op_matmul Fixed RowMajor nan_mul nan_mul nan_mul nan_add (Some 0) (fun _ => None) a b (Some 1) = Ok (mkTensor [None] (mkLayout [1; 1]%nat [1; 1] 0)).
Proof. exact l_matmul_junk_refuted. Qed.
Print Assumptions C34_uninitialised_refuted.
