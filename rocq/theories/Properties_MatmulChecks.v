(** Property theorems about the operands that the kernels of matrix products refuse (C34).  Statements use Spec.v and the kernels of M_Matmul.v only. *)
From Verif Require Import Base Spec M_Layout M_Indexer M_Iter M_Matmul Q_MatmulChecks.
Local Open Scope Z_scope.

(** C34: extents that do not fit together are an error of both kernels, whatever the schedule of the parallel one, and nothing is written. *)
Theorem C34_gemm_mismatch : forall (A B C : Type) (mab : A -> B -> C) (mul add : C -> C -> C) (zero : C) a la b lb c lc Ma Ka Kb Nb Mc Nc alpha beta,
  l_shape la = [Ma; Ka] -> l_shape lb = [Kb; Nb] -> l_shape lc = [Mc; Nc] -> ~ (Mc = Ma /\ Ka = Kb /\ Nc = Nb) ->
  gemm mab mul add c lc a la b lb alpha beta = Err InvalidLayout /\
  forall r, gemm_rayon mab mul add zero c lc a la b lb alpha beta r -> r = Err InvalidLayout.
Proof. exact l_gemm_mismatch. Qed.
Example C34_gemm_mismatch_example : ~ (2 = 2 /\ 3 = 4 /\ 5 = 5)%nat /\ gemm Z.mul Z.mul Z.add [0; 0; 0; 0; 0; 0; 0; 0; 0; 0] (mkLayout [2; 5]%nat [5; 1] 0) [1; 2; 3; 4; 5; 6] (mkLayout [2; 3]%nat [3; 1] 0)
  [1; 2; 3; 4; 5; 6; 7; 8; 9; 10; 1; 2; 3; 4; 5; 6; 7; 8; 9; 10] (mkLayout [4; 5]%nat [5; 1] 0) 1 0 = Err InvalidLayout.
Proof. split; [lia|reflexivity]. Qed.
Print Assumptions C34_gemm_mismatch.

(** C34: the same for a matrix and a vector. *)
Theorem C34_gemv_mismatch : forall (A B C : Type) (mab : A -> B -> C) (mul add : C -> C -> C) a la b lb c lc M Ka Kb Mc alpha beta,
  l_shape la = [M; Ka] -> l_shape lb = [Kb] -> l_shape lc = [Mc] -> ~ (Mc = M /\ Ka = Kb) ->
  gemv mab mul add c lc a la b lb alpha beta = Err InvalidLayout.
Proof. exact l_gemv_mismatch. Qed.
Print Assumptions C34_gemv_mismatch.

(** C34: the same for a vector and a matrix. *)
Theorem C34_gevm_mismatch : forall (A B C : Type) (mab : A -> B -> C) (mul add : C -> C -> C) a la b lb c lc Ka Kb N Nc alpha beta,
  l_shape la = [Ka] -> l_shape lb = [Kb; N] -> l_shape lc = [Nc] -> ~ (Ka = Kb /\ Nc = N) ->
  gevm mab mul add c lc a la b lb alpha beta = Err InvalidLayout.
Proof. exact l_gevm_mismatch. Qed.
Print Assumptions C34_gevm_mismatch.

(** C34: the same for two vectors, on the serial device and for every schedule of the parallel one. *)
Theorem C34_dot_mismatch : forall (A B C : Type) t (mab : A -> B -> C) (mul add : C -> C -> C) (zero : C) a la b lb c lc Ka Kb alpha beta,
  l_shape la = [Ka] -> l_shape lb = [Kb] -> Ka <> Kb ->
  inner_dot mab mul add c lc a la b lb alpha beta = Err InvalidLayout /\ inner_dot_rayon t mab mul add zero c lc a la b lb alpha beta = Err InvalidLayout.
Proof. exact l_dot_mismatch. Qed.
Print Assumptions C34_dot_mismatch.
