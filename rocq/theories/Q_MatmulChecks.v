(** The kernels of matrix products refuse operands whose extents do not fit together *)
From Verif Require Import Base Spec M_Layout M_Indexer M_Iter M_Matmul.
Local Open Scope Z_scope.

Lemma l_gemm_mismatch : forall (A B C : Type) (mab : A -> B -> C) (mul add : C -> C -> C) (zero : C) a la b lb c lc Ma Ka Kb Nb Mc Nc alpha beta,
  l_shape la = [Ma; Ka] -> l_shape lb = [Kb; Nb] -> l_shape lc = [Mc; Nc] -> ~ (Mc = Ma /\ Ka = Kb /\ Nc = Nb) ->
  gemm mab mul add c lc a la b lb alpha beta = Err InvalidLayout /\
  forall r, gemm_rayon mab mul add zero c lc a la b lb alpha beta r -> r = Err InvalidLayout.
Proof. intros A B C mab mul add zero a la b lb c lc Ma Ka Kb Nb Mc Nc alpha beta Sa Sb Sc H. unfold gemm, gemm_rayon, extent. rewrite Sa, Sb, Sc. cbn [nth].
  destruct (Nat.eqb_spec Mc Ma), (Nat.eqb_spec Ka Kb), (Nat.eqb_spec Nc Nb); subst; cbn [andb check bind]; auto. exfalso; auto. Qed.
Lemma l_gemv_mismatch : forall (A B C : Type) (mab : A -> B -> C) (mul add : C -> C -> C) a la b lb c lc M Ka Kb Mc alpha beta,
  l_shape la = [M; Ka] -> l_shape lb = [Kb] -> l_shape lc = [Mc] -> ~ (Mc = M /\ Ka = Kb) ->
  gemv mab mul add c lc a la b lb alpha beta = Err InvalidLayout.
Proof. intros A B C mab mul add a la b lb c lc M Ka Kb Mc alpha beta Sa Sb Sc H. unfold gemv, extent. rewrite Sa, Sb, Sc. cbn [nth].
  destruct (Nat.eqb_spec Mc M), (Nat.eqb_spec Ka Kb); subst; cbn [andb check bind]; auto. exfalso; auto. Qed.
Lemma l_gevm_mismatch : forall (A B C : Type) (mab : A -> B -> C) (mul add : C -> C -> C) a la b lb c lc Ka Kb N Nc alpha beta,
  l_shape la = [Ka] -> l_shape lb = [Kb; N] -> l_shape lc = [Nc] -> ~ (Ka = Kb /\ Nc = N) ->
  gevm mab mul add c lc a la b lb alpha beta = Err InvalidLayout.
Proof. intros A B C mab mul add a la b lb c lc Ka Kb N Nc alpha beta Sa Sb Sc H. unfold gevm, extent. rewrite Sa, Sb, Sc. cbn [nth].
  destruct (Nat.eqb_spec Nc N), (Nat.eqb_spec Ka Kb), (Nat.eqb_spec Kb Ka), (Nat.eqb_spec N Nc); subst; cbn [andb check bind]; auto; exfalso; auto. Qed.
Lemma l_dot_mismatch : forall (A B C : Type) t (mab : A -> B -> C) (mul add : C -> C -> C) (zero : C) a la b lb c lc Ka Kb alpha beta,
  l_shape la = [Ka] -> l_shape lb = [Kb] -> Ka <> Kb ->
  inner_dot mab mul add c lc a la b lb alpha beta = Err InvalidLayout /\ inner_dot_rayon t mab mul add zero c lc a la b lb alpha beta = Err InvalidLayout.
Proof. intros A B C t mab mul add zero a la b lb c lc Ka Kb alpha beta Sa Sb H. unfold inner_dot, inner_dot_rayon, extent. rewrite Sa, Sb. cbn [nth]. apply Nat.eqb_neq in H. now rewrite H. Qed.
