(** The theorems about the pseudo-inverse. *)
From Coq Require Import String Ring_theory Ring.
From Verif Require Import Base Spec Spec_Matmul Spec_Tri Spec_Blas P_Index P_List M_Layout P_Layout P_Bounds P_Contig P_Strides M_Indexer P_Indexer M_Broadcast P_Broadcast M_Rearr P_Rearr P_BinOp M_Iter P_Iter M_Kernel P_Kernel Q_Kernel M_Tensor P_Tensor Q_Tensor Q_Copy P_Arg P_Axes M_Matmul P_Matmul P_Matmul2 P_Matmul3 P_Matmul4 Q_Matmul M_Tri P_Tri P_Tri2 P_Tri3 P_Tri4 Q_Tri M_Fast P_Fast P_Fast2 P_Fast3 P_Creation M_Blas Spec_BlasApi P_Blas P_Blas2 P_Blas3 P_Blas4 M_Reduce Q_Reduce M_Linalg Spec_Linalg P_Linalg P_Linalg2 P_Linalg3 Q_Indexer P_Linalg4 P_Linalg5 P_Linalg6.
Local Open Scope Z_scope.

Lemma l_pinv_partial : forall (T R : Type) (zero one : T) add mul sub opp conj scale (emb : R -> T) div radd rmul rzero rgt rmax rlow of_nat eps dev dflt gesdd_lib (t : tensor T) tols m n A F s U V,
  ring_theory zero one add mul sub opp eq -> conjugation add mul conj -> real_scalars zero mul conj scale emb div -> comm_monoid rlow rmax -> nonempty m n -> is_matrix t m n A ->
  gesdd_lib JobS m n (rows m n A) = Some (F, s, U, V) -> decomposes zero add mul scale m n (Nat.min m n) A U s V -> orthonormal_columns zero one add mul conj m (Nat.min m n) U -> orthonormal_rows zero one add mul conj (Nat.min m n) n V ->
  let cut := match tols with Some (atol, rtol) => cut_off radd rmul rmax rlow (Nat.min m n) s atol rtol | None => cut_off radd rmul rmax rlow (Nat.min m n) s rzero (rmul (of_nat (Nat.max m n)) eps) end in
  (forall l, (l < Nat.min m n)%nat -> rgt (s l) cut = true -> emb (s l) <> zero) -> rgt (s 0%nat) cut = true ->
  exists p r B, pinv_f zero one dev dflt gesdd_lib mul radd rmul rzero add conj div rgt rmax rlow of_nat eps t tols = Ok (p, r) /\ is_matrix p n m B /\ numerical_rank rgt (Nat.min m n) s cut r /\
    penrose zero add mul conj m n (product zero add mul r (fun i l => scale (U i l) (s l)) V) B /\
    ((forall l, (r <= l < Nat.min m n)%nat -> emb (s l) = zero) -> penrose zero add mul conj m n A B).
Proof. intros T R zero one add mul sub opp conj scale emb div radd rmul rzero rgt rmax rlow of_nat eps dev dflt gesdd_lib t tols m n A F s U V RT CJ RS MX NE Ht EL HD HU HV cut HN H0.
  set (atol := match tols with Some (a, _) => Some a | None => None end). set (rtol := match tols with Some (_, b) => Some b | None => None end).
  assert (Ec : threshold radd rmul rzero rmax rlow of_nat eps m n s atol rtol = cut). { unfold cut, atol, rtol, threshold, cut_off. destruct tols as [[? ?]|]; reflexivity. }
  assert (M0 : forall x, mul zero x = zero) by apply (ARmul_0_l (Rth_ARth (Eqsth T) (Eq_ext add mul opp) RT)). assert (A0 : forall x, add x zero = x) by (intro; rewrite (Radd_comm RT); apply (Radd_0_l RT)).
  pose proof (pinv_ok zero one add mul conj (Rmul_comm RT) (Rmul_1_l RT) M0 A0 dev dflt gesdd_lib radd rmul rzero div rgt rmax rlow of_nat eps MX t atol rtol m n A NE Ht) as X. rewrite EL in X. cbv zeta in X.
  destruct (take_while_seq (fun x => rgt x (threshold radd rmul rzero rmax rlow of_nat eps m n s atol rtol)) s (Nat.min m n)) as (L & P & D). cbv zeta in *. fold (rank_of radd rmul rzero rgt rmax rlow of_nat eps m n s atol rtol) in *.
  set (r := rank_of _ _ _ _ _ _ _ _ _ _ _ _ _) in *. rewrite Ec in P, D.
  destruct X as (p & E & Hp). { intro Z. rewrite Z in D. destruct D as [D|D]; [destruct NE; lia|congruence]. }
  exists p, r, (inverse_of zero add mul conj div r U s V). split.
  { unfold pinv_f. destruct Ht as (_ & Hh). unfold t_shape. rewrite (holds_shape _ _ _ _ _ Hh). cbn [length Nat.eqb check bind]. unfold atol, rtol in E. destruct tols as [[? ?]|]; exact E. }
  split; [auto|]. split; [now repeat split|].
  assert (PS : penrose zero add mul conj m n (product zero add mul r (fun i l => scale (U i l) (s l)) V) (inverse_of zero add mul conj div r U s V)).
  { apply (penrose_svd zero one add mul sub opp RT conj CJ scale emb div RS m n (Nat.min m n) r); auto. intros l Hl. apply HN; [lia|auto]. }
  split; [auto|]. intro Z0. eapply (penrose_ext zero add mul conj); [|exact PS]. intros i j Hi Hj. rewrite <- HD by auto. apply (product_cut zero one add mul sub opp RT); auto.
  intros l Hl. rewrite (proj1 RS), Z0 by auto. rewrite (Rmul_comm RT). apply (ARmul_0_l (Rth_ARth (Eqsth T) (Eq_ext add mul opp) RT)). Qed.
Lemma l_pinv_fails : forall (T R : Type) (zero one : T) add mul sub opp conj div radd rmul rzero rgt rmax rlow of_nat eps dev dflt gesdd_lib (t : tensor T) (tols : option (R * R)) m n A,
  ring_theory zero one add mul sub opp eq -> comm_monoid rlow rmax ->
  (length (t_shape t) <> 2%nat -> pinv_f zero one dev dflt gesdd_lib mul radd rmul rzero add conj div rgt rmax rlow of_nat eps t tols = Err InvalidLayout) /\
  (nonempty m n -> is_matrix t m n A -> gesdd_lib JobS m n (rows m n A) = None -> pinv_f zero one dev dflt gesdd_lib mul radd rmul rzero add conj div rgt rmax rlow of_nat eps t tols = Err Miscellaneous).
Proof. intros T R zero one add mul sub opp conj div radd rmul rzero rgt rmax rlow of_nat eps dev dflt gesdd_lib t tols m n A RT MX. split.
  - intro N. unfold pinv_f. destruct (Nat.eqb_spec (length (t_shape t)) 2); [contradiction|reflexivity].
  - intros NE (Ht & Hh) E. unfold pinv_f. unfold t_shape. rewrite (holds_shape _ _ _ _ _ Hh). cbn [length Nat.eqb check bind].
    pose proof (gesdd_ok dev dflt gesdd_lib (Ref t) false true m n A NE (Logic.conj Ht (Logic.conj Hh Logic.I)) Logic.I) as X. unfold svd_result in X. cbv zeta iota in X. rewrite E in X. unfold pinv. rewrite X. destruct tols as [[? ?]|]; reflexivity. Qed.
(** the zero matrix *)
Definition zero_lib (j : job) (m n : nat) (A : list (list Z)) : option ((nat -> nat -> Z) * (nat -> Z) * (nat -> nat -> Z) * (nat -> nat -> Z)) := Some (fun _ _ => 0, fun _ => 0, identity 0 1, identity 0 1).
Lemma l_pinv_zero_refuted : exists (t : tensor Z) F s U V, is_matrix t 2 2 (fun _ _ => 0) /\ zero_lib JobS 2 2 (rows 2 2 (fun _ _ => 0)) = Some (F, s, U, V) /\ decomposes 0 Z.add Z.mul Z.mul 2 2 2 (fun _ _ => 0) U s V /\
  orthonormal_columns 0 1 Z.add Z.mul (fun x => x) 2 2 U /\ orthonormal_rows 0 1 Z.add Z.mul (fun x => x) 2 2 V /\
  pinv_f 0 1 ColMajor RowMajor zero_lib Z.mul Z.add Z.mul 0 Z.add (fun x => x) Z.div Z.gtb Z.max 0 Z.of_nat 0 t None = Panic.
Proof. exists (mkTensor [0; 0; 0; 0] (mkLayout [2; 2]%nat [2; 1] 0)). do 4 eexists. split; [split; [concrete_tensor|]; split; [reflexivity|]; intros [|[|i]] [|[|j]] Hi Hj; try lia; reflexivity|]. split; [reflexivity|].
  split; [|split; [|split; [|reflexivity]]]; intros [|[|i]] [|[|j]] Hi Hj; try lia; reflexivity. Qed.
