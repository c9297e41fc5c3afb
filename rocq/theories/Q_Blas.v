(** The theorems about the BLAS and LAPACK wrappers. *)
From Verif Require Import Base Spec Spec_Matmul Spec_Tri Spec_Blas P_Index P_List M_Layout P_Layout P_Bounds P_Contig P_Strides M_Indexer P_Indexer M_Broadcast P_Broadcast M_Rearr P_Rearr P_BinOp M_Iter P_Iter M_Kernel P_Kernel Q_Kernel M_Tensor P_Tensor Q_Tensor Q_Copy P_Arg P_Axes M_Matmul P_Matmul P_Matmul2 P_Matmul3 P_Matmul4 Q_Matmul M_Tri P_Tri P_Tri2 P_Tri3 P_Tri4 Q_Tri M_Fast P_Fast P_Fast2 P_Fast3 P_Creation M_Blas Spec_BlasApi P_Blas P_Blas2 P_Blas3 P_Blas4.
Local Open Scope Z_scope.

Lemma l_gemm : forall (T : Type) (zero : T) add mul conj dev dflt (a b : tensor T) c alpha beta ta tb o ma na A mb nb B m n k C,
  (forall x y, mul x y = mul y x) ->
  tensor_ok a -> at_start (t_layout a) -> holds (t_data a) (t_layout a) ma na A -> nonempty ma na -> ta <> ConjOnly ->
  tensor_ok b -> at_start (t_layout b) -> holds (t_data b) (t_layout b) mb nb B -> nonempty mb nb -> tb <> ConjOnly ->
  op_shape ta ma na = (m, k) -> op_shape tb mb nb = (k, n) -> output_ok c zero m n C ->
  exists y, gemm zero add mul conj dev dflt a b c alpha beta ta tb o = Ok y /\
    delivered c y m n (fun i j => add (mul alpha (product zero add mul k (op_of conj ta A) (op_of conj tb B) i j)) (mul beta (C i j))).
Proof. intros. now apply (gemm_ok zero add mul conj dev dflt a b c alpha beta ta tb o ma na A mb nb B m n k C). Qed.
Lemma l_gemm_shape : forall (T : Type) (zero : T) add mul conj dev dflt (a b : tensor T) c alpha beta ta tb o ma na A mb nb B,
  tensor_ok a -> holds (t_data a) (t_layout a) ma na A -> nonempty ma na -> tensor_ok b -> holds (t_data b) (t_layout b) mb nb B -> nonempty mb nb ->
  match c with Some c => tensor_ok c | None => True end ->
  ta = ConjOnly \/ tb = ConjOnly \/ snd (op_shape ta ma na) <> fst (op_shape tb mb nb) \/
    match c with Some c => exists x y, l_shape (t_layout c) = [x; y] /\ (x, y) <> (fst (op_shape ta ma na), snd (op_shape tb mb nb)) | None => False end ->
  exists e, gemm zero add mul conj dev dflt a b c alpha beta ta tb o = Err e.
Proof. intros T zero add mul conj dev dflt a b c alpha beta ta tb o ma na A mb nb B H1 H2 H3 H4 H5 H6 H7 H8. eapply gemm_err; eauto. Qed.
Lemma l_symm_square : forall (T : Type) (zero one : T) add mul conj re dev dflt hermi (a b : tensor T) c alpha beta s u o A B n C,
  (forall x y, mul x y = mul y x) -> n <> 0%nat ->
  tensor_ok a -> holds (t_data a) (t_layout a) n n A -> tensor_ok b -> holds (t_data b) (t_layout b) n n B ->
  (hermi = true \/ forall i j, (i < n)%nat -> (j < n)%nat -> A i j = A j i) -> output_ok c zero n n C ->
  exists y, syhemm zero one add mul conj re dev dflt hermi a b c alpha beta s u o = Ok y /\
    delivered c y n n (combined add mul alpha beta (side_product zero add mul s n n (symmetric_from conj re hermi u A) B) C).
Proof. intros T zero one add mul conj re dev dflt hermi a b c alpha beta s u o A B n C MC NE Ha HA Hb HB SY HC. apply syhemm_ok; auto; [now destruct s|now split|]. destruct SY as [SY|SY]; auto. right. right. now destruct s. Qed.
Lemma l_symm_rect : forall (T : Type) (zero one : T) add mul conj re dev dflt hermi (a b : tensor T) alpha beta s u A B m n,
  (forall x y, mul x y = mul y x) -> nonempty m n ->
  match dev, s with RowMajor, SLeft => True | ColMajor, SRight => True | _, _ => False end ->
  tensor_ok a -> holds (t_data a) (t_layout a) (side_extent s m n) (side_extent s m n) A -> tensor_ok b -> holds (t_data b) (t_layout b) m n B ->
  (hermi = true \/ match dev with RowMajor => c_prefer (t_layout a) | ColMajor => f_prefer (t_layout a) end = true \/ forall i j, (i < side_extent s m n)%nat -> (j < side_extent s m n)%nat -> A i j = A j i) ->
  exists y, syhemm zero one add mul conj re dev dflt hermi a b None alpha beta s u None = Ok y /\
    delivered None y m n (combined add mul alpha beta (side_product zero add mul s m n (symmetric_from conj re hermi u A) B) (fun _ _ => zero)).
Proof. intros T zero one add mul conj re dev dflt hermi a b alpha beta s u A B m n MC NE DS Ha HA Hb HB SY. apply syhemm_ok; auto. intros i j _ _. reflexivity. Qed.
Lemma l_trsm : forall (T : Type) (zero one : T) add mul conj dev dflt lib (a : tensor T) r alpha s u t unit o A B m n,
  (forall x y, mul x y = mul y x) -> conj zero = zero -> conj one = one ->
  library_solves zero add mul conj lib (side_extent s m n) (op_of conj t (triangular zero one (chosen dev u) unit A)) ->
  tensor_ok a -> at_start (t_layout a) -> holds (t_data a) (t_layout a) (side_extent s m n) (side_extent s m n) A -> operand_ok r m n B -> nonempty m n -> t <> ConjOnly ->
  exists y X, trsm zero one conj dev dflt lib a r alpha s u t unit o = Ok y /\ delivered (target_of r) y m n X /\
    solves zero add mul s m n (op_of conj t (triangular zero one (chosen dev u) unit A)) X (fun i j => mul alpha (B i j)).
Proof. change chosen with default_uplo. intros. now apply (trsm_ok zero one add mul conj dev dflt lib a r alpha s u t unit o A B m n). Qed.
Lemma l_solve_triangular : forall (T : Type) (zero one : T) add mul conj dev dflt lib (a : tensor T) r u A B m n,
  (forall x y, mul x y = mul y x) -> (forall x, mul one x = x) -> conj zero = zero -> conj one = one ->
  library_solves zero add mul conj lib m (triangular zero one (chosen dev u) false A) ->
  tensor_ok a -> at_start (t_layout a) -> holds (t_data a) (t_layout a) m m A -> operand_ok r m n B -> nonempty m n ->
  exists y X, solve_triangular zero one conj dev dflt lib a r u = Ok y /\ delivered (target_of r) y m n X /\
    solves zero add mul SLeft m n (triangular zero one (chosen dev u) false A) X B.
Proof. change chosen with default_uplo. intros T zero one add mul conj dev dflt lib a r u A B m n MC M1 C0 C1 LS Ha Sa HA HB NE. unfold solve_triangular.
  destruct (l_trsm T zero one add mul conj dev dflt lib a r one SLeft u NoTrans false None A B m n) as (y & X & -> & D & S0); auto; [discriminate|]. cbn [bind].
  exists y, X. split; [eapply delivered_clone; eauto|]. split; auto. intros i j Hi Hj. rewrite <- (M1 (B i j)). now apply S0. Qed.
Lemma l_solve_general : forall (T : Type) dev dflt lib (ra rb : reference T) n nrhs A B,
  nonempty n nrhs -> lapack_operand ra n n A -> not_broadcast ra -> lapack_operand rb n nrhs B ->
  match lib n nrhs (rows n n A) (rows n nrhs B) with
  | None => exists e, solve_general dev dflt lib ra rb = Err e
  | Some (F, p, X) => exists y, solve_general dev dflt lib ra rb = Ok y /\ delivered (target_of rb) y n nrhs X
  end.
Proof. intros T dev dflt lib ra rb n nrhs A B NE HA NB HB. pose proof (solve_with_ok dev dflt (fun _ _ _ => None) (fun _ _ _ => None) (fun _ _ _ _ => None) _ _ ra rb n nrhs A B (driver_gesv_ok (fun _ _ _ => None) (fun _ _ _ => None) lib) NE HA NB HB) as X. unfold gesv_of in X. unfold solve_general, gesv.
  destruct (lib n nrhs _ _) as [[[F p] X0]|]; [|rewrite X; cbn [bind]; eauto]. destruct X as (ya & yb & -> & Da & Db). cbn [bind snd]. exists yb. split; auto. eapply delivered_clone; eauto. Qed.
Lemma l_gesv : forall (T : Type) dev dflt lib (ra rb : reference T) n nrhs A B,
  nonempty n nrhs -> lapack_operand ra n n A -> not_broadcast ra -> lapack_operand rb n nrhs B ->
  match lib n nrhs (rows n n A) (rows n nrhs B) with
  | None => exists e, gesv dev dflt lib ra rb = Err e
  | Some (F, p, X) => exists ya yb, gesv dev dflt lib ra rb = Ok (ya, map (fun i => i - 1)%Z p, yb) /\ delivered (target_of ra) ya n n F /\ delivered (target_of rb) yb n nrhs X
  end.
Proof. intros T dev dflt lib ra rb n nrhs A B NE HA NB HB. pose proof (solve_with_ok dev dflt (fun _ _ _ => None) (fun _ _ _ => None) (fun _ _ _ _ => None) _ _ ra rb n nrhs A B (driver_gesv_ok (fun _ _ _ => None) (fun _ _ _ => None) lib) NE HA NB HB) as X. unfold gesv_of in X. unfold gesv.
  destruct (lib n nrhs _ _) as [[[F p] X0]|]; [|rewrite X; cbn [bind]; eauto]. destruct X as (ya & yb & -> & Da & Db). cbn [bind fst snd]. eauto. Qed.
Lemma l_solve_general_solves : forall (T : Type) (zero : T) add mul dev dflt lib (ra rb : reference T) n nrhs A B y,
  nonempty n nrhs -> lapack_operand ra n n A -> not_broadcast ra -> lapack_operand rb n nrhs B ->
  (forall F p X, lib n nrhs (rows n n A) (rows n nrhs B) = Some (F, p, X) -> solves zero add mul SLeft n nrhs A X B) ->
  solve_general dev dflt lib ra rb = Ok y -> exists X, delivered (target_of rb) y n nrhs X /\ solves zero add mul SLeft n nrhs A X B.
Proof. intros T zero add mul dev dflt lib ra rb n nrhs A B y NE HA NB HB L E. pose proof (l_solve_general T dev dflt lib ra rb n nrhs A B NE HA NB HB) as X.
  destruct (lib n nrhs _ _) as [[[F p] X0]|]; [|destruct X as (e & X); congruence]. destruct X as (y' & E' & D). rewrite E in E'. injection E' as <-. eauto. Qed.
Lemma l_solve_symmetric : forall (T : Type) (zero one : T) dev dflt lib hermi (ra rb : reference T) u n nrhs A B,
  nonempty n nrhs -> tensor_ok (ref_of ra) -> holds (t_data (ref_of ra)) (t_layout (ref_of ra)) n n A -> lapack_operand rb n nrhs B ->
  match lib hermi (chosen dev u) n nrhs (rows n n (triangular zero one (chosen dev u) false A)) (rows n nrhs B) with
  | None => exists e, solve_symmetric zero one dev dflt lib hermi ra rb u = Err e
  | Some (F, p, X) => exists y, solve_symmetric zero one dev dflt lib hermi ra rb u = Ok y /\ delivered (target_of rb) y n nrhs X
  end.
Proof. change chosen with default_uplo. intros T zero one dev dflt lib hermi ra rb u n nrhs A B NE Ta HA HB. assert (OA : lapack_operand (Ref (ref_of ra)) n n A) by (split; [|split]; auto).
  pose proof (solve_with_ok dev dflt (fun _ _ _ => None) (fun _ _ _ => None) (fun _ _ _ _ => None) _ _ (Ref (ref_of ra)) rb n nrhs A B (driver_sysv_ok zero one (fun _ _ _ => None) (fun _ _ _ => None) (fun _ _ _ _ => None) (fun _ _ _ => None) lib hermi (default_uplo dev u)) NE OA I HB) as X. unfold sysv_of in X. unfold solve_symmetric, sysv. change (default_uplo dev (Some (default_uplo dev u))) with (default_uplo dev u).
  destruct (lib hermi _ n nrhs _ _) as [[[F p] X0]|]; [|rewrite X; cbn [bind]; eauto]. destruct X as (ya & yb & -> & Da & Db). cbn [bind snd]. exists yb. split; auto. eapply delivered_clone; eauto. Qed.
Lemma l_solve_symmetric_solves : forall (T : Type) (zero one : T) add mul conj re dev dflt lib hermi (ra rb : reference T) u n nrhs A B y,
  nonempty n nrhs -> tensor_ok (ref_of ra) -> holds (t_data (ref_of ra)) (t_layout (ref_of ra)) n n A -> lapack_operand rb n nrhs B ->
  (forall F p X, lib hermi (chosen dev u) n nrhs (rows n n (triangular zero one (chosen dev u) false A)) (rows n nrhs B) = Some (F, p, X) ->
    solves zero add mul SLeft n nrhs (symmetric_from conj re hermi (chosen dev u) A) X B) ->
  solve_symmetric zero one dev dflt lib hermi ra rb u = Ok y ->
  exists X, delivered (target_of rb) y n nrhs X /\ solves zero add mul SLeft n nrhs (symmetric_from conj re hermi (chosen dev u) A) X B.
Proof. change chosen with default_uplo. intros T zero one add mul conj re dev dflt lib hermi ra rb u n nrhs A B y NE Ta HA HB L E. pose proof (l_solve_symmetric T zero one dev dflt lib hermi ra rb u n nrhs A B NE Ta HA HB) as X.
  destruct (lib hermi _ n nrhs _ _) as [[[F p] X0]|]; [|destruct X as (e & X); congruence]. destruct X as (y' & E' & D). rewrite E in E'. injection E' as <-. eauto. Qed.
Lemma l_solve_shape : forall (T : Type) (zero one : T) dev dflt lib slib hermi (ra rb : reference T) u ma na n nrhs A B,
  nonempty ma na -> nonempty n nrhs -> lapack_operand ra ma na A -> not_broadcast ra -> lapack_operand rb n nrhs B -> (ma, na) <> (n, n) ->
  (exists e, solve_general dev dflt lib ra rb = Err e) /\ (exists e, solve_symmetric zero one dev dflt slib hermi ra rb u = Err e).
Proof. intros T zero one dev dflt lib slib hermi ra rb u ma na n nrhs A B NA NE HA NB HB D. split.
  - unfold solve_general, gesv. rewrite (solve_with_err dev dflt _ ra rb ma na n nrhs A B NA NE HA NB HB D). cbn [bind]. eauto.
  - unfold solve_symmetric, sysv. rewrite (solve_with_err dev dflt _ (Ref (ref_of ra)) rb ma na n nrhs A B NA NE); [cbn [bind]; eauto| |exact I|exact HB|exact D]. destruct HA as (H1 & H2 & _). split; [|split]; auto. Qed.
Lemma l_inv : forall (T : Type) dev dflt getrf_lib getri_lib (r : reference T) n A, nonempty n n -> lapack_operand r n n A ->
  match match getrf_lib n n (rows n n A) with None => None | Some (F, p) => getri_lib n (rows n n F) p end with
  | None => exists e, inv dev dflt getrf_lib getri_lib r = Err e
  | Some V => exists y, inv dev dflt getrf_lib getri_lib r = Ok y /\ delivered (target_of r) y n n V
  end.
Proof. intros T dev dflt getrf_lib getri_lib r n A NE HR. pose proof (inv_ok dev dflt getrf_lib getri_lib r n A NE HR) as X. destruct (match getrf_lib n n _ with None => None | Some _ => _ end); auto. eauto. Qed.
Lemma l_inv_inverts : forall (T : Type) (zero one : T) add mul dev dflt getrf_lib getri_lib (r : reference T) n A y, nonempty n n -> lapack_operand r n n A ->
  (forall F p V, getrf_lib n n (rows n n A) = Some (F, p) -> getri_lib n (rows n n F) p = Some V ->
    solves zero add mul SLeft n n A V (identity zero one) /\ solves zero add mul SRight n n A V (identity zero one)) ->
  inv dev dflt getrf_lib getri_lib r = Ok y ->
  exists V, delivered (target_of r) y n n V /\ solves zero add mul SLeft n n A V (identity zero one) /\ solves zero add mul SRight n n A V (identity zero one).
Proof. intros T zero one add mul dev dflt getrf_lib getri_lib r n A y NE HR L E. pose proof (l_inv T dev dflt getrf_lib getri_lib r n A NE HR) as X. destruct (getrf_lib n n (rows n n A)) as [[F p]|]; [|destruct X as (e & X); congruence].
  destruct (getri_lib n (rows n n F) p) as [V|] eqn:G; [|destruct X as (e & X); congruence]. destruct X as (y' & E' & D). rewrite E in E'. injection E' as <-. exists V. split; auto. eapply L; eauto. Qed.
Lemma l_inv_shape : forall (T : Type) dev dflt getrf_lib getri_lib (r : reference T) m n A, nonempty m n -> lapack_operand r m n A -> m <> n -> exists e, inv dev dflt getrf_lib getri_lib r = Err e.
Proof. intros T dev dflt getrf_lib getri_lib r m n A NE HR D. now apply (inv_err dev dflt getrf_lib getri_lib (fun _ _ _ _ => None) (fun _ _ _ => None) r m n A). Qed.
Lemma l_cholesky : forall (T : Type) (zero one : T) dev dflt lib (r : reference T) u n A, nonempty n n -> lapack_operand r n n A ->
  match lib (chosen dev u) n (rows n n (triangular zero one (chosen dev u) false A)) with
  | None => exists e, cholesky zero one dev dflt lib r u = Err e
  | Some F => exists y, cholesky zero one dev dflt lib r u = Ok y /\ delivered (target_of r) y n n (triangular zero one (chosen dev u) false F)
  end.
Proof. change chosen with default_uplo. intros T zero one dev dflt lib r u n A NE HR. pose proof (cholesky_ok zero one dev dflt (fun _ _ _ => None) (fun _ _ _ => None) (fun _ _ _ _ => None) lib (fun _ _ _ _ _ _ => None) r u n A NE HR) as X. cbv zeta in X. destruct (lib _ n _); auto. eauto. Qed.
Lemma l_cholesky_factors : forall (T : Type) (zero one : T) add mul conj re dev dflt lib (r : reference T) u n A y, nonempty n n -> lapack_operand r n n A ->
  (forall F, lib (chosen dev u) n (rows n n (triangular zero one (chosen dev u) false A)) = Some F ->
    forall i j, (i < n)%nat -> (j < n)%nat -> let L := triangular zero one (chosen dev u) false F in
    match chosen dev u with Lower => product zero add mul n L (op_of conj ConjTrans L) i j | Upper => product zero add mul n (op_of conj ConjTrans L) L i j end = symmetric_from conj re true (chosen dev u) A i j) ->
  cholesky zero one dev dflt lib r u = Ok y ->
  exists L, delivered (target_of r) y n n L /\ (forall i j, (i < n)%nat -> (j < n)%nat -> in_triangle (chosen dev u) i j = false -> L i j = zero) /\
    forall i j, (i < n)%nat -> (j < n)%nat ->
    match chosen dev u with Lower => product zero add mul n L (op_of conj ConjTrans L) i j | Upper => product zero add mul n (op_of conj ConjTrans L) L i j end = symmetric_from conj re true (chosen dev u) A i j.
Proof. change chosen with default_uplo. intros T zero one add mul conj re dev dflt lib r u n A y NE HR L E. pose proof (l_cholesky T zero one dev dflt lib r u n A NE HR) as X. destruct (lib _ n _) as [F|]; [|destruct X as (e & X); congruence]. destruct X as (y' & E' & D). rewrite E in E'. injection E' as <-.
  eexists. split; [exact D|]. split; [|now apply L]. intros i j Hi Hj Z0. unfold triangular. cbn [andb]. change chosen with default_uplo; now rewrite Z0. Qed.

(** ** counterexamples, over Z *)
Notation gemmZ dev a b c ta tb o := (gemm 0 Z.add Z.mul (fun x : Z => x) dev RowMajor a b c 1 0 ta tb o).
Notation symmZ hermi dev a b s u := (syhemm 0 1 Z.add Z.mul (fun x : Z => x) (fun x => x) dev RowMajor hermi a b None 1 0 s u None).
Lemma l_gemm_offset_refuted : exists (a b : tensor Z) y, tensor_ok a /\ tensor_ok b /\ holds (t_data a) (t_layout a) 2 2 (fun i j => Z.of_nat (2 * i + j + 1)) /\ holds (t_data b) (t_layout b) 2 2 (identity 0 1) /\
  gemmZ RowMajor a b None NoTrans NoTrans None = Ok (Owned y) /\ at_ y [0; 0]%nat = Some 9.
Proof. exists (mkTensor [9; 1; 2; 3; 4] (mkLayout [2; 2]%nat [2; 1] 1)), (mkTensor [1; 0; 0; 1] (mkLayout [2; 2]%nat [2; 1] 0)). eexists. split; [concrete_tensor|]. split; [concrete_tensor|].
  split; [split; [reflexivity|]; intros [|[|i]] [|[|j]] Hi Hj; try lia; reflexivity|]. split; [split; [reflexivity|]; intros [|[|i]] [|[|j]] Hi Hj; try lia; reflexivity|]. split; reflexivity. Qed.
Lemma l_gemm_strided_refuted : exists (a b c y : tensor Z), tensor_ok a /\ tensor_ok b /\ tensor_ok c /\ holds (t_data a) (t_layout a) 2 2 (fun i j => Z.of_nat (2 * i + j + 1)) /\ holds (t_data b) (t_layout b) 2 2 (identity 0 1) /\
  l_shape (t_layout c) = [2; 2]%nat /\ gemmZ RowMajor a b (Some c) NoTrans NoTrans None = Ok (MutRef y) /\ at_ y [1; 0]%nat = Some 4 /\
  ~ untouched_outside (t_layout c) (t_data c) (t_data y).
Proof. exists (mkTensor [1; 2; 3; 4] (mkLayout [2; 2]%nat [2; 1] 0)), (mkTensor [1; 0; 0; 1] (mkLayout [2; 2]%nat [2; 1] 0)), (mkTensor [0; 0; 7; 0; 0; 7] (mkLayout [2; 2]%nat [3; 1] 0)). eexists. split; [concrete_tensor|]. split; [concrete_tensor|]. split; [concrete_tensor|].
  split; [split; [reflexivity|]; intros [|[|i]] [|[|j]] Hi Hj; try lia; reflexivity|]. split; [split; [reflexivity|]; intros [|[|i]] [|[|j]] Hi Hj; try lia; reflexivity|]. split; [reflexivity|]. split; [reflexivity|]. split; [reflexivity|].
  intros [_ U]. specialize (U 2). cbn [t_layout t_data l_shape] in U. assert (X : forall ix, valid [2; 2]%nat ix -> addr (mkLayout [2; 2]%nat [3; 1] 0) ix <> 2). { intros ix V. apply P_Fast3.valid2 in V as (i & j & -> & Hi & Hj). rewrite addr2. lia. }
  specialize (U X). discriminate U. Qed.
Lemma l_gemm_order_refuted : exists (a : tensor Z) y z, tensor_ok a /\ gemmZ RowMajor a a None NoTrans NoTrans (Some RowMajor) = Ok (Owned y) /\ f_contig (t_layout y) = true /\ c_contig (t_layout y) = false /\
  gemmZ RowMajor a a None NoTrans NoTrans (Some ColMajor) = Ok (Owned z) /\ c_contig (t_layout z) = true /\ f_contig (t_layout z) = false.
Proof. exists (mkTensor [1; 2; 3; 4] (mkLayout [2; 2]%nat [2; 1] 0)). eexists _, _. split; [concrete_tensor|]. repeat (split; [reflexivity|]). reflexivity. Qed.
Lemma l_gemm_empty_refuted : exists (a b : tensor Z), tensor_ok a /\ tensor_ok b /\ l_shape (t_layout a) = [2; 2]%nat /\ l_shape (t_layout b) = [2; 0]%nat /\ gemmZ RowMajor a b None NoTrans NoTrans None = Panic.
Proof. exists (mkTensor [1; 0; 0; 1] (mkLayout [2; 2]%nat [2; 1] 0)), (mkTensor [] (mkLayout [2; 0]%nat [1; 1] 0)). split; [concrete_tensor|]. split; [concrete_tensor|]. split; [reflexivity|]. split; reflexivity. Qed.
Lemma l_symm_rect_refuted : exists (a b y : tensor Z), tensor_ok a /\ tensor_ok b /\ holds (t_data a) (t_layout a) 2 2 (identity 0 1) /\ l_shape (t_layout b) = [2; 3]%nat /\
  (symmZ true ColMajor a b SLeft Lower = Ok (Owned y) /\ l_shape (t_layout y) = [2; 2]%nat) /\
  exists b', tensor_ok b' /\ l_shape (t_layout b') = [2; 1]%nat /\ symmZ true ColMajor a b' SLeft Lower = Panic.
Proof. exists (mkTensor [1; 0; 0; 1] (mkLayout [2; 2]%nat [2; 1] 0)), (mkTensor [1; 2; 3; 4; 5; 6] (mkLayout [2; 3]%nat [3; 1] 0)). eexists. split; [concrete_tensor|]. split; [concrete_tensor|].
  split; [split; [reflexivity|]; intros [|[|i]] [|[|j]] Hi Hj; try lia; reflexivity|]. split; [reflexivity|]. split; [split; reflexivity|]. exists (mkTensor [1; 2] (mkLayout [2; 1]%nat [1; 2] 0)). split; [concrete_tensor|]. split; reflexivity. Qed.
Lemma l_symm_triangle_refuted : exists (a b y : tensor Z), tensor_ok a /\ tensor_ok b /\ at_ a [1; 0]%nat = Some 5 /\ holds (t_data b) (t_layout b) 2 2 (identity 0 1) /\
  symmZ false RowMajor a b SLeft Lower = Ok (Owned y) /\ at_ y [1; 0]%nat = Some 0.
Proof. exists (mkTensor [1; 5; 0; 1] (mkLayout [2; 2]%nat [1; 2] 0)), (mkTensor [1; 0; 0; 1] (mkLayout [2; 2]%nat [2; 1] 0)). eexists. split; [concrete_tensor|]. split; [concrete_tensor|]. split; [reflexivity|].
  split; [split; [reflexivity|]; intros [|[|i]] [|[|j]] Hi Hj; try lia; reflexivity|]. split; reflexivity. Qed.
(** the identity library solves the systems with the identity matrix; it is given another matrix *)
Lemma l_trsm_offset_refuted : exists (a b : tensor Z), tensor_ok a /\ tensor_ok b /\ l_offset (t_layout a) = 1 /\ holds (t_data a) (t_layout a) 1 1 (identity 0 1) /\ holds (t_data b) (t_layout b) 1 1 (fun _ _ => 6) /\
  forall lib, exists y, solve_triangular 0 1 (fun x => x) RowMajor RowMajor lib a (Ref b) None = Ok (Owned y) /\ at_ y [0; 0]%nat = Some (lib SRight NoTrans 1%nat 1%nat 1 [[2]] [[6]] 0%nat 0%nat).
Proof. exists (mkTensor [2; 1] (mkLayout [1; 1]%nat [1; 1] 1)), (mkTensor [6] (mkLayout [1; 1]%nat [1; 1] 0)). split; [concrete_tensor|]. split; [concrete_tensor|]. split; [reflexivity|].
  split; [split; [reflexivity|]; intros [|i] [|j] Hi Hj; try lia; reflexivity|]. split; [split; [reflexivity|]; intros [|i] [|j] Hi Hj; try lia; reflexivity|]. intro lib. eexists. split; reflexivity. Qed.
Lemma l_trsm_gaps_refuted : exists (a b : tensor Z), tensor_ok a /\ tensor_ok b /\ holds (t_data a) (t_layout a) 2 2 (identity 0 1) /\ holds (t_data b) (t_layout b) 2 2 (fun i j => Z.of_nat (i + 2 * j)) /\ l_offset (t_layout a) = 0 /\ l_offset (t_layout b) = 0 /\
  (forall ix, valid (t_shape b) ix -> addr (t_layout b) ix <> 2) /\ peek (t_data b) 2 = Some 9 /\
  forall lib, let X := lib SLeft NoTrans 2%nat 2%nat 1 [[1; 0]; [0; 1]] [[0; 9]; [1; 2]] in
    solve_triangular 0 1 (fun x => x) ColMajor ColMajor lib a (RMut b) None = Ok (MutRef (mkTensor [X 0%nat 0%nat; X 1%nat 0%nat; X 0%nat 1%nat; X 1%nat 1%nat; 3] (t_layout b))).
Proof. exists (mkTensor [1; 0; 0; 1] (mkLayout [2; 2]%nat [1; 2] 0)), (mkTensor [0; 1; 9; 2; 3] (mkLayout [2; 2]%nat [1; 3] 0)). split; [concrete_tensor|]. split; [concrete_tensor|].
  split; [split; [reflexivity|]; intros [|[|i]] [|[|j]] Hi Hj; try lia; reflexivity|]. split; [split; [reflexivity|]; intros [|[|i]] [|[|j]] Hi Hj; try lia; reflexivity|]. split; [reflexivity|]. split; [reflexivity|].
  split; [intros ix V; apply (P_Iter.in_enum RowMajor) in V; vm_compute in V; repeat (destruct V as [<-|V]; [vm_compute; discriminate|]); destruct V|]. split; [reflexivity|]. intros lib. reflexivity. Qed.
Lemma l_potrf_refuted : exists (t b : tensor Z) lib, tensor_ok t /\ holds (t_data t) (t_layout t) 2 2 (fun i j => if (i =? j)%nat then 4 else 0) /\ potrf 0 1 RowMajor RowMajor lib (RMut t) None = Ok (ToBeCloned t b) /\ at_ b [0; 0]%nat = Some 2 /\ at_ t [0; 0]%nat = Some 4.
Proof. exists (mkTensor [4; 0; 0; 0; 0; 0; 4] (mkLayout [2; 2]%nat [4; 2] 0)). eexists. exists (fun _ _ _ => Some (fun i j => if (i =? j)%nat then 2 else 0)). split; [concrete_tensor|].
  split; [split; [reflexivity|]; intros [|[|i]] [|[|j]] Hi Hj; try lia; reflexivity|]. split; [reflexivity|]. split; reflexivity. Qed.
Lemma l_sysv_pivots_refuted : exists (a b : tensor Z) F p X, tensor_ok a /\ tensor_ok b /\
  (exists ya yb, gesv RowMajor RowMajor (fun _ _ _ _ => Some (F, p, X)) (Ref a) (Ref b) = Ok (ya, [0; 1], yb)) /\
  (exists ya yb, sysv 0 1 RowMajor RowMajor (fun _ _ _ _ _ _ => Some (F, p, X)) false (Ref a) (Ref b) None = Ok (ya, [1; 2], yb)).
Proof. exists (mkTensor [1; 0; 0; 1] (mkLayout [2; 2]%nat [2; 1] 0)), (mkTensor [1; 0] (mkLayout [2; 1]%nat [1; 1] 0)), (fun _ _ => 0), [1; 2], (fun _ _ => 0). split; [concrete_tensor|]. split; [concrete_tensor|]. split; eexists _, _; reflexivity. Qed.
