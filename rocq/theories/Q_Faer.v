From Coq Require Import String Ring_theory Ring.
From Verif Require Import Base Spec Spec_Matmul Spec_Tri Spec_Blas P_Index P_List M_Layout P_Layout P_Bounds P_Contig P_Strides M_Indexer P_Indexer M_Broadcast P_Broadcast M_Rearr P_Rearr P_BinOp M_Iter P_Iter M_Kernel P_Kernel Q_Kernel M_Tensor P_Tensor Q_Tensor Q_Copy P_Arg P_Axes M_Matmul P_Matmul P_Matmul2 P_Matmul3 P_Matmul4 Q_Matmul M_Tri P_Tri P_Tri2 P_Tri3 P_Tri4 Q_Tri M_Fast P_Fast P_Fast2 P_Fast3 Q_Fast P_Creation M_Blas Spec_BlasApi P_Blas P_Blas2 P_Blas3 P_Blas4 M_Reduce Q_Reduce M_Linalg Spec_Linalg P_Linalg P_Linalg2 P_Linalg3 Q_Indexer P_Linalg4 P_Linalg5 P_Linalg6 M_Faer Spec_Faer P_Faer P_Faer2 P_Faer3 P_Faer4 P_Faer5 P_Faer6 P_Faer7.
Local Open Scope Z_scope.

(** C86 *)
Lemma l_faer_reads : forall (T : Type) (t : tensor T) m n A, is_matrix t m n A -> fm_rows (into_faer t) = m /\ fm_cols (into_faer t) = n /\ fm_read (into_faer t) = Ok (rows m n A).
Proof. intros T t m n A H. pose proof (into_faer_holds t m n A H) as F. pose proof F as (E1 & E2 & _). auto using fm_read_ok. Qed.
Lemma l_faer_writes : forall (T : Type) (t : tensor T) m n A X, is_matrix t m n A -> injective (t_layout t) ->
  exists f, fm_write (into_faer t) X = Ok f /\ is_matrix (mkTensor (fm_data f) (t_layout t)) m n X /\ untouched_outside (t_layout t) (t_data t) (fm_data f).
Proof. intros T t m n A X H J. destruct (fm_write_ok (into_faer t) m n A X (into_faer_holds t m n A H) (into_faer_free t m n A H J)) as (f & E & S & _ & Hf & L & U). exists f. split; auto. pose proof (into_faer_back t m n A X f H S Hf) as HB.
  split; [|eapply into_faer_untouched; eauto]. split; [|exact HB]. destruct H as (Ht & _). apply tensor_ok_good in Ht as (G & I). apply tensor_ok_good. split; auto. cbn [t_layout t_data]. change (fm_data (into_faer t)) with (t_data t) in L. now rewrite L. Qed.
Lemma l_faer_owned : forall (T : Type) (cap : nat -> nat) (pad : nat -> T) m n X, (forall k, (k <= cap k)%nat) -> exists t, into_rstsr (fm_new cap pad m n X) = Ok t /\ is_matrix t m n X.
Proof. intros T cap pad m n X CAP. destruct (new_rstsr cap pad CAP m n X) as (t & E & M & _). eauto. Qed.
Lemma good_unshifted sh st off : good (mkLayout sh st off) -> Forall (fun t => 0 <= t) st -> good (mkLayout sh st 0).
Proof. intros ((Ls & _) & _ & C) F. split; [split; [exact Ls|cbn; lia]|]. split.
  - intros ix V. unfold addr. cbn [l_stride l_offset]. clear - F. assert (X : forall st acc ix, Forall (fun t => 0 <= t) st -> 0 <= acc -> 0 <= acc + dot st ix).
    { induction st0 as [|a st0 IH]; intros acc [|i ix0] F0 H; cbn [dot]; try lia. inversion F0; subst. cbn [dot]. specialize (IH acc ix0 H3 H). nia. }
    apply (X st 0 ix F). lia.
  - exact C. Qed.
Lemma l_faer_round_partial : forall (T : Type) (t : tensor T) m n A, is_matrix t m n A -> nonempty m n -> Forall (fun s => 0 <= s) (l_stride (t_layout t)) ->
  exists t', into_rstsr (into_faer t) = Ok t' /\ is_matrix t' m n A /\ l_stride (t_layout t') = l_stride (t_layout t).
Proof. intros T t m n A H (Nm & Nn) F. pose proof H as (Ht & S & _). apply tensor_ok_good in Ht as (G & I). pose proof G as ((Ls & Lo) & _). rewrite S in *. assert (W : l_offset (t_layout t) = addr (t_layout t) [0%nat; 0%nat]) by (symmetry; eapply origin2; eauto).
  specialize (I [0%nat; 0%nat] ltac:(rewrite S; apply valid_pair; lia)). rewrite <- W in I. destruct (t_layout t) as [sh st off] eqn:EL. cbn [l_shape l_stride l_offset] in *. subst sh. destruct st as [|a [|b [|]]]; try discriminate.
  destruct (into_rstsr_ok (into_faer t) m n A) as (t' & E & M & L).
  - unfold into_faer. rewrite EL. cbn [fm_rs fm_cs l_stride nth]. eapply good_unshifted; eauto.
  - now apply into_faer_holds.
  - unfold into_faer. rewrite EL. cbn [fm_ptr fm_data l_offset]. lia.
  - exists t'. split; auto. split; auto. rewrite L. unfold into_faer. rewrite EL. reflexivity. Qed.
Lemma l_faer_round_refuted : exists t : tensor Z, is_matrix t 2 2 (fun i j => match i, j with O, O => 3 | O, _ => 4 | _, O => 1 | _, _ => 2 end) /\ fm_read (into_faer t) = Ok [[3; 4]; [1; 2]] /\ into_rstsr (into_faer t) = Panic.
Proof. exists (mkTensor [1; 2; 3; 4] (mkLayout [2; 2]%nat [-2; 1] 2)). split; [|split; reflexivity]. split; [concrete_tensor|]. split; [reflexivity|]. intros [|[|i]] [|[|j]] Hi Hj; try lia; reflexivity. Qed.

(** C87 *)
Lemma l_faer_svd : forall (T R : Type) (rp : T -> R) dflt cores cap pad svd_lib pool (a : placed T) (full : bool) m n A g, (forall k, (k <= cap k)%nat) -> is_matrix (p_tensor a) m n A ->
  outcome (svd_lib (active pool g) full m n (rows m n A)) pool g (faer_svd_f rp dflt cores cap pad svd_lib pool a full)
    (fun x y => let '(U, s, V) := x in let '(u, sv, vt) := y in
      is_matrix (p_tensor u) m (if full then m else Nat.min m n) U /\ is_vector (p_tensor sv) (Nat.min m n) (fun i => rp (s i)) /\ is_matrix (p_tensor vt) (if full then n else Nat.min m n) n (fun i j => V j i)).
Proof. intros T R rp dflt cores cap pad lib pool a full m n A g CAP H. pose proof (svd_run_ok rp dflt cores cap pad CAP lib pool a full m n A g H) as X. unfold outcome in *. destruct (lib _ _ _ _ _) as [[[U s] V]|e|]; auto. destruct X as ([[u sv] vt] & E & H1 & H2 & H3 & _). exists (u, sv, vt). auto. Qed.
Lemma l_faer_svd_partial : forall (T R : Type) (zero one : T) add mul conj scale (rp : T -> R) dflt cores cap pad svd_lib pool (a : placed T) (full : bool) m n A g u sv vt g', (forall k, (k <= cap k)%nat) -> is_matrix (p_tensor a) m n A ->
  (forall x, conj x = x) ->
  (forall U s V, svd_lib (active pool g) full m n (rows m n A) = Ok (U, s, V) -> decomposes zero add mul scale m n (Nat.min m n) A U (fun l => rp (s l)) (op_of conj ConjTrans V) /\
     orthonormal_columns zero one add mul conj m (if full then m else Nat.min m n) U /\ orthonormal_rows zero one add mul conj (if full then n else Nat.min m n) n (op_of conj ConjTrans V)) ->
  faer_svd_f rp dflt cores cap pad svd_lib pool a full g = (Ok (u, sv, vt), g') ->
  exists U s V, is_matrix (p_tensor u) m (if full then m else Nat.min m n) U /\ is_vector (p_tensor sv) (Nat.min m n) s /\ is_matrix (p_tensor vt) (if full then n else Nat.min m n) n V /\
    decomposes zero add mul scale m n (Nat.min m n) A U s V /\ orthonormal_columns zero one add mul conj m (if full then m else Nat.min m n) U /\ orthonormal_rows zero one add mul conj (if full then n else Nat.min m n) n V.
Proof. intros T R zero one add mul conj scale rp dflt cores cap pad lib pool a full m n A g u sv vt g' CAP H CI C E. pose proof (l_faer_svd T R rp dflt cores cap pad lib pool a full m n A g CAP H) as X. unfold outcome in X. destruct (lib _ _ _ _ _) as [[[U s] V]|e|]; try congruence.
  destruct X as (y & E' & X). rewrite E in E'. injection E' as <- _. destruct X as (H1 & H2 & H3). destruct (C U s V eq_refl) as (C1 & C2 & C3). exists U, (fun l => rp (s l)), (op_of conj ConjTrans V). split; auto. split; auto. split; auto. eapply matrix_ext; [exact H3|]. intros i j _ _. cbn [op_of]. now rewrite CI. Qed.
(** Gaussian integers *)
Definition gz := (Z * Z)%type.
Definition gadd (x y : gz) : gz := (fst x + fst y, snd x + snd y).
Definition gmul (x y : gz) : gz := (fst x * fst y - snd x * snd y, fst x * snd y + snd x * fst y).
Definition gconj (x : gz) : gz := (fst x, - snd x).
Definition gscale (x : gz) (r : Z) : gz := (fst x * r, snd x * r).
Definition i_svd (_ : par) (_ : bool) (_ _ : nat) (_ : list (list gz)) : res ((nat -> nat -> gz) * (nat -> gz) * (nat -> nat -> gz)) := Ok (fun _ _ => (1, 0), fun _ => (1, 0), fun _ _ => (0, -1)).
Lemma l_faer_svd_complex_refuted : exists (a : placed gz) u sv vt, is_matrix (p_tensor a) 1 1 (fun _ _ => (0, 1)) /\
  (forall g U s V, i_svd g false 1 1 [[(0, 1)]] = Ok (U, s, V) -> decomposes (0, 0) gadd gmul gscale 1 1 1 (fun _ _ => (0, 1)) U (fun l => fst (s l)) (op_of gconj ConjTrans V) /\
     orthonormal_columns (0, 0) (1, 0) gadd gmul gconj 1 1 U /\ orthonormal_rows (0, 0) (1, 0) gadd gmul gconj 1 1 (op_of gconj ConjTrans V)) /\
  faer_svd_f fst RowMajor 4 (fun k => k) (fun _ => (0, 0)) i_svd (Some 4%nat) a false ParSeq = (Ok (u, sv, vt), ParSeq) /\
  forall U s V, is_matrix (p_tensor u) 1 1 U -> is_vector (p_tensor sv) 1 s -> is_matrix (p_tensor vt) 1 1 V -> ~ decomposes (0, 0) gadd gmul gscale 1 1 1 (fun _ _ => (0, 1)) U s V.
Proof. exists (mkPlaced (mkTensor [(0, 1)] (mkLayout [1; 1]%nat [1; 1] 0)) (mkDevice 4 RowMajor)), (mkPlaced (mkTensor [(1, 0)] (mkLayout [1; 1]%nat [1; 1] 0)) (mkDevice 4 RowMajor)), (mkPlaced (mkTensor [1] (mkLayout [1]%nat [1] 0)) (mkDevice 4 RowMajor)),
    (mkPlaced (mkTensor [(0, -1)] (mkLayout [1; 1]%nat [1; 1] 0)) (mkDevice 4 RowMajor)). split.
  - split; [concrete_tensor|]. split; [reflexivity|]. intros [|i] [|j] Hi Hj; try lia; reflexivity.
  - split; [|split; [vm_compute; reflexivity|]].
    + intros g U s V E. injection E as <- <- <-. split; [|split]; intros [|i] [|j] Hi Hj; try lia; reflexivity.
    + cbn [p_tensor]. intros U s V (_ & _ & HU) (_ & _ & Hs) (_ & _ & HV) D. specialize (HU 0%nat 0%nat ltac:(lia) ltac:(lia)). specialize (Hs 0%nat ltac:(lia)). specialize (HV 0%nat 0%nat ltac:(lia) ltac:(lia)). specialize (D 0%nat 0%nat ltac:(lia) ltac:(lia)).
      cbv in HU, Hs, HV. injection HU as HU. injection Hs as Hs. injection HV as HV. unfold product, sum_over in D. cbn in D. rewrite <- HU, <- Hs, <- HV in D. discriminate. Qed.
Lemma l_faer_svdvals : forall (T R : Type) svdvals_lib pool (a : placed T) m n A g, is_matrix (p_tensor a) m n A ->
  outcome (svdvals_lib (active pool g) m n (rows m n A)) pool g (faer_svdvals svdvals_lib pool a)
    (fun l y => forall f : nat -> R, (forall i, (i < length l)%nat -> nth_error l i = Some (f i)) -> is_vector (p_tensor y) (length l) f).
Proof. intros T R lib pool a m n A g H. pose proof (svdvals_run_ok lib pool a m n A g H) as X. unfold outcome in *. destruct (lib _ _ _ _) as [l|e|]; auto. destruct X as (y & E & _ & Q). eauto. Qed.
Lemma l_faer_pinv_partial : forall (T R : Type) (zero one : T) add mul sub opp conj scale (emb : R -> T) div (rp : T -> R) dflt cores cap pad svd_lib eqb radd rmul rzero rcmp rgt of_nat eps tree tri sched junk pool (a : placed T) tols m n A U sv V g,
  ring_theory zero one add mul sub opp eq -> conjugation add mul conj -> real_scalars zero mul conj scale emb div -> (forall k, (k <= cap k)%nat) -> (forall x y, eqb x y = true <-> x = y) -> ordered rcmp ->
  (forall l, Permutation (tri l) l) -> (forall l, Permutation (sched l) l) -> nonempty m n -> is_matrix (p_tensor a) m n A ->
  let k := Nat.min m n in let s := fun l => rp (sv l) in
  svd_lib (active pool g) false m n (rows m n A) = Ok (U, sv, V) -> decomposes zero add mul scale m n k A U s (op_of conj ConjTrans V) -> orthonormal_columns zero one add mul conj m k U -> orthonormal_rows zero one add mul conj k n (op_of conj ConjTrans V) ->
  exists p r B mx, faer_pinv_f zero one conj rp dflt cores cap pad svd_lib add mul eqb div radd rmul rzero rcmp rgt of_nat eps tree tri sched junk pool a tols g = (Ok (p, r), g) /\ is_matrix (p_tensor p) n m B /\ greatest rcmp k s mx /\
    let cut := match tols with Some (atol, rtol) => radd atol (rmul rtol mx) | None => radd rzero (rmul (rmul (of_nat (Nat.max m n)) eps) mx) end in
    numerical_rank rgt k s cut r /\
    ((forall l, (l < k)%nat -> rgt (s l) cut = true -> emb (s l) <> zero) ->
     penrose zero add mul conj m n (product zero add mul r (fun i l => scale (U i l) (s l)) (op_of conj ConjTrans V)) B /\
     ((forall l, (r <= l < k)%nat -> emb (s l) = zero) -> penrose zero add mul conj m n A B)).
Proof. intros T R zero one add mul sub opp conj scale emb div rp dflt cores cap pad lib eqb radd rmul rzero rcmp rgt of_nat eps tree tri sched junk pool a tols m n A U sv V g RT CJ RS CAP EQ TO PT PS NE H k s EL HD HU HV.
  set (atol := match tols with Some (a, _) => Some a | None => None end). set (rtol := match tols with Some (_, b) => Some b | None => None end).
  pose proof (faer_pinv_ok zero one add mul sub opp RT conj rp dflt cores cap pad CAP lib eqb EQ div radd rmul rzero rcmp rgt of_nat eps TO tree tri sched junk PT PS pool a atol rtol m n A g NE H) as X. unfold outcome in X. rewrite EL in X.
  destruct X as ([p r] & E & mx & GM & NR & MP & _). cbn [fst snd] in *. fold k s in GM, NR, MP.
  exists p, r, (inverse_of zero add mul conj div r U s (op_of conj ConjTrans V)), mx. split.
  { unfold faer_pinv_f. rewrite (rank_two _ _ _ _ H). cbn [check]. rewrite (lift_ok _ tt) by reflexivity. unfold atol, rtol in E. destruct tols as [[? ?]|]; exact E. }
  split. { eapply matrix_ext; [exact MP|]. intros i j _ _. unfold inverse_of. rewrite (conj_product zero one add mul sub opp RT conj CJ). unfold product, sum_over. destruct CJ as (_ & _ & CC). f_equal. apply map_ext. intro l. cbn [op_of]. rewrite CC. apply (Rmul_comm RT). }
  split; [exact GM|]. cbv zeta. replace (match tols with Some (atol0, rtol0) => radd atol0 (rmul rtol0 mx) | None => radd rzero (rmul (rmul (of_nat (Nat.max m n)) eps) mx) end) with (radd match atol with Some x => x | None => rzero end (rmul match rtol with Some x => x | None => rmul (of_nat (Nat.max m n)) eps end mx)) by (unfold atol, rtol; destruct tols as [[? ?]|]; reflexivity).
  split; [exact NR|]. intro HN. destruct NR as (L & P & D).
  assert (PQ : penrose zero add mul conj m n (product zero add mul r (fun i l => scale (U i l) (s l)) (op_of conj ConjTrans V)) (inverse_of zero add mul conj div r U s (op_of conj ConjTrans V))).
  { apply (penrose_svd zero one add mul sub opp RT conj CJ scale emb div RS m n k r); auto. intros l Hl. apply HN; [lia|auto]. }
  split; [auto|]. intro Z0. eapply (penrose_ext zero add mul conj); [|exact PQ]. intros i j Hi Hj. rewrite <- HD by auto. apply (product_cut zero one add mul sub opp RT); auto.
  intros l Hl. rewrite (proj1 RS), Z0 by auto. rewrite (Rmul_comm RT). apply (ARmul_0_l (Rth_ARth (Eqsth T) (Eq_ext add mul opp) RT)). Qed.
Lemma l_faer_pinv_fails : forall (T R : Type) (zero one : T) add mul conj div (rp : T -> R) dflt cores cap pad svd_lib eqb radd rmul rzero rcmp rgt of_nat eps tree tri sched junk pool (a : placed T) tols m n A g e,
  (length (t_shape (p_tensor a)) <> 2%nat -> faer_pinv_f zero one conj rp dflt cores cap pad svd_lib add mul eqb div radd rmul rzero rcmp rgt of_nat eps tree tri sched junk pool a tols g = (Err InvalidLayout, g)) /\
  (is_matrix (p_tensor a) m n A -> svd_lib (active pool g) false m n (rows m n A) = Err e -> fst (faer_pinv_f zero one conj rp dflt cores cap pad svd_lib add mul eqb div radd rmul rzero rcmp rgt of_nat eps tree tri sched junk pool a tols g) = Err FaerError).
Proof. intros T R zero one add mul conj div rp dflt cores cap pad lib eqb radd rmul rzero rcmp rgt of_nat eps tree tri sched junk pool a tols m n A g e. split.
  - intro N. unfold faer_pinv_f. destruct (Nat.eqb_spec (length (t_shape (p_tensor a))) 2); [contradiction|reflexivity].
  - intros H Ex. unfold faer_pinv_f. rewrite (rank_two _ _ _ _ H). cbn [check]. rewrite (lift_ok _ tt) by reflexivity. pose proof (into_faer_holds _ m n A H) as F. pose proof F as (E1 & E2 & _).
    destruct tols as [[? ?]|]; unfold faer_pinv; rewrite enter_run, E1, E2; rewrite (lift_ok _ _ _ _ (fm_read_ok _ m n A F)), call_run, Ex; reflexivity. Qed.
Lemma l_faer_pinv_empty_refuted : forall (T R : Type) (zero one : T) add mul conj div (rp : T -> R) dflt cores cap pad svd_lib eqb radd rmul rzero rcmp rgt of_nat eps tree tri sched junk pool (a : placed T) tols m n A g x,
  (forall k, (k <= cap k)%nat) -> ~ nonempty m n -> is_matrix (p_tensor a) m n A -> svd_lib (active pool g) false m n (rows m n A) = Ok x ->
  fst (faer_pinv_f zero one conj rp dflt cores cap pad svd_lib add mul eqb div radd rmul rzero rcmp rgt of_nat eps tree tri sched junk pool a tols g) = Panic.
Proof. intros T R zero one add mul conj div rp dflt cores cap pad lib eqb radd rmul rzero rcmp rgt of_nat eps tree tri sched junk pool a tols m n A g x CAP NE H Ex. unfold faer_pinv_f. rewrite (rank_two _ _ _ _ H). cbn [check]. rewrite (lift_ok _ tt) by reflexivity.
  destruct tols as [[? ?]|]; eapply faer_pinv_empty; eauto. Qed.

(** C88 *)
Lemma l_faer_eigvalsh : forall (T R : Type) (zero one : T) eigvals_lib pool (a : placed T) u m n A g, is_matrix (p_tensor a) m n A ->
  outcome (eigvals_lib (active pool g) (chosen (d_order (p_device a)) u) m n (rows m n (triangular zero one (chosen (d_order (p_device a)) u) false A))) pool g (faer_eigvalsh zero eigvals_lib pool a u)
    (fun l y => forall f : nat -> R, (forall i, (i < length l)%nat -> nth_error l i = Some (f i)) -> is_vector (p_tensor y) (length l) f).
Proof. intros T R zero one lib pool a u m n A g H. change (chosen (d_order (p_device a)) u) with (side_of (p_device a) u) in *. pose proof (eigvalsh_run_ok zero one lib pool a u m n A g H) as X. cbv zeta in X. unfold outcome in *. destruct (lib _ _ _ _ _) as [l|e|]; auto. destruct X as (y & E & _ & Q). eauto. Qed.
Lemma l_faer_eigh : forall (T R : Type) (zero one : T) (rp : T -> R) dflt cores cap pad eigen_lib pool (a : placed T) u m n A g, (forall k, (k <= cap k)%nat) -> is_matrix (p_tensor a) m n A ->
  outcome (eigen_lib (active pool g) (chosen (d_order (p_device a)) u) m n (rows m n (triangular zero one (chosen (d_order (p_device a)) u) false A))) pool g (faer_eigh zero rp dflt cores cap pad eigen_lib pool a u)
    (fun x y => is_vector (p_tensor (fst y)) m (fun i => rp (fst x i)) /\ is_matrix (p_tensor (snd y)) m m (snd x)).
Proof. intros T R zero one rp dflt cores cap pad lib pool a u m n A g CAP H. change (chosen (d_order (p_device a)) u) with (side_of (p_device a) u) in *. pose proof (eigh_run_ok zero one rp dflt cores cap pad CAP lib pool a u m n A g H) as X. cbv zeta in X. unfold outcome in *. destruct (lib _ _ _ _ _) as [l|e|]; auto. destruct X as (y & E & Q1 & Q2 & _). eauto. Qed.
Lemma l_faer_eigh_solves : forall (T R : Type) (zero one : T) add mul conj re scale hermi (rp : T -> R) dflt cores cap pad eigen_lib pool (a : placed T) u n A g ws vs g', (forall k, (k <= cap k)%nat) -> is_matrix (p_tensor a) n n A ->
  (forall w V, eigen_lib (active pool g) (chosen (d_order (p_device a)) u) n n (rows n n (triangular zero one (chosen (d_order (p_device a)) u) false A)) = Ok (w, V) ->
     eigen zero add mul scale n (symmetric_from conj re hermi (chosen (d_order (p_device a)) u) A) V (fun j => rp (w j)) /\ orthonormal_columns zero one add mul conj n n V) ->
  faer_eigh zero rp dflt cores cap pad eigen_lib pool a u g = (Ok (ws, vs), g') ->
  exists w V, is_vector (p_tensor ws) n w /\ is_matrix (p_tensor vs) n n V /\ eigen zero add mul scale n (symmetric_from conj re hermi (chosen (d_order (p_device a)) u) A) V w /\ orthonormal_columns zero one add mul conj n n V.
Proof. intros T R zero one add mul conj re scale hermi rp dflt cores cap pad lib pool a u n A g ws vs g' CAP H C E. change (chosen (d_order (p_device a)) u) with (side_of (p_device a) u) in *. pose proof (l_faer_eigh T R zero one rp dflt cores cap pad lib pool a u n n A g CAP H) as X. unfold outcome in X. destruct (lib _ _ _ _ _) as [[w V]|e|]; try congruence.
  destruct X as (y & E' & X). rewrite E in E'. injection E' as <- _. destruct X as (H1 & H2). cbn [fst snd] in *. destruct (C w V eq_refl). eauto 10. Qed.
Lemma device_same a b : a = b -> same_device a b = true.
Proof. intros ->. unfold same_device. rewrite Nat.eqb_refl. now destruct (d_order b). Qed.
Lemma device_differs a b : a <> b -> same_device a b = false.
Proof. intro N. destruct a as (m, o), b as (n, p). unfold same_device. cbn [d_threads d_order]. destruct (Nat.eqb_spec m n) as [->|]; auto. destruct o, p; auto; now destruct N. Qed.
Lemma l_faer_eigh_general_partial : forall (T R : Type) (zero one : T) add mul sub opp conj (rp : T -> R) (emb : R -> T) dflt cores cap pad eigen_lib llt_lib tri_lib pool (a b : placed T) u itype n A B g,
  ring_theory zero one add mul sub opp eq -> conjugation add mul conj -> (forall r, conj (emb r) = emb r) -> (forall x, conj x = x -> emb (rp x) = x) -> (forall k, (k <= cap k)%nat) -> solves_triangles zero one add mul tri_lib ->
  is_matrix (p_tensor a) n n A -> injective (t_layout (p_tensor a)) -> is_matrix (p_tensor b) n n B -> p_device a = p_device b -> 1 <= itype <= 3 ->
  let t := chosen (d_order (p_device a)) u in let symm := symmetric_from conj (fun x => emb (rp x)) true t in
  let run := faer_eigh_general zero one conj rp emb dflt cores cap pad eigen_lib llt_lib tri_lib pool a b u itype in
  (forall L, llt_lib (active pool g) t n n (rows n n (triangular zero one t false B)) = Ok L -> cholesky_of zero add mul conj n (symm B) L) ->
  match llt_lib (active pool g) t n n (rows n n (triangular zero one t false B)) with
  | Ok L => exists C, outcome (eigen_lib (active pool g) t n n (rows n n (triangular zero one t false C))) pool g run (fun x y =>
      eigen zero add mul mul n (symm C) (snd x) (fst x) -> (forall j, (j < n)%nat -> emb (rp (fst x j)) = fst x j) ->
      exists w V, is_vector (p_tensor (fst y)) n w /\ is_matrix (p_tensor (snd y)) n n V /\ eigen_general zero add mul (fun x r => mul x (emb r)) itype n (symm A) (symm B) V w)
  | Err _ => run g = (Err FaerError, active pool g)
  | Panic => run g = (Panic, active pool g)
  end.
Proof. intros T R zero one add mul sub opp conj rp emb dflt cores cap pad el ll tl pool a b u itype n A B g RT CJ ER RE CAP SV HA JA HB SD IT t symm run CH. apply device_same in SD. change (chosen (d_order (p_device a)) u) with (side_of (p_device a) u) in *.
  pose proof (eigh_general_ok zero one add mul sub opp RT conj CJ rp emb ER RE tl SV dflt cores cap pad CAP el ll pool a b u itype n A B g HA JA HB SD IT CH) as X. fold t in X. destruct (ll _ _ _ _ _) as [L|e|]; auto. destruct X as (C & X). exists C. unfold outcome in *. fold run in X. destruct (el _ _ _ _ _) as [x|e|]; auto.
  destruct X as (y & E & X). exists y. split; auto. intros H1 H2. destruct (X H1 H2) as (W & (V & MV & EV) & _). eauto. Qed.
Lemma l_faer_eigh_general_checks : forall (T R : Type) (zero one : T) conj (rp : T -> R) emb dflt cores cap pad eigen_lib llt_lib tri_lib pool (a b : placed T) u itype g,
  let run := faer_eigh_general zero one conj rp emb dflt cores cap pad eigen_lib llt_lib tri_lib pool a b u itype in
  (p_device a <> p_device b -> run g = (Err DeviceMismatch, g)) /\
  (p_device a = p_device b -> ~ 1 <= itype <= 3 -> run g = (Err InvalidValue, g)) /\
  (forall m n A, p_device a = p_device b -> 1 <= itype <= 3 -> is_matrix (p_tensor a) m n A -> m <> n -> run g = (Err InvalidLayout, g)).
Proof. intros T R zero one conj rp emb dflt cores cap pad el ll tl pool a b u itype g run. unfold run, faer_eigh_general. split; [|split].
  - intro N. rewrite (device_differs _ _ N). reflexivity.
  - intros SD N. rewrite (device_same _ _ SD). cbn [check]. rewrite (lift_ok _ tt) by reflexivity. replace ((1 <=? itype) && (itype <=? 3)) with false by lia. reflexivity.
  - intros m n A SD IT (_ & S & _) N. rewrite (device_same _ _ SD). cbn [check]. rewrite (lift_ok _ tt) by reflexivity. replace ((1 <=? itype) && (itype <=? 3)) with true by lia. cbn [check]. rewrite (lift_ok _ tt) by reflexivity. unfold extent. rewrite S. cbn [nth]. destruct (Nat.eqb_spec m n); [contradiction|reflexivity]. Qed.
(** diagonal matrices: the diagonal and the unit vectors; triangular systems with the identity *)
Definition diag_lib (_ : par) (_ : uplo) (_ _ : nat) (A : list (list Z)) : res ((nat -> Z) * (nat -> nat -> Z)) := Ok (fun i => nth i (nth i A []) 0, identity 0 1).
Definition eye_llt (_ : par) (_ : uplo) (_ _ : nat) (_ : list (list Z)) : res (nat -> nat -> Z) := Ok (identity 0 1).
Definition eye_tri (_ : par) (_ : uplo) (_ _ : nat) (_ : list (list Z)) (_ _ : nat) (B : list (list Z)) : option (nat -> nat -> Z) := Some (fun i j => nth j (nth i B []) 0).
Definition eye2 : tensor Z := mkTensor [1; 0; 0; 1] (mkLayout [2; 2]%nat [2; 1] 0).
Lemma l_faer_eigh_broadcast_refuted : exists (a b : placed Z) ws vs, is_matrix (p_tensor a) 2 2 (fun _ j => if (j =? 1)%nat then 1 else 0) /\ is_matrix (p_tensor b) 2 2 (identity 0 1) /\
  (forall g u D w V, (forall i j, i <> j -> D i j = 0) -> diag_lib g u 2 2 (rows 2 2 D) = Ok (w, V) -> eigen 0 Z.add Z.mul Z.mul 2 D V w) /\
  (forall g u L, eye_llt g u 2 2 (rows 2 2 (identity 0 1)) = Ok L -> cholesky_of 0 Z.add Z.mul (fun x => x) 2 (identity 0 1) L) /\
  (forall g u B X, eye_tri g u 2 2 (rows 2 2 (identity 0 1)) 2 2 (rows 2 2 B) = Some X -> solves 0 Z.add Z.mul SLeft 2 2 (identity 0 1) X B) /\
  faer_eigh_general 0 1 (fun x => x) (fun x => x) (fun x => x) RowMajor 4 (fun k => k) (fun _ => 0) diag_lib eye_llt eye_tri None a b (Some Lower) 1 ParSeq = (Ok (ws, vs), ParSeq) /\
  forall w V, is_vector (p_tensor ws) 2 w -> is_matrix (p_tensor vs) 2 2 V -> ~ eigen_general 0 Z.add Z.mul Z.mul 1 2 (symmetric_from (fun x => x) (fun x => x) true Lower (fun _ j => if (j =? 1)%nat then 1 else 0)) (identity 0 1) V w.
Proof. exists (mkPlaced (mkTensor [0; 7; 7; 1] (mkLayout [2; 2]%nat [0; 3] 0)) (mkDevice 4 RowMajor)), (mkPlaced eye2 (mkDevice 4 RowMajor)), (mkPlaced (mkTensor [0; 0] (mkLayout [2]%nat [1] 0)) (mkDevice 4 RowMajor)), (mkPlaced (mkTensor [1; 0; 0; 1] (mkLayout [2; 2]%nat [2; 1] 0)) (mkDevice 4 RowMajor)).
  split; [split; [concrete_tensor|]; split; [reflexivity|]; intros [|[|i]] [|[|j]] Hi Hj; try lia; reflexivity|]. split; [split; [concrete_tensor|]; split; [reflexivity|]; intros [|[|i]] [|[|j]] Hi Hj; try lia; reflexivity|].
  split; [|split; [|split; [|split; [vm_compute; reflexivity|]]]].
  - intros g u D w V HD E. injection E as <- <-. intros [|[|i]] [|[|j]] Hi Hj; try lia; unfold product, sum_over, identity; cbn -[Z.mul Z.add]; rewrite ?(HD 0%nat 1%nat), ?(HD 1%nat 0%nat) by lia; lia.
  - intros g u L E. injection E as <-. split; [|split]; [intros [|[|i]] [|[|j]] Hi Hj Hij; try lia; reflexivity|intros [|[|i]] Hi; try lia; discriminate|intros [|[|i]] [|[|j]] Hi Hj; try lia; reflexivity].
  - intros g u B X E. injection E as <-. intros [|[|i]] [|[|j]] Hi Hj; try lia; unfold product, sum_over, identity; cbn -[Z.mul Z.add]; lia.
  - intros w V (_ & _ & HW) (_ & _ & HV) EG. pose proof (HW 1%nat ltac:(lia)) as W1. pose proof (HV 0%nat 1%nat ltac:(lia) ltac:(lia)) as V01. pose proof (HV 1%nat 1%nat ltac:(lia) ltac:(lia)) as V11. specialize (EG 1%nat 1%nat ltac:(lia) ltac:(lia)). cbv in W1, V01, V11. injection W1 as W1. injection V01 as V01. injection V11 as V11.
    unfold product, sum_over, identity in EG. cbn -[Z.mul Z.add] in EG. rewrite <- W1, <- V01, <- V11 in EG. discriminate. Qed.

(** C89 *)
Lemma l_faer_cholesky : forall (T : Type) (zero one : T) add mul conj dflt cores cap pad llt_lib pool (a : placed T) u n A S g, (forall k, (k <= cap k)%nat) -> is_matrix (p_tensor a) n n A ->
  (forall x, conj (conj x) = x) ->
  (forall L, llt_lib (active pool g) (chosen (d_order (p_device a)) u) n n (rows n n (triangular zero one (chosen (d_order (p_device a)) u) false A)) = Ok L -> cholesky_of zero add mul conj n S L) ->
  outcome (llt_lib (active pool g) (chosen (d_order (p_device a)) u) n n (rows n n (triangular zero one (chosen (d_order (p_device a)) u) false A))) pool g (faer_cholesky zero conj dflt cores cap pad llt_lib pool a u)
    (fun _ y => match chosen (d_order (p_device a)) u with
      | Lower => exists L, is_matrix (p_tensor y) n n L /\ cholesky_of zero add mul conj n S L
      | Upper => exists W, is_matrix (p_tensor y) n n W /\ (conj zero = zero -> upper zero n W) /\ forall i j, (i < n)%nat -> (j < n)%nat -> product zero add mul n (op_of conj ConjTrans W) W i j = S i j
      end).
Proof. intros T zero one add mul conj dflt cores cap pad lib pool a u n A S g CAP H CC C. change (chosen (d_order (p_device a)) u) with (side_of (p_device a) u) in *. pose proof (cholesky_run_ok zero one conj dflt cores cap pad CAP lib pool a u n n A g H) as X. cbv zeta in X. unfold outcome in *. destruct (lib _ _ _ _ _) as [L|e|]; auto.
  destruct X as (y & E & M & _). exists y. split; auto. destruct (C L eq_refl) as (C1 & C2 & C3). destruct (side_of (p_device a) u).
  - exists (op_of conj ConjTrans L). split; auto. split.
    + intros Z0 i j Hi Hj Hij. cbn [op_of]. rewrite C1 by auto. exact Z0.
    + intros i j Hi Hj. rewrite <- C3 by auto. unfold product, sum_over. f_equal. apply map_ext. intro k. cbn [op_of]. now rewrite CC.
  - exists L. auto. Qed.
Lemma l_faer_inv : forall (T : Type) (zero one : T) add mul dflt cores cap pad svd_lib inverse_lib pool (a : placed T) n A g, (forall k, (k <= cap k)%nat) -> is_matrix (p_tensor a) n n A ->
  (forall x X, svd_lib (active pool g) true n n (rows n n A) = Ok x -> inverse_lib (active pool g) n n x = Some X -> forall i j, (i < n)%nat -> (j < n)%nat -> product zero add mul n A X i j = identity zero one i j) ->
  outcome (let* x := svd_lib (active pool g) true n n (rows n n A) in or_panic (inverse_lib (active pool g) n n x)) pool g (faer_inv dflt cores cap pad svd_lib inverse_lib pool a)
    (fun _ y => exists X, is_matrix (p_tensor y) n n X /\ forall i j, (i < n)%nat -> (j < n)%nat -> product zero add mul n A X i j = identity zero one i j).
Proof. intros T zero one add mul dflt cores cap pad l1 l2 pool a n A g CAP H C. pose proof (inv_run_ok dflt cores cap pad CAP l1 l2 pool a n n A g H) as X. unfold outcome in *. destruct (l1 _ _ _ _ _) as [x|e|]; cbn [bind] in *; auto. destruct (l2 _ _ _ x) as [X0|] eqn:E2; cbn [or_panic] in *; auto.
  destruct X as (y & E & M & _). exists y. split; auto. exists X0. split; auto. now apply (C x). Qed.
Lemma l_faer_det : forall (T : Type) det_lib pool (a : placed T) m n A g, is_matrix (p_tensor a) m n A -> outcome (or_panic (det_lib (active pool g) m n (rows m n A))) pool g (faer_det det_lib pool a) (fun x y => y = x).
Proof. intros T lib pool a m n A g H. exact (det_run_ok lib pool a m n A g H). Qed.
Lemma l_faer_solve_general : forall (T : Type) (zero : T) add mul dflt svd_lib solve_lib pool d (a : tensor T) (b : reference T) n p A B g, is_matrix a n n A -> nonempty n p -> lapack_operand b n p B ->
  (forall x X, svd_lib (active pool g) true n n (rows n n A) = Ok x -> solve_lib (active pool g) n n x n p (rows n p B) = Some X -> solves zero add mul SLeft n p A X B) ->
  outcome (let* x := svd_lib (active pool g) true n n (rows n n A) in or_panic (solve_lib (active pool g) n n x n p (rows n p B))) pool g (faer_solve_general dflt svd_lib solve_lib pool d a b)
    (fun _ y => exists X, delivered (target_of b) y n p X /\ solves zero add mul SLeft n p A X B).
Proof. intros T zero add mul dflt l1 l2 pool d a b n p A B g HA NE HB C. pose proof (solve_general_ok dflt l1 l2 pool d a b n n n p A B g HA NE HB) as X. unfold outcome in *. destruct (l1 _ _ _ _ _) as [x|e|]; cbn [bind] in *; auto. destruct (l2 _ _ _ x _ _ _) as [X0|] eqn:E2; cbn [or_panic] in *; auto.
  destruct X as (y & E & M). exists y. split; auto. exists X0. split; auto. now apply (C x). Qed.
Lemma l_faer_solve_triangular : forall (T : Type) (zero one : T) add mul dflt tri_lib pool da d (a : tensor T) (b : reference T) u n p A B, solves_triangles zero one add mul tri_lib -> is_matrix a n n A -> nonempty n p -> lapack_operand b n p B ->
  (forall i, (i < n)%nat -> A i i <> zero) ->
  exists y X, faer_solve_triangular zero dflt tri_lib pool da d a b u = Ok y /\ delivered (target_of b) y n p X /\ solves zero add mul SLeft n p (triangular zero one (chosen (d_order da) u) false A) X B.
Proof. intros T zero one add mul dflt lib pool da d a b u n p A B SV HA NE HB D. change (chosen (d_order da) u) with (side_of da u) in *. pose proof (solve_triangular_ok zero one dflt lib pool da d a b u n n n p A B HA NE HB) as X. cbv zeta in X.
  destruct (SV (match pool with Some n => ParRayon n | None => ParSeq end) (side_of da u) n p A B D) as (X0 & E & S). rewrite E in X. destruct X as (y & Ey & Dy). eauto. Qed.

(** C90 *)
Lemma l_faer_restores : forall (T R : Type) (zero one : T) add mul conj (rp : T -> R) emb dflt cores cap pad svd_lib svdvals_lib eqb div radd rmul rzero rcmp rgt of_nat eps tree tri sched junk eigen_lib eigvals_lib llt_lib tri_lib inverse_lib solve_lib det_lib pool (a b : placed T) full tols u itype d (r : reference T),
  restores (faer_svd_f rp dflt cores cap pad svd_lib pool a full) /\ restores (faer_svdvals (R := R) svdvals_lib pool a) /\
  restores (faer_pinv_f zero one conj rp dflt cores cap pad svd_lib add mul eqb div radd rmul rzero rcmp rgt of_nat eps tree tri sched junk pool a tols) /\
  restores (faer_eigh zero rp dflt cores cap pad eigen_lib pool a u) /\ restores (faer_eigvalsh (R := R) zero eigvals_lib pool a u) /\
  restores (faer_eigh_general zero one conj rp emb dflt cores cap pad eigen_lib llt_lib tri_lib pool a b u itype) /\
  restores (faer_cholesky zero conj dflt cores cap pad llt_lib pool a u) /\ restores (faer_inv dflt cores cap pad svd_lib inverse_lib pool a) /\ restores (faer_det det_lib pool a) /\
  restores (faer_solve_general dflt svd_lib solve_lib pool d (p_tensor a) r).
Proof. intros. repeat split.
  - unfold faer_svd_f. apply restores_lift. intro. unfold faer_svd. restoring.
  - unfold faer_svdvals. restoring.
  - unfold faer_pinv_f. apply restores_lift. intro. destruct tols as [[? ?]|]; unfold faer_pinv; restoring.
  - unfold faer_eigh. restoring.
  - unfold faer_eigvalsh. restoring.
  - unfold faer_eigh_general. restoring. apply back_quiet; [|intro; apply back_leave, quiet_ret].
    destruct (itype =? 1); (apply quiet_bind; [apply quiet_lift|intro; apply quiet_bind; [unfold eigen_of; apply quiet_bind; [apply quiet_lift|intro; apply quiet_call]|intro; apply quiet_lift]]).
  - unfold faer_cholesky. restoring.
  - unfold faer_inv. restoring.
  - unfold faer_det. restoring.
  - unfold faer_solve_general. restoring. Qed.
Lemma outcome_lost {X Y} (r : res X) e n g (run : globally Y) P : r = Err e -> g <> ParRayon n -> outcome r (Some n) g run P -> ~ always_restores run.
Proof. intros -> N O. cbn [outcome active] in O. eapply run_lost; eauto. Qed.
Lemma l_faer_degree_lost_refuted : forall (T R : Type) (zero one : T) conj (rp : T -> R) dflt cores cap pad svd_lib svdvals_lib eigen_lib eigvals_lib llt_lib inverse_lib k (a : placed T) full u m n A e,
  (forall k, (k <= cap k)%nat) -> is_matrix (p_tensor a) m n A ->
  (svd_lib (ParRayon k) full m n (rows m n A) = Err e -> ~ always_restores (faer_svd_f rp dflt cores cap pad svd_lib (Some k) a full)) /\
  (svdvals_lib (ParRayon k) m n (rows m n A) = Err e -> ~ always_restores (faer_svdvals (R := R) svdvals_lib (Some k) a)) /\
  (svd_lib (ParRayon k) true m n (rows m n A) = Err e -> ~ always_restores (faer_inv dflt cores cap pad svd_lib inverse_lib (Some k) a)) /\
  (forall t, t = chosen (d_order (p_device a)) u ->
   (llt_lib (ParRayon k) t m n (rows m n (triangular zero one t false A)) = Err e -> ~ always_restores (faer_cholesky zero conj dflt cores cap pad llt_lib (Some k) a u)) /\
   (eigen_lib (ParRayon k) t m n (rows m n (triangular zero one t false A)) = Err e -> ~ always_restores (faer_eigh zero rp dflt cores cap pad eigen_lib (Some k) a u)) /\
   (eigvals_lib (ParRayon k) t m n (rows m n (triangular zero one t false A)) = Err e -> ~ always_restores (faer_eigvalsh (R := R) zero eigvals_lib (Some k) a u))).
Proof. intros T R zero one conj rp dflt cores cap pad l1 l2 l3 l4 l5 l6 k a full u m n A e CAP H. change (chosen (d_order (p_device a)) u) with (side_of (p_device a) u) in *. assert (N : ParSeq <> ParRayon k) by discriminate. split; [|split; [|split; [|intros t ->; split; [|split]]]]; intro E.
  - exact (outcome_lost _ e k ParSeq _ _ E N (svd_run_ok rp dflt cores cap pad CAP l1 (Some k) a full m n A ParSeq H)).
  - exact (outcome_lost _ e k ParSeq _ _ E N (svdvals_run_ok l2 (Some k) a m n A ParSeq H)).
  - refine (outcome_lost _ e k ParSeq _ _ _ N (inv_run_ok dflt cores cap pad CAP l1 l6 (Some k) a m n A ParSeq H)). cbn [active]. now rewrite E.
  - exact (outcome_lost _ e k ParSeq _ _ E N (cholesky_run_ok zero one conj dflt cores cap pad CAP l5 (Some k) a u m n A ParSeq H)).
  - exact (outcome_lost _ e k ParSeq _ _ E N (eigh_run_ok zero one rp dflt cores cap pad CAP l3 (Some k) a u m n A ParSeq H)).
  - exact (outcome_lost _ e k ParSeq _ _ E N (eigvalsh_run_ok zero one l4 (Some k) a u m n A ParSeq H)). Qed.

(** C91 *)
Lemma outcome_ok {X Y} (r : res X) pool g (run : globally Y) P y g' : outcome r pool g run P -> run g = (Ok y, g') -> exists x, r = Ok x /\ P x y.
Proof. unfold outcome. destruct r as [x|e|]; [|congruence|congruence]. intros (y' & E & H) E'. rewrite E in E'. injection E' as -> _. eauto. Qed.
Lemma l_faer_values_device_partial : forall (T R : Type) (zero one : T) svdvals_lib eigvals_lib pool (a : placed T) u m n A g (y : placed R) g', is_matrix (p_tensor a) m n A ->
  (faer_svdvals svdvals_lib pool a g = (Ok y, g') -> p_device y = p_device a) /\ (faer_eigvalsh zero eigvals_lib pool a u g = (Ok y, g') -> p_device y = p_device a).
Proof. intros T R zero one l1 l2 pool a u m n A g y g' H. split; intro E.
  - destruct (outcome_ok _ _ _ _ _ _ _ (svdvals_run_ok l1 pool a m n A g H) E) as (x & _ & D & _). exact D.
  - destruct (outcome_ok _ _ _ _ _ _ _ (eigvalsh_run_ok zero one l2 pool a u m n A g H) E) as (x & _ & D & _). exact D. Qed.
Lemma l_faer_device_refuted : forall (T R : Type) (zero one : T) conj (rp : T -> R) emb dflt cores cap pad svd_lib eigen_lib llt_lib tri_lib inverse_lib pool (a : placed T) full u itype m n A g g',
  (forall k, (k <= cap k)%nat) -> is_matrix (p_tensor a) m n A -> p_device a <> default_device dflt cores ->
  (forall x s v, faer_svd_f rp dflt cores cap pad svd_lib pool a full g = (Ok (x, s, v), g') -> p_device a <> p_device x /\ p_device a <> p_device s /\ p_device a <> p_device v) /\
  (forall w v, faer_eigh zero rp dflt cores cap pad eigen_lib pool a u g = (Ok (w, v), g') -> p_device a <> p_device w /\ p_device a <> p_device v) /\
  (forall x, faer_inv dflt cores cap pad svd_lib inverse_lib pool a g = (Ok x, g') -> p_device a <> p_device x) /\
  (forall x, faer_cholesky zero conj dflt cores cap pad llt_lib pool a u g = (Ok x, g') -> p_device a <> p_device x /\
     faer_eigh_general zero one conj rp emb dflt cores cap pad eigen_lib llt_lib tri_lib pool a x u itype g = (Err DeviceMismatch, g)).
Proof. intros T R zero one conj rp emb dflt cores cap pad l1 l2 l3 l4 l5 pool a full u itype m n A g g' CAP H D. split; [|split; [|split]].
  - intros x s v E. destruct (outcome_ok _ _ _ _ _ _ _ (svd_run_ok rp dflt cores cap pad CAP l1 pool a full m n A g H) E) as ([[U sv] V] & _ & _ & _ & _ & D1 & D2 & D3). now rewrite D1, D2, D3.
  - intros w v E. destruct (outcome_ok _ _ _ _ _ _ _ (eigh_run_ok zero one rp dflt cores cap pad CAP l2 pool a u m n A g H) E) as (X & _ & _ & _ & D1 & D2). cbn [fst snd] in *. now rewrite D1, D2.
  - intros x E. destruct (outcome_ok _ _ _ _ _ _ _ (inv_run_ok dflt cores cap pad CAP l1 l5 pool a m n A g H) E) as (X & _ & _ & D1). now rewrite D1.
  - intros x E. destruct (outcome_ok _ _ _ _ _ _ _ (cholesky_run_ok zero one conj dflt cores cap pad CAP l3 pool a u m n A g H) E) as (X & _ & _ & D1). rewrite <- D1 in D. split; auto. apply l_faer_eigh_general_checks. exact D. Qed.

(** C92 *)
Lemma l_owned_independent_partial : forall (T : Type) k dflt (t : tensor T), tensor_ok t -> injective (t_layout t) -> exists c, into_owned k dflt t = Ok c /\ tensor_ok c /\ t_shape c = t_shape t /\ (forall ix, valid (t_shape t) ix -> at_ c ix = at_ t ix) /\ injective (t_layout c).
Proof. intros T k dflt t Ht J. destruct (into_owned_copy k dflt t Ht) as (c & E & Tc & Sc & Q & _ & L). exists c. split; auto. split; auto. split; auto. split; auto. destruct L as [(-> & _)|(_ & JJ)]; auto. Qed.
Lemma l_owned_alias_refuted : exists (t c : tensor Z) s v, tensor_ok t /\ dim_slice (mkLayout [4%nat] [1] 0) [ISlice s] = Ok v /\ into_broadcast v [2; 2]%nat RowMajor = Ok (t_layout t) /\ into_owned Dyn RowMajor t = Ok c /\ at_ c [0; 1]%nat = Some 1 /\ at_ c [1; 1]%nat = Some 1 /\
  exists d, zset (t_data c) (addr (t_layout c) [0; 1]%nat) 5 = Ok d /\ elem d (t_layout c) [1; 1]%nat = Some 5.
Proof. exists (mkTensor [0; 7; 7; 1] (mkLayout [2; 2]%nat [0; 3] 0)), (mkTensor [0; 7; 7; 1] (mkLayout [2; 2]%nat [0; 3] 0)), (mkSlice None None (Some 3)), (mkLayout [2%nat] [3] 0). split; [concrete_tensor|]. split; [reflexivity|]. split; [reflexivity|]. split; [reflexivity|]. split; [reflexivity|]. split; [reflexivity|]. exists [0; 7; 7; 5]. split; reflexivity. Qed.
(** C89 *)
Lemma l_faer_ranks : forall (T R : Type) (zero : T) conj (rp : T -> R) dflt cores cap pad svd_lib svdvals_lib eigen_lib eigvals_lib llt_lib inverse_lib det_lib pool (a : placed T) full u g, length (t_shape (p_tensor a)) <> 2%nat ->
  faer_svd_f rp dflt cores cap pad svd_lib pool a full g = (Err InvalidLayout, g) /\ faer_svdvals (R := R) svdvals_lib pool a g = (Err InvalidLayout, g) /\
  faer_eigh zero rp dflt cores cap pad eigen_lib pool a u g = (Err InvalidLayout, g) /\ faer_eigvalsh (R := R) zero eigvals_lib pool a u g = (Err InvalidLayout, g) /\
  faer_cholesky zero conj dflt cores cap pad llt_lib pool a u g = (Err InvalidLayout, g) /\ faer_inv dflt cores cap pad svd_lib inverse_lib pool a g = (Err InvalidLayout, g) /\ faer_det det_lib pool a g = (Err InvalidLayout, g).
Proof. intros T R zero conj rp dflt cores cap pad l1 l2 l3 l4 l5 l6 l7 pool a full u g N. unfold faer_svd_f, faer_svdvals, faer_eigh, faer_eigvalsh, faer_cholesky, faer_inv, faer_det. destruct (Nat.eqb_spec (length (t_shape (p_tensor a))) 2); [contradiction|]. repeat split. Qed.
