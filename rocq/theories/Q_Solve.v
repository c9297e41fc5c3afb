(** Property lemmas about linear systems with a vector as right-hand side (C70). *)
From Verif Require Import Base Spec Spec_Matmul Spec_Tri Spec_Blas P_Index P_List M_Layout P_Layout P_Bounds P_Contig P_Strides M_Indexer P_Indexer M_Broadcast P_Broadcast M_Rearr P_Rearr P_BinOp M_Iter P_Iter M_Kernel P_Kernel Q_Kernel M_Tensor P_Tensor Q_Tensor Q_Copy P_Arg P_Axes M_Matmul P_Matmul P_Matmul2 P_Matmul3 P_Matmul4 Q_Matmul M_Tri P_Tri P_Tri2 P_Tri3 P_Tri4 Q_Tri M_Fast P_Fast P_Fast2 P_Fast3 P_Creation M_Blas Spec_BlasApi P_Blas P_Blas2 P_Blas3 P_Blas4 Q_Blas M_Reduce Q_Reduce M_Linalg Spec_Linalg P_Linalg P_Linalg2 P_Linalg3 P_Linalg4 Q_Indexer M_Mesh Q_Mesh M_Solve.
Local Open Scope Z_scope.

Lemma column_shape n s o l : dim_slice (mkLayout [n] [s] o) [full_slice; IInsert] = Ok l -> exists t, (t = s \/ t = 1) /\ l = mkLayout [n; 1%nat] [s; t] o.
Proof. unfold dim_slice, full_slice. cbn -[layout_new dim_insert dim_narrow]. intro H.
  destruct (layout_new [n] [s] o) as [l0| |] eqn:E0; cbn [bind] in H; try discriminate. assert (l0 = mkLayout [n] [s] o) as -> by now apply layout_new_eq.
  set (t := if f_prefer (mkLayout [n] [s] o) then s else 1). assert (EI : dim_insert (mkLayout [n] [s] o) 1 = layout_new [n; 1%nat] [s; t] o) by (unfold dim_insert, t; cbn -[layout_new f_prefer]; reflexivity).
  rewrite EI in H. destruct (layout_new [n; 1%nat] [s; t] o) as [l1| |] eqn:E1; cbn [bind] in H; try discriminate. assert (l1 = mkLayout [n; 1%nat] [s; t] o) as -> by now apply layout_new_eq.
  cbn in H. injection H as <-. exists t. split; auto. unfold t. destruct (f_prefer _); auto. Qed.
(** a vector as a matrix of one column *)
Lemma vector_column {T} (t : tensor T) n f : is_vector t n f ->
  exists l, dim_slice (t_layout t) [full_slice; IInsert] = Ok l /\ is_matrix (mkTensor (t_data t) l) n 1 (fun i _ => f i) /\ (~ In 0 (l_stride (t_layout t)) -> ~ In 0 (l_stride l)) /\
    forall i, (i < n)%nat -> addr l [i; 0%nat] = addr (t_layout t) [i].
Proof. intros (Ht & Sh & Hh). unfold t_shape in Sh. destruct (first_full n) as (P & E & N).
  destruct (mixed_indexing (t_layout t) [full_slice; IInsert] [n; 1%nat]) as (l & El & Al & Sl & _ & Hl); [apply Ht|unfold one_ellipsis; cbn; lia| | |].
  - rewrite Sh. unfold full_slice. cbn [with_ellipsis existsb is_ellipsis app orb]. replace n with (length (slice_positions (mkSlice None None None) n)) at 2 by (rewrite E, map_length; apply seq_length). constructor; auto. constructor. apply (shape_ellipsis [] [] [] []). constructor.
  - rewrite Sh. unfold full_slice. cbn [with_ellipsis existsb is_ellipsis app orb]. constructor; auto. constructor. apply (plain_ellipsis [] [] []). constructor.
  - unfold full_slice in Hl. cbn [with_ellipsis existsb is_ellipsis app orb] in *. exists l. split; auto. rewrite Sh in Hl.
    assert (Ad : forall j, (j < n)%nat -> addr l [j; 0%nat] = addr (t_layout t) [j]). { intros j Hj. apply Hl. constructor; [rewrite E; now apply nth_positions|]. constructor. apply (reads_ellipsis [] [] [] [] [] []); constructor. }
    split; [|split; [|exact Ad]].
    + split; [split; [auto|]|split; [auto|]]; cbn [t_data t_layout].
      * intros ix V. rewrite Sl in V. apply P_Fast3.valid2 in V as (i & j & -> & Hi & Hj). replace j with 0%nat by lia. rewrite Ad by auto. apply Ht. fold (t_shape t). unfold t_shape. rewrite Sh. apply valid1. lia.
      * intros i j Hi Hj. replace j with 0%nat by lia. unfold elem. rewrite Ad by auto. apply Hh; lia.
    + intro Z0. assert (L : length (l_stride (t_layout t)) = length (l_shape (t_layout t))) by (destruct Ht as [[W _] _]; apply W). clear Hh Ht. destruct (t_layout t) as [sh st o]. cbn [l_shape l_stride] in *. subst sh. destruct st as [|s [|? ?]]; try discriminate.
      apply column_shape in El as (t0 & Ht0 & ->). cbn. intros [X|[X|[]]]; [|destruct Ht0; subst]; try lia; apply Z0; left; lia. Qed.
(** a matrix of one column as a vector *)
Lemma column_vector {T} dev (t : tensor T) n F : is_matrix t n 1 F -> n <> 0%nat -> exists c, into_shape dev t [-1] = Ok c /\ is_vector c n (fun i => F i 0%nat).
Proof. intros (Ht & Sh & Hh) Hn. assert (St : t_shape t = [n; 1%nat]) by exact Sh. assert (Sz : size (t_shape t) = n) by (rewrite St; cbn; lia).
  assert (Nz : ~ (In (-1) [-1] /\ In 0 [-1])) by (intros [_ [X|[]]]; lia).
  pose proof (l_change_shape T Dyn t [-1] dev None Ht Nz) as H. unfold into_shape. destruct (change_shape Dyn t [-1] dev None) as [v|e|] eqn:Ev; cbn [bind].
  - destruct H as (Fv & S & H); [discriminate|]. specialize (S ltac:(discriminate)). destruct (H S) as [Kv Q].
    assert (Sv : t_shape v = [n]). { inversion Fv as [|? d ? r A1 A2 E1 E2]. inversion A2; subst. rewrite <- E2 in S. cbn in S. rewrite St in S. cbn in S. f_equal. lia. }
    destruct (l_into_owned T Dyn dev v Kv) as (c & Ec & Kc & Sc & Qc & Lc). exists c. split; auto. split; auto. split; [congruence|]. intros i Hi.
    rewrite Qc by (rewrite Sv; now apply valid1). rewrite (Q [i] [i; 0%nat]); [apply Hh; auto; lia|]. rewrite Sv, St. destruct (line_rank dev n 2 0 i) as (k & K1 & K2); auto. now exists k.
  - exfalso. destruct H as [H|[(v & Iv & Hv)|[H|H]]]; try discriminate; [destruct Iv as [<-|[]]; lia|cbn in H; lia|]. apply (H [n]); [repeat constructor; now right|]. rewrite Sz. cbn. lia.
  - exfalso. destruct H as [H _]; discriminate. Qed.

Section Solve.
  Context {T : Type} (dev dflt : order) (core : reference T -> res (mutable T)) (ra : reference T) (b : tensor T) (n : nat) (f : nat -> T) (sol : option (nat -> nat -> T)).
  Context (Hn : n <> 0%nat) (Ra : length (t_shape (ref_of ra)) = 2%nat) (Hb : is_vector b n f).
  Context (Hc : forall rb, lapack_operand rb n 1 (fun i _ => f i) -> match sol with None => exists e, core rb = Err e | Some X => exists y, core rb = Ok y /\ delivered (target_of rb) y n 1 X end).
  Lemma ranks_ok : solve_ranks ra b = Ok tt /\ is_vec b = true.
  Proof using Ra Hb. destruct Hb as (_ & S & _). unfold solve_ranks, is_vec. rewrite Ra, S. split; reflexivity. Qed.
  Lemma view_ok : match sol with None => exists e, solve_view dev dflt core ra b = Err e | Some X => exists y, solve_view dev dflt core ra b = Ok y /\ is_vector y n (fun i => X i 0%nat) end.
  Proof using All. destruct ranks_ok as [R1 R2]. destruct (vector_column b n f Hb) as (l & El & (Hm & Hh) & _ & _). unfold solve_view, as_column. rewrite R1, R2. cbn [bind]. rewrite El. cbn [bind unwrap].
    specialize (Hc (Ref (mkTensor (t_data b) l))). destruct sol as [X|].
    - destruct Hc as (y & -> & t & -> & Ht & H); [split; auto|]. cbn [bind into_owned_of]. destruct (column_vector dev t n X) as (c & -> & Hv); [split; auto|auto|]. cbn [unwrap]. eauto.
    - destruct Hc as (e & ->); [split; auto|]. cbn [bind]. eauto. Qed.
  Lemma mut_ok : ~ In 0 (l_stride (t_layout b)) -> match sol with None => exists e, solve_mut dev core ra b = Err e
    | Some X => exists y, solve_mut dev core ra b = Ok y /\ t_layout y = t_layout b /\ untouched_outside (t_layout b) (t_data b) (t_data y) /\ is_vector y n (fun i => X i 0%nat) end.
  Proof using All. intro Z0. destruct ranks_ok as [R1 R2]. destruct (vector_column b n f Hb) as (l & El & (Hm & Hh) & Zl & Ad). specialize (Zl Z0). unfold solve_mut, as_column. rewrite R1, R2. cbn [bind]. rewrite El. cbn [bind unwrap].
    specialize (Hc (RMut (mkTensor (t_data b) l))). assert (LO : lapack_operand (RMut (mkTensor (t_data b) l)) n 1 (fun i _ => f i)) by (split; [|split]; auto; right; right; exact Zl). specialize (Hc LO). destruct sol as [X|].
    - destruct Hc as (y & -> & t & -> & L & U & H). cbn [bind clone_to_mut mview t_data t_layout] in *. eexists. split; [reflexivity|]. cbn [t_layout t_data]. split; auto.
      destruct Hb as (Kb & Sb & _). pose proof (holds_shape _ _ _ _ _ Hh) as Sl. cbn [t_layout] in Sl. unfold t_shape in Sb. destruct U as [U1 U2]. split; [split; auto|].
      + intros p Hp. apply U2. intros ix V. rewrite Sl in V. apply P_Fast3.valid2 in V as (i & j & -> & Hi & Hj). replace j with 0%nat by lia. rewrite Ad by auto. apply Hp. rewrite Sb. now apply valid1.
      + split; [|split; [exact Sb|]]. { destruct Kb as [K1 K2]. split; auto. cbn [t_layout t_data]. now rewrite U1. }
        intros i Hi. unfold at_, elem. cbn [t_data t_layout]. rewrite <- Ad by auto. rewrite L in H. apply (proj2 H i 0%nat); lia.
    - destruct Hc as (e & ->). cbn [bind]. eauto. Qed.
End Solve.

Lemma l_solve_general_vector : forall (T : Type) dev dflt lib (ra : reference T) (b : tensor T) n A f, n <> 0%nat -> lapack_operand ra n n A -> not_broadcast ra -> is_vector b n f ->
  match lib n 1%nat (rows n n A) (rows n 1 (fun i _ => f i)) with
  | None => (exists e, solve_general_view dev dflt lib ra b = Err e) /\ (~ In 0 (l_stride (t_layout b)) -> exists e, solve_general_mut dev dflt lib ra b = Err e)
  | Some (F, p, X) => (exists y, solve_general_view dev dflt lib ra b = Ok y /\ is_vector y n (fun i => X i 0%nat)) /\
      (~ In 0 (l_stride (t_layout b)) -> exists y, solve_general_mut dev dflt lib ra b = Ok y /\ t_layout y = t_layout b /\ untouched_outside (t_layout b) (t_data b) (t_data y) /\ is_vector y n (fun i => X i 0%nat))
  end.
Proof. intros T dev dflt lib ra b n A f Hn Ha Nb Hb. pose proof Ha as (_ & Hh & _). apply holds_shape in Hh. assert (Ra : length (t_shape (ref_of ra)) = 2%nat) by (unfold t_shape; now rewrite Hh).
  assert (C : forall rb, lapack_operand rb n 1 (fun i _ => f i) -> match option_map snd (lib n 1%nat (rows n n A) (rows n 1 (fun i _ => f i))) with None => exists e, solve_general dev dflt lib ra rb = Err e | Some X => exists y, solve_general dev dflt lib ra rb = Ok y /\ delivered (target_of rb) y n 1 X end).
  { intros rb Hr. pose proof (l_solve_general T dev dflt lib ra rb n 1 A (fun i _ => f i)) as H. destruct (lib n 1%nat _ _) as [[[F p] X]|]; cbn [option_map snd]; apply H; auto; split; auto. }
  pose proof (view_ok dev dflt _ ra b n f _ Hn Ra Hb C) as V. pose proof (mut_ok dev dflt _ ra b n f _ Hn Ra Hb C) as M. unfold solve_general_view, solve_general_mut. destruct (lib n 1%nat _ _) as [[[F p] X]|]; auto. Qed.
Lemma l_solve_symmetric_vector : forall (T : Type) (zero one : T) dev dflt lib hermi (ra : reference T) u (b : tensor T) n A f, n <> 0%nat -> tensor_ok (ref_of ra) -> holds (t_data (ref_of ra)) (t_layout (ref_of ra)) n n A -> is_vector b n f ->
  match lib hermi (chosen dev u) n 1%nat (rows n n (triangular zero one (chosen dev u) false A)) (rows n 1 (fun i _ => f i)) with
  | None => (exists e, solve_symmetric_view zero one dev dflt lib hermi ra u b = Err e) /\ (~ In 0 (l_stride (t_layout b)) -> exists e, solve_symmetric_mut zero one dev dflt lib hermi ra u b = Err e)
  | Some (F, p, X) => (exists y, solve_symmetric_view zero one dev dflt lib hermi ra u b = Ok y /\ is_vector y n (fun i => X i 0%nat)) /\
      (~ In 0 (l_stride (t_layout b)) -> exists y, solve_symmetric_mut zero one dev dflt lib hermi ra u b = Ok y /\ t_layout y = t_layout b /\ untouched_outside (t_layout b) (t_data b) (t_data y) /\ is_vector y n (fun i => X i 0%nat))
  end.
Proof. intros T zero one dev dflt lib hermi ra u b n A f Hn Ka Ha Hb. pose proof (holds_shape _ _ _ _ _ Ha) as Sa. assert (Ra : length (t_shape (ref_of ra)) = 2%nat) by (unfold t_shape; now rewrite Sa).
  assert (C : forall rb, lapack_operand rb n 1 (fun i _ => f i) -> match option_map snd (lib hermi (chosen dev u) n 1%nat (rows n n (triangular zero one (chosen dev u) false A)) (rows n 1 (fun i _ => f i))) with None => exists e, solve_symmetric zero one dev dflt lib hermi ra rb u = Err e | Some X => exists y, solve_symmetric zero one dev dflt lib hermi ra rb u = Ok y /\ delivered (target_of rb) y n 1 X end).
  { intros rb Hr. pose proof (l_solve_symmetric T zero one dev dflt lib hermi ra rb u n 1 A (fun i _ => f i)) as H. destruct (lib hermi _ n 1%nat _ _) as [[[F p] X]|]; cbn [option_map snd]; apply H; auto; split; auto. }
  pose proof (view_ok dev dflt _ ra b n f _ Hn Ra Hb C) as V. pose proof (mut_ok dev dflt _ ra b n f _ Hn Ra Hb C) as M. unfold solve_symmetric_view, solve_symmetric_mut. destruct (lib hermi _ n 1%nat _ _) as [[[F p] X]|]; auto. Qed.
Lemma l_solve_ranks : forall (T : Type) (zero one : T) dev dflt gesv_lib sysv_lib hermi (ra : reference T) u (b : tensor T), ~ (length (t_shape (ref_of ra)) = 2%nat /\ (length (t_shape b) = 1%nat \/ length (t_shape b) = 2%nat)) ->
  solve_general_view dev dflt gesv_lib ra b = Err InvalidLayout /\ solve_general_mut dev dflt gesv_lib ra b = Err InvalidLayout /\
  solve_symmetric_view zero one dev dflt sysv_lib hermi ra u b = Err InvalidLayout /\ solve_symmetric_mut zero one dev dflt sysv_lib hermi ra u b = Err InvalidLayout.
Proof. intros T zero one dev dflt g s hermi ra u b N. assert (E : solve_ranks ra b = Err InvalidLayout).
  { unfold solve_ranks, check. destruct (length (t_shape (ref_of ra)) =? 2)%nat eqn:E1; cbn [bind]; [|reflexivity]. destruct ((1 <=? length (t_shape b)) && (length (t_shape b) <=? 2))%nat eqn:E2; auto. exfalso. apply N. lia. }
  unfold solve_general_view, solve_general_mut, solve_symmetric_view, solve_symmetric_mut, solve_view, solve_mut. rewrite E. auto. Qed.

Lemma l_solve_triangular_vector : forall (T : Type) (zero one : T) add mul conj dev dflt lib (a b : tensor T) u A f n,
  (forall x y, mul x y = mul y x) -> (forall x, mul one x = x) -> conj zero = zero -> conj one = one ->
  library_solves zero add mul conj lib n (triangular zero one (chosen dev u) false A) ->
  tensor_ok a -> at_start (t_layout a) -> holds (t_data a) (t_layout a) n n A -> is_vector b n f -> n <> 0%nat ->
  (exists y x, solve_triangular_view zero one dev dflt conj lib a u b = Ok y /\ is_vector y n x /\ solves zero add mul SLeft n 1 (triangular zero one (chosen dev u) false A) (fun i _ => x i) (fun i _ => f i)) /\
  (l_stride (t_layout b) = [1] -> l_offset (t_layout b) = 0 -> exists y x, solve_triangular_mut zero one dev dflt conj lib a u b = Ok y /\ t_layout y = t_layout b /\ untouched_outside (t_layout b) (t_data b) (t_data y) /\
    is_vector y n x /\ solves zero add mul SLeft n 1 (triangular zero one (chosen dev u) false A) (fun i _ => x i) (fun i _ => f i)).
Proof. intros T zero one add mul conj dev dflt lib a b u A f n Hc Hone C0 C1 LS Ka Aa Ha Hb Hn. pose proof (holds_shape _ _ _ _ _ Ha) as Sa. assert (Ra : length (t_shape (ref_of (Ref a))) = 2%nat) by (cbn [ref_of]; unfold t_shape; now rewrite Sa).
  pose proof (fun r H => l_solve_triangular T zero one add mul conj dev dflt lib a r u A (fun i _ => f i) n 1 Hc Hone C0 C1 LS Ka Aa Ha H (Logic.conj Hn (Nat.neq_succ_0 0))) as S.
  destruct (ranks_ok (Ref a) b n f Ra Hb) as [R1 R2]. destruct (vector_column b n f Hb) as (l & El & (Hm & Hh) & Zl & Ad). unfold solve_triangular_view, solve_triangular_mut, solve_view, solve_mut, as_column. rewrite R1, R2. cbn [bind]. rewrite El. cbn [bind unwrap]. split.
  - destruct (S (Ref (mkTensor (t_data b) l))) as (y & X & -> & (t & -> & Kt & Ht) & SX); [split; auto|]. cbn [bind into_owned_of]. destruct (column_vector dev t n X) as (c & -> & Hv); [split; auto|auto|]. cbn [unwrap]. exists c, (fun i => X i 0%nat). split; auto. split; auto.
    intros i j Hi Hj. assert (j = 0%nat) as -> by lia. rewrite <- (SX i 0%nat) by auto. reflexivity.
  - intros L1 O1. pose proof Hb as (Kb & Sb & _). unfold t_shape in Sb.
    assert (Ad' : forall i, (i < n)%nat -> addr l [i; 0%nat] = Z.of_nat i). { intros i Hi. rewrite Ad by auto. unfold addr. rewrite L1, O1. cbn [dot]. lia. }
    destruct (S (RMut (mkTensor (t_data b) l))) as (y & X & -> & (t & -> & L & [U1 U2] & H) & SX).
    { split; [auto|]. split; [auto|]. split; [cbn [t_layout]; apply Zl; rewrite L1; intros [?|[]]; lia|]. left. left. intros i j Hi Hj. replace j with 0%nat by lia. cbn [t_layout]. rewrite Ad' by auto. lia. }
    cbn [bind clone_to_mut t_data t_layout mview] in *. exists (mkTensor (t_data t) (t_layout b)), (fun i => X i 0%nat). split; auto. cbn [t_layout t_data]. split; auto. pose proof (holds_shape _ _ _ _ _ Hh) as Sl. cbn [t_layout] in Sl. split; [split; auto|split].
    + intros p Hp. apply U2. intros ix V. rewrite Sl in V. apply P_Fast3.valid2 in V as (i & j & -> & Hi & Hj). replace j with 0%nat by lia. rewrite Ad by auto. apply Hp. rewrite Sb. now apply valid1.
    + split; [|split; [exact Sb|]]. { destruct Kb as [K1 K2]. split; auto. cbn [t_layout t_data]. now rewrite U1. }
      intros i Hi. unfold at_, elem. cbn [t_data t_layout]. rewrite <- Ad by auto. rewrite L in H. apply (proj2 H i 0%nat); lia.
    + intros i j Hi Hj. assert (j = 0%nat) as -> by lia. rewrite <- (SX i 0%nat) by auto. reflexivity. Qed.
Lemma l_solve_triangular_strided_refuted : exists (a b : tensor Z), tensor_ok a /\ l_offset (t_layout a) = 0 /\ holds (t_data a) (t_layout a) 2 2 (identity 0 1) /\ is_vector b 2 (fun i => Z.of_nat i) /\ l_offset (t_layout b) = 0 /\ l_stride (t_layout b) = [2] /\ peek (t_data b) 1 = Some 9 /\
  forall dflt lib, let X := lib SRight NoTrans 1%nat 2%nat 1 [[1; 0]; [0; 1]] [[0; 9]] in
    solve_triangular_mut 0 1 ColMajor dflt (fun x => x) lib a None b = Ok (mkTensor [X 0%nat 0%nat; X 0%nat 1%nat; 1] (t_layout b)).
Proof. exists (mkTensor [1; 0; 0; 1] (mkLayout [2; 2]%nat [2; 1] 0)), (mkTensor [0; 9; 1] (mkLayout [2]%nat [2] 0)). split; [concrete_tensor|]. split; [reflexivity|]. split; [split; [reflexivity|]; intros [|[|i]] [|[|j]] Hi Hj; try reflexivity; lia|].
  split; [split; [concrete_tensor|split; [reflexivity|]]; intros [|[|i]] Hi; try reflexivity; lia|]. do 3 (split; [reflexivity|]). intros dflt lib X. subst X. destruct dflt; vm_compute; reflexivity. Qed.

Lemma l_solve_triangular_ranks : forall (T : Type) (zero one : T) dev dflt conj lib (a b : tensor T) u, ~ (length (t_shape a) = 2%nat /\ (length (t_shape b) = 1%nat \/ length (t_shape b) = 2%nat)) ->
  solve_triangular_view zero one dev dflt conj lib a u b = Err InvalidLayout /\ solve_triangular_mut zero one dev dflt conj lib a u b = Err InvalidLayout.
Proof. intros T zero one dev dflt cj lib a b u N. assert (E : solve_ranks (Ref a) b = Err InvalidLayout).
  { unfold solve_ranks, check. cbn [ref_of]. destruct (length (t_shape a) =? 2)%nat eqn:E1; cbn [bind]; [|reflexivity]. destruct ((1 <=? length (t_shape b)) && (length (t_shape b) <=? 2))%nat eqn:E2; auto. exfalso. apply N. lia. }
  unfold solve_triangular_view, solve_triangular_mut, solve_view, solve_mut. rewrite E. auto. Qed.

Section SolveMatrix.
  Context {T : Type} (dev dflt : order) (core : reference T -> res (mutable T)) (ra : reference T) (b : tensor T) (n k : nat) (B : nat -> nat -> T) (sol : option (nat -> nat -> T)).
  Context (Ra : length (t_shape (ref_of ra)) = 2%nat) (Hb : is_matrix b n k B).
  Context (Hc : forall rb, lapack_operand rb n k B -> match sol with None => exists e, core rb = Err e | Some X => exists y, core rb = Ok y /\ delivered (target_of rb) y n k X end).
  Lemma ranks2_ok : solve_ranks ra b = Ok tt /\ as_column b = Ok b /\ is_vec b = false.
  Proof using Ra Hb. destruct Hb as [_ H]. pose proof (holds_shape _ _ _ _ _ H) as S. unfold solve_ranks, as_column, is_vec, t_shape in *. rewrite Ra, S. auto. Qed.
  Lemma view2_ok : match sol with None => exists e, solve_view dev dflt core ra b = Err e | Some X => exists y, solve_view dev dflt core ra b = Ok y /\ is_matrix y n k X end.
  Proof using All. destruct ranks2_ok as (R1 & R2 & R3). unfold solve_view. rewrite R1, R2, R3. cbn [bind]. specialize (Hc (Ref b)). destruct sol as [X|].
    - destruct Hc as (y & -> & t & -> & Ht & H); [destruct Hb; split; auto|]. cbn [bind into_owned_of]. exists t. split; [reflexivity|split; auto].
    - destruct Hc as (e & ->); [destruct Hb; split; auto|]. cbn [bind]. eauto. Qed.
  Lemma mut2_ok : overwritable (t_layout b) -> match sol with None => exists e, solve_mut dev core ra b = Err e
    | Some X => exists y, solve_mut dev core ra b = Ok y /\ t_layout y = t_layout b /\ untouched_outside (t_layout b) (t_data b) (t_data y) /\ is_matrix y n k X end.
  Proof using All. intro O. destruct ranks2_ok as (R1 & R2 & _). unfold solve_mut. rewrite R1, R2. cbn [bind]. specialize (Hc (RMut b)). destruct sol as [X|].
    - destruct Hc as (y & -> & t & -> & L & U & H); [destruct Hb; split; auto|]. cbn [bind clone_to_mut mview]. exists (mkTensor (t_data t) (t_layout b)). split; [reflexivity|]. cbn [t_layout t_data]. split; auto. split; auto.
      destruct Hb as [[K1 K2] _]. destruct U as [U1 _]. rewrite L in H. split; [|exact H]. split; auto. cbn [t_layout t_data]. now rewrite U1.
    - destruct Hc as (e & ->); [destruct Hb; split; auto|]. cbn [bind]. eauto. Qed.
End SolveMatrix.
Lemma l_solve_general_matrix : forall (T : Type) dev dflt lib (ra : reference T) (b : tensor T) n k A B, nonempty n k -> lapack_operand ra n n A -> not_broadcast ra -> is_matrix b n k B ->
  match lib n k (rows n n A) (rows n k B) with
  | None => (exists e, solve_general_view dev dflt lib ra b = Err e) /\ (overwritable (t_layout b) -> exists e, solve_general_mut dev dflt lib ra b = Err e)
  | Some (F, p, X) => (exists y, solve_general_view dev dflt lib ra b = Ok y /\ is_matrix y n k X) /\
      (overwritable (t_layout b) -> exists y, solve_general_mut dev dflt lib ra b = Ok y /\ t_layout y = t_layout b /\ untouched_outside (t_layout b) (t_data b) (t_data y) /\ is_matrix y n k X)
  end.
Proof. intros T dev dflt lib ra b n k A B NE Ha Nb Hb. pose proof Ha as (_ & Hh & _). apply holds_shape in Hh. assert (Ra : length (t_shape (ref_of ra)) = 2%nat) by (unfold t_shape; now rewrite Hh).
  assert (C : forall rb, lapack_operand rb n k B -> match option_map snd (lib n k (rows n n A) (rows n k B)) with None => exists e, solve_general dev dflt lib ra rb = Err e | Some X => exists y, solve_general dev dflt lib ra rb = Ok y /\ delivered (target_of rb) y n k X end).
  { intros rb Hr. pose proof (l_solve_general T dev dflt lib ra rb n k A B) as H. destruct (lib n k _ _) as [[[F p] X]|]; cbn [option_map snd]; apply H; auto; split; auto. }
  pose proof (view2_ok dev dflt _ ra b n k B _ Ra Hb C) as V. pose proof (mut2_ok dev dflt _ ra b n k B _ Ra Hb C) as M. unfold solve_general_view, solve_general_mut. destruct (lib n k _ _) as [[[F p] X]|]; auto. Qed.
Lemma l_solve_symmetric_matrix : forall (T : Type) (zero one : T) dev dflt lib hermi (ra : reference T) u (b : tensor T) n k A B, nonempty n k -> tensor_ok (ref_of ra) -> holds (t_data (ref_of ra)) (t_layout (ref_of ra)) n n A -> is_matrix b n k B ->
  match lib hermi (chosen dev u) n k (rows n n (triangular zero one (chosen dev u) false A)) (rows n k B) with
  | None => (exists e, solve_symmetric_view zero one dev dflt lib hermi ra u b = Err e) /\ (overwritable (t_layout b) -> exists e, solve_symmetric_mut zero one dev dflt lib hermi ra u b = Err e)
  | Some (F, p, X) => (exists y, solve_symmetric_view zero one dev dflt lib hermi ra u b = Ok y /\ is_matrix y n k X) /\
      (overwritable (t_layout b) -> exists y, solve_symmetric_mut zero one dev dflt lib hermi ra u b = Ok y /\ t_layout y = t_layout b /\ untouched_outside (t_layout b) (t_data b) (t_data y) /\ is_matrix y n k X)
  end.
Proof. intros T zero one dev dflt lib hermi ra u b n k A B NE Ka Ha Hb. pose proof (holds_shape _ _ _ _ _ Ha) as Sa. assert (Ra : length (t_shape (ref_of ra)) = 2%nat) by (unfold t_shape; now rewrite Sa).
  assert (C : forall rb, lapack_operand rb n k B -> match option_map snd (lib hermi (chosen dev u) n k (rows n n (triangular zero one (chosen dev u) false A)) (rows n k B)) with None => exists e, solve_symmetric zero one dev dflt lib hermi ra rb u = Err e | Some X => exists y, solve_symmetric zero one dev dflt lib hermi ra rb u = Ok y /\ delivered (target_of rb) y n k X end).
  { intros rb Hr. pose proof (l_solve_symmetric T zero one dev dflt lib hermi ra rb u n k A B) as H. destruct (lib hermi _ n k _ _) as [[[F p] X]|]; cbn [option_map snd]; apply H; auto; split; auto. }
  pose proof (view2_ok dev dflt _ ra b n k B _ Ra Hb C) as V. pose proof (mut2_ok dev dflt _ ra b n k B _ Ra Hb C) as M. unfold solve_symmetric_view, solve_symmetric_mut. destruct (lib hermi _ n k _ _) as [[[F p] X]|]; auto. Qed.
