(** Property lemmas about linear systems with a vector as right-hand side on the faer device (C89). *)
From Verif Require Import Base Spec Spec_Tri Spec_Blas P_Index P_List M_Layout P_Layout M_Indexer P_Indexer M_Rearr M_Tensor P_Tensor Q_Tensor P_Fast3 P_Creation M_Blas Spec_BlasApi P_Blas M_Linalg Spec_Linalg M_Faer Spec_Faer P_Faer7 Q_Faer M_Mesh M_Solve Q_Solve M_SolveFaer.
Local Open Scope Z_scope.

Section Found.
  Context {T : Type} (dev dflt : order) (core : reference T -> res (mutable T)) (ra : reference T) (b : tensor T) (n : nat) (f : nat -> T) (P : (nat -> T) -> Prop).
  Context (Hn : n <> 0%nat) (Ra : length (t_shape (ref_of ra)) = 2%nat) (Hb : is_vector b n f).
  Context (Hc : forall rb, lapack_operand rb n 1 (fun i _ => f i) -> exists y X, core rb = Ok y /\ delivered (target_of rb) y n 1 X /\ P (fun i => X i 0%nat)).
  Lemma view_found : exists y x, solve_view dev dflt core ra b = Ok y /\ is_vector y n x /\ P x.
  Proof using All. destruct (ranks_ok ra b n f Ra Hb) as [R1 R2]. destruct (vector_column b n f Hb) as (l & El & (Hm & Hh) & _ & _). unfold solve_view, as_column. rewrite R1, R2. cbn [bind]. rewrite El. cbn [bind unwrap].
    destruct (Hc (Ref (mkTensor (t_data b) l))) as (y & X & -> & (t & -> & Ht & H) & PX); [split; auto|]. cbn [bind into_owned_of]. destruct (column_vector dev t n X) as (c & -> & Hv); [split; auto|auto|]. cbn [unwrap]. eauto. Qed.
  Lemma mut_found : ~ In 0 (l_stride (t_layout b)) -> exists y x, solve_mut dev core ra b = Ok y /\ t_layout y = t_layout b /\ untouched_outside (t_layout b) (t_data b) (t_data y) /\ is_vector y n x /\ P x.
  Proof using All. intro Z0. destruct (ranks_ok ra b n f Ra Hb) as [R1 R2]. destruct (vector_column b n f Hb) as (l & El & (Hm & Hh) & Zl & Ad). specialize (Zl Z0). unfold solve_mut, as_column. rewrite R1, R2. cbn [bind]. rewrite El. cbn [bind unwrap].
    assert (LO : lapack_operand (RMut (mkTensor (t_data b) l)) n 1 (fun i _ => f i)) by (split; [|split]; auto; right; right; exact Zl). destruct (Hc _ LO) as (y & X & -> & (t & -> & L & U & H) & PX).
    cbn [bind clone_to_mut mview t_data t_layout] in *. exists (mkTensor (t_data t) (t_layout b)), (fun i => X i 0%nat). split; [reflexivity|]. cbn [t_layout t_data]. split; auto.
    destruct Hb as (Kb & Sb & _). pose proof (holds_shape _ _ _ _ _ Hh) as Sl. cbn [t_layout] in Sl. unfold t_shape in Sb. destruct U as [U1 U2]. split; [split; auto|].
    - intros p Hp. apply U2. intros ix V. rewrite Sl in V. apply P_Fast3.valid2 in V as (i & j & -> & Hi & Hj). replace j with 0%nat by lia. rewrite Ad by auto. apply Hp. rewrite Sb. now apply valid1.
    - split; [|exact PX]. split; [|split; [exact Sb|]]. { destruct Kb as [K1 K2]. split; auto. cbn [t_layout t_data]. now rewrite U1. }
      intros i Hi. unfold at_, elem. cbn [t_data t_layout]. rewrite <- Ad by auto. rewrite L in H. apply (proj2 H i 0%nat); lia. Qed.
End Found.
Lemma l_faer_triangular_vector : forall (T : Type) (zero one : T) add mul dflt tri_lib pool da d (a b : tensor T) u n A f, solves_triangles zero one add mul tri_lib -> is_matrix a n n A -> n <> 0%nat -> is_vector b n f ->
  (forall i, (i < n)%nat -> A i i <> zero) ->
  (exists y x, faer_triangular_view zero dflt tri_lib pool da d a u b = Ok y /\ is_vector y n x /\ solves zero add mul SLeft n 1 (triangular zero one (chosen (d_order da) u) false A) (fun i _ => x i) (fun i _ => f i)) /\
  (~ In 0 (l_stride (t_layout b)) -> exists y x, faer_triangular_mut zero dflt tri_lib pool da d a u b = Ok y /\ t_layout y = t_layout b /\ untouched_outside (t_layout b) (t_data b) (t_data y) /\ is_vector y n x /\
    solves zero add mul SLeft n 1 (triangular zero one (chosen (d_order da) u) false A) (fun i _ => x i) (fun i _ => f i)).
Proof. intros T zero one add mul dflt lib pool da d a b u n A f LS Ha Hn Hb ND. assert (Ra : length (t_shape (ref_of (Ref a))) = 2%nat). { destruct Ha as [_ Ha]. cbn [ref_of]. unfold t_shape. now rewrite (holds_shape _ _ _ _ _ Ha). }
  set (P := fun x : nat -> T => solves zero add mul SLeft n 1 (triangular zero one (chosen (d_order da) u) false A) (fun i _ => x i) (fun i _ => f i)).
  assert (C : forall rb, lapack_operand rb n 1 (fun i _ => f i) -> exists y X, faer_solve_triangular zero dflt lib pool da d a rb u = Ok y /\ delivered (target_of rb) y n 1 X /\ P (fun i => X i 0%nat)).
  { intros rb Hr. destruct (l_faer_solve_triangular T zero one add mul dflt lib pool da d a rb u n 1 A (fun i _ => f i) LS Ha (conj Hn (Nat.neq_succ_0 0)) Hr ND) as (y & X & E & D & S). exists y, X. split; auto. split; auto.
    intros i j Hi Hj. assert (j = 0%nat) as -> by lia. rewrite <- (S i 0%nat) by auto. reflexivity. }
  split; [apply (view_found _ _ _ _ b n f P Hn Ra Hb C)|apply (mut_found _ dflt _ _ b n f P Hn Ra Hb C)]. Qed.

Lemma view_lift : forall (T : Type) dflt svd_lib solve_lib pool d (a b : tensor T) g r g', snd r = g' -> solve_ranks (Ref a) b = Ok tt -> (forall m, as_column b = Ok m -> faer_solve_general dflt svd_lib solve_lib pool d a (Ref m) g = r) -> (exists m, as_column b = Ok m) ->
  faer_general_view dflt svd_lib solve_lib pool d a b g = (solve_view (d_order d) dflt (fun rb => fst (faer_solve_general dflt svd_lib solve_lib pool d a rb g)) (Ref a) b, g').
Proof. intros T dflt l1 l2 pool d a b g r g' <- E1 E2 (m & Em). specialize (E2 m Em). unfold faer_general_view, solve_view, gbind, glift. rewrite E1, Em. cbn [bind]. rewrite E2. destruct r as [[y|e|] h]; cbn [fst snd bind]; auto. destruct (into_owned_of dflt y); cbn [bind]; auto. Qed.
Lemma mut_lift : forall (T : Type) dflt svd_lib solve_lib pool d (a b : tensor T) g r g', snd r = g' -> solve_ranks (Ref a) b = Ok tt -> (forall m, as_column b = Ok m -> faer_solve_general dflt svd_lib solve_lib pool d a (RMut m) g = r) -> (exists m, as_column b = Ok m) ->
  faer_general_mut dflt svd_lib solve_lib pool d a b g = (solve_mut (d_order d) (fun rb => fst (faer_solve_general dflt svd_lib solve_lib pool d a rb g)) (Ref a) b, g').
Proof. intros T dflt l1 l2 pool d a b g r g' <- E1 E2 (m & Em). specialize (E2 m Em). unfold faer_general_mut, solve_mut, gbind, glift, gret. rewrite E1, Em. cbn [bind]. rewrite E2. destruct r as [[y|e|] h]; cbn [fst snd bind]; auto. destruct (clone_to_mut (d_order d) y); cbn [bind]; auto. Qed.
Lemma l_faer_general_vector : forall (T : Type) (zero : T) add mul dflt svd_lib solve_lib pool d (a b : tensor T) n A f g, is_matrix a n n A -> n <> 0%nat -> is_vector b n f ->
  (forall x X, svd_lib (active pool g) true n n (rows n n A) = Ok x -> solve_lib (active pool g) n n x n 1%nat (rows n 1 (fun i _ => f i)) = Some X -> solves zero add mul SLeft n 1 A X (fun i _ => f i)) ->
  let found := let* x := svd_lib (active pool g) true n n (rows n n A) in or_panic (solve_lib (active pool g) n n x n 1%nat (rows n 1 (fun i _ => f i))) in
  outcome found pool g (faer_general_view dflt svd_lib solve_lib pool d a b) (fun _ y => exists x, is_vector y n x /\ solves zero add mul SLeft n 1 A (fun i _ => x i) (fun i _ => f i)) /\
  (~ In 0 (l_stride (t_layout b)) -> outcome found pool g (faer_general_mut dflt svd_lib solve_lib pool d a b)
    (fun _ y => t_layout y = t_layout b /\ untouched_outside (t_layout b) (t_data b) (t_data y) /\ exists x, is_vector y n x /\ solves zero add mul SLeft n 1 A (fun i _ => x i) (fun i _ => f i))).
Proof. intros T zero add mul dflt l1 l2 pool d a b n A f g Ha Hn Hb C found. assert (Ra : length (t_shape (ref_of (Ref a))) = 2%nat). { destruct Ha as [_ Ha]. cbn [ref_of]. unfold t_shape. now rewrite (holds_shape _ _ _ _ _ Ha). }
  pose proof (fun rb H => l_faer_solve_general T zero add mul dflt l1 l2 pool d a rb n 1 A (fun i _ => f i) g Ha (conj Hn (Nat.neq_succ_0 0)) H C) as L. fold found in L.
  destruct (ranks_ok (Ref a) b n f Ra Hb) as [R1 R2]. destruct (vector_column b n f Hb) as (l & El & (Hm & Hh) & Zl & Ad).
  assert (Em : as_column b = Ok (mkTensor (t_data b) l)) by (unfold as_column; rewrite R2, El; reflexivity).
  assert (LR : lapack_operand (Ref (mkTensor (t_data b) l)) n 1 (fun i _ => f i)) by (split; auto).
  assert (LM : ~ In 0 (l_stride (t_layout b)) -> lapack_operand (RMut (mkTensor (t_data b) l)) n 1 (fun i _ => f i)) by (intro Z0; split; [|split]; auto; right; right; exact (Zl Z0)).
  set (P := fun x : nat -> T => solves zero add mul SLeft n 1 A (fun i _ => x i) (fun i _ => f i)).
  destruct found as [X0|e|]; unfold outcome in *.
  - assert (K : forall rb, lapack_operand rb n 1 (fun i _ => f i) -> exists y X, fst (faer_solve_general dflt l1 l2 pool d a rb g) = Ok y /\ delivered (target_of rb) y n 1 X /\ P (fun i => X i 0%nat)).
    { intros rb H. destruct (L rb H) as (y & E & X & D & S). rewrite E. exists y, X. split; auto. split; auto. intros i j Hi Hj. assert (j = 0%nat) as -> by lia. rewrite <- (S i 0%nat) by auto. reflexivity. }
    split.
    + destruct (view_found (d_order d) dflt _ (Ref a) b n f P Hn Ra Hb K) as (y & x & E & V & S). exists y. split; [|eauto]. rewrite <- E. destruct (L _ LR) as (y0 & E0 & _). eapply view_lift; eauto; [|intros m H; rewrite Em in H; injection H as <-; exact E0]. reflexivity.
    + intro Z0. destruct (mut_found (d_order d) dflt _ (Ref a) b n f P Hn Ra Hb K Z0) as (y & x & E & Ly & U & V & S). exists y. split; [|eauto]. rewrite <- E. destruct (L _ (LM Z0)) as (y0 & E0 & _). eapply mut_lift; eauto; [|intros m H; rewrite Em in H; injection H as <-; exact E0]. reflexivity.
  - split; [|intro Z0].
    + unfold faer_general_view, gbind, glift. rewrite R1, Em, (L _ LR). reflexivity.
    + unfold faer_general_mut, gbind, glift. rewrite R1, Em, (L _ (LM Z0)). reflexivity.
  - split; [|intro Z0].
    + unfold faer_general_view, gbind, glift. rewrite R1, Em, (L _ LR). reflexivity.
    + unfold faer_general_mut, gbind, glift. rewrite R1, Em, (L _ (LM Z0)). reflexivity. Qed.

Lemma l_faer_solve_ranks : forall (T : Type) (zero : T) dflt tri_lib svd_lib solve_lib pool da d (a b : tensor T) u g, ~ (length (t_shape a) = 2%nat /\ (length (t_shape b) = 1%nat \/ length (t_shape b) = 2%nat)) ->
  faer_triangular_view zero dflt tri_lib pool da d a u b = Err InvalidLayout /\ faer_triangular_mut zero dflt tri_lib pool da d a u b = Err InvalidLayout /\
  faer_general_view dflt svd_lib solve_lib pool d a b g = (Err InvalidLayout, g) /\ faer_general_mut dflt svd_lib solve_lib pool d a b g = (Err InvalidLayout, g).
Proof. intros T zero dflt tl sv so pool da d a b u g N. assert (E : solve_ranks (Ref a) b = Err InvalidLayout).
  { unfold solve_ranks, check. cbn [ref_of]. destruct (length (t_shape a) =? 2)%nat eqn:E1; cbn [bind]; [|reflexivity]. destruct ((1 <=? length (t_shape b)) && (length (t_shape b) <=? 2))%nat eqn:E2; auto. exfalso. apply N. lia. }
  unfold faer_triangular_view, faer_triangular_mut, faer_general_view, faer_general_mut, solve_view, solve_mut, gbind, glift. rewrite E. auto. Qed.
Lemma restores_then {X Y} (m : globally X) (f : X -> globally Y) : restores m -> (forall x, restores (f x)) -> restores (gbind m f).
Proof. intros Hm Hf g y g' E. unfold gbind in E. destruct (m g) as [[x|e|] h] eqn:Em; try discriminate. apply Hm in Em. subst h. exact (Hf x _ _ _ E). Qed.
Lemma restores_pure {X} (r : res X) : restores (glift r).
Proof. intros g x g' E. injection E as _ E. now symmetry. Qed.
Lemma l_faer_general_restores : forall (T : Type) dflt svd_lib solve_lib pool d (a b : tensor T), restores (faer_general_view dflt svd_lib solve_lib pool d a b) /\ restores (faer_general_mut dflt svd_lib solve_lib pool d a b).
Proof. intros T dflt sv so pool d a b.
  assert (G : forall r, restores (faer_solve_general dflt sv so pool d a r)). { intro r. unfold faer_solve_general. restoring. }
  split; [unfold faer_general_view|unfold faer_general_mut]; repeat (apply restores_then; [auto using restores_pure|intro]); first [apply restores_pure|intros ? ? ? E; injection E as _ E; now symmetry]. Qed.

Section FoundMatrix.
  Context {T : Type} (dev dflt : order) (core : reference T -> res (mutable T)) (ra : reference T) (b : tensor T) (n p : nat) (B : nat -> nat -> T) (P : (nat -> nat -> T) -> Prop).
  Context (Ra : length (t_shape (ref_of ra)) = 2%nat) (Hb : is_matrix b n p B).
  Context (Hc : forall rb, lapack_operand rb n p B -> exists y X, core rb = Ok y /\ delivered (target_of rb) y n p X /\ P X).
  Lemma matrix_ranks : solve_ranks ra b = Ok tt /\ as_column b = Ok b /\ is_vec b = false.
  Proof using Ra Hb. destruct Hb as [_ H]. pose proof (holds_shape _ _ _ _ _ H) as S. unfold solve_ranks, as_column, is_vec, t_shape in *. rewrite Ra, S. auto. Qed.
  Lemma view_matrix : exists y X, solve_view dev dflt core ra b = Ok y /\ is_matrix y n p X /\ P X.
  Proof using All. destruct matrix_ranks as (R1 & R2 & R3). destruct (Hc (Ref b)) as (y & X & E & (t & -> & Ht & H) & PX); [destruct Hb; split; auto|]. unfold solve_view. rewrite R1, R2, R3. cbn [bind]. rewrite E. cbn [bind into_owned_of]. exists t, X. split; [reflexivity|]. split; [split; auto|auto]. Qed.
  Lemma mut_matrix : overwritable (t_layout b) -> exists y X, solve_mut dev core ra b = Ok y /\ t_layout y = t_layout b /\ untouched_outside (t_layout b) (t_data b) (t_data y) /\ is_matrix y n p X /\ P X.
  Proof using All. intro O. destruct matrix_ranks as (R1 & R2 & R3). destruct (Hc (RMut b)) as (y & X & E & (t & -> & L & U & H) & PX); [destruct Hb; split; auto|]. unfold solve_mut. rewrite R1, R2. cbn [bind]. rewrite E. cbn [bind clone_to_mut mview].
    exists (mkTensor (t_data t) (t_layout b)), X. split; [reflexivity|]. cbn [t_layout t_data]. split; auto. split; auto. split; auto. destruct Hb as [[K1 K2] _]. destruct U as [U1 _]. rewrite L in H. split; [|exact H]. split; auto. cbn [t_layout t_data]. now rewrite U1. Qed.
End FoundMatrix.
Lemma l_faer_triangular_matrix : forall (T : Type) (zero one : T) add mul dflt tri_lib pool da d (a b : tensor T) u n p A B, solves_triangles zero one add mul tri_lib -> is_matrix a n n A -> nonempty n p -> is_matrix b n p B ->
  (forall i, (i < n)%nat -> A i i <> zero) ->
  (exists y X, faer_triangular_view zero dflt tri_lib pool da d a u b = Ok y /\ is_matrix y n p X /\ solves zero add mul SLeft n p (triangular zero one (chosen (d_order da) u) false A) X B) /\
  (overwritable (t_layout b) -> exists y X, faer_triangular_mut zero dflt tri_lib pool da d a u b = Ok y /\ t_layout y = t_layout b /\ untouched_outside (t_layout b) (t_data b) (t_data y) /\ is_matrix y n p X /\
    solves zero add mul SLeft n p (triangular zero one (chosen (d_order da) u) false A) X B).
Proof. intros T zero one add mul dflt lib pool da d a b u n p A B LS Ha NE Hb ND. assert (Ra : length (t_shape (ref_of (Ref a))) = 2%nat). { destruct Ha as [_ Ha]. cbn [ref_of]. unfold t_shape. now rewrite (holds_shape _ _ _ _ _ Ha). }
  pose proof (fun rb H => l_faer_solve_triangular T zero one add mul dflt lib pool da d a rb u n p A B LS Ha NE H ND) as C.
  split; [apply (view_matrix (d_order d) dflt _ (Ref a) b n p B (fun X => solves zero add mul SLeft n p (triangular zero one (chosen (d_order da) u) false A) X B) Ra Hb C)|apply (mut_matrix (d_order d) dflt _ (Ref a) b n p B (fun X => solves zero add mul SLeft n p (triangular zero one (chosen (d_order da) u) false A) X B) Ra Hb C)]. Qed.
Lemma l_faer_general_matrix : forall (T : Type) (zero : T) add mul dflt svd_lib solve_lib pool d (a b : tensor T) n p A B g, is_matrix a n n A -> nonempty n p -> is_matrix b n p B ->
  (forall x X, svd_lib (active pool g) true n n (rows n n A) = Ok x -> solve_lib (active pool g) n n x n p (rows n p B) = Some X -> solves zero add mul SLeft n p A X B) ->
  let found := let* x := svd_lib (active pool g) true n n (rows n n A) in or_panic (solve_lib (active pool g) n n x n p (rows n p B)) in
  outcome found pool g (faer_general_view dflt svd_lib solve_lib pool d a b) (fun _ y => exists X, is_matrix y n p X /\ solves zero add mul SLeft n p A X B) /\
  (overwritable (t_layout b) -> outcome found pool g (faer_general_mut dflt svd_lib solve_lib pool d a b)
    (fun _ y => t_layout y = t_layout b /\ untouched_outside (t_layout b) (t_data b) (t_data y) /\ exists X, is_matrix y n p X /\ solves zero add mul SLeft n p A X B)).
Proof. intros T zero add mul dflt l1 l2 pool d a b n p A B g Ha NE Hb C found. assert (Ra : length (t_shape (ref_of (Ref a))) = 2%nat). { destruct Ha as [_ Ha]. cbn [ref_of]. unfold t_shape. now rewrite (holds_shape _ _ _ _ _ Ha). }
  pose proof (fun rb H => l_faer_solve_general T zero add mul dflt l1 l2 pool d a rb n p A B g Ha NE H C) as L. fold found in L.
  destruct (matrix_ranks (Ref a) b n p B Ra Hb) as (R1 & Em & _).
  assert (LR : lapack_operand (Ref b) n p B) by (destruct Hb; split; auto).
  assert (LM : overwritable (t_layout b) -> lapack_operand (RMut b) n p B) by (destruct Hb; intro; split; auto).
  set (P := fun X : nat -> nat -> T => solves zero add mul SLeft n p A X B).
  destruct found as [X0|e|]; unfold outcome in *.
  - assert (K : forall rb, lapack_operand rb n p B -> exists y X, fst (faer_solve_general dflt l1 l2 pool d a rb g) = Ok y /\ delivered (target_of rb) y n p X /\ P X).
    { intros rb H. destruct (L rb H) as (y & E & X & D & S). rewrite E. exists y, X. auto. }
    split.
    + destruct (view_matrix (d_order d) dflt _ (Ref a) b n p B P Ra Hb K) as (y & x & E & V & S). exists y. split; [|eauto]. rewrite <- E. destruct (L _ LR) as (y0 & E0 & _). eapply view_lift; eauto; [|intros m H; rewrite Em in H; injection H as <-; exact E0]. reflexivity.
    + intro Z0. destruct (mut_matrix (d_order d) dflt _ (Ref a) b n p B P Ra Hb K Z0) as (y & x & E & Ly & U & V & S). exists y. split; [|eauto]. rewrite <- E. destruct (L _ (LM Z0)) as (y0 & E0 & _). eapply mut_lift; eauto; [|intros m H; rewrite Em in H; injection H as <-; exact E0]. reflexivity.
  - split; [|intro Z0].
    + unfold faer_general_view, gbind, glift. rewrite R1, Em, (L _ LR). reflexivity.
    + unfold faer_general_mut, gbind, glift. rewrite R1, Em, (L _ (LM Z0)). reflexivity.
  - split; [|intro Z0].
    + unfold faer_general_view, gbind, glift. rewrite R1, Em, (L _ LR). reflexivity.
    + unfold faer_general_mut, gbind, glift. rewrite R1, Em, (L _ (LM Z0)). reflexivity. Qed.
