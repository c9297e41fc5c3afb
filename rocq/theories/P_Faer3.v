(** Decompositions on the faer device. *)
From Coq Require Import String Ring_theory Ring.
From Verif Require Import Base Spec Spec_Matmul Spec_Tri Spec_Blas P_Index P_List M_Layout P_Layout P_Bounds P_Contig P_Strides M_Indexer P_Indexer M_Broadcast P_Broadcast M_Rearr P_Rearr P_BinOp M_Iter P_Iter M_Kernel P_Kernel Q_Kernel M_Tensor P_Tensor Q_Tensor Q_Copy P_Arg P_Axes M_Matmul P_Matmul P_Matmul2 P_Matmul3 P_Matmul4 Q_Matmul M_Tri P_Tri P_Tri2 P_Tri3 P_Tri4 Q_Tri M_Fast P_Fast P_Fast2 P_Fast3 P_Creation M_Blas Spec_BlasApi P_Blas P_Blas2 P_Blas3 P_Blas4 M_Reduce Q_Reduce M_Linalg Spec_Linalg P_Linalg P_Linalg2 P_Linalg3 Q_Indexer P_Linalg4 P_Linalg5 P_Linalg6 M_Faer Spec_Faer P_Faer P_Faer2.
Local Open Scope Z_scope.

Lemma rank_two {T} (t : tensor T) m n A : is_matrix t m n A -> (length (t_shape t) =? 2)%nat = true.
Proof. intros (_ & E & _). unfold t_shape. now rewrite E. Qed.
  Lemma vector_new {R} (l : list R) o (f : nat -> R) : (forall i, (i < length l)%nat -> nth_error l i = Some (f i)) -> is_vector (mkTensor l (new_contig Fixed [length l] 0 o)) (length l) f.
  Proof. intro H. assert (E : l = map f (seq 0 (length l))). { apply nth_error_ext. intro i. destruct (Nat.ltb_spec i (length l)); [rewrite H by auto; rewrite nth_error_map, nth_error_seq by auto; reflexivity|].
      rewrite (proj2 (nth_error_None l i)) by lia. symmetry. apply nth_error_None. rewrite map_length, seq_length. lia. }
    rewrite E at 1. apply (vector_ok o (length l) f). Qed.
Section Runs.
  Context {T R : Type} (zero one : T) (conj : T -> T) (rp : T -> R) (emb : R -> T) (dflt : order) (cores : nat) (cap : nat -> nat) (pad : nat -> T) (CAP : forall k, (k <= cap k)%nat).
  Notation dd := (default_device dflt cores).
  Lemma svd_run_ok svd_lib pool (a : placed T) (full : bool) m n A g : is_matrix (p_tensor a) m n A ->
    outcome (svd_lib (active pool g) full m n (rows m n A)) pool g (faer_svd_f rp dflt cores cap pad svd_lib pool a full)
      (fun x y => let '(U, s, V) := x in let '(u, sv, vt) := y in
        is_matrix (p_tensor u) m (if full then m else Nat.min m n) U /\ is_vector (p_tensor sv) (Nat.min m n) (fun i => rp (s i) : R) /\ is_matrix (p_tensor vt) (if full then n else Nat.min m n) n (fun i j => V j i) /\
        p_device u = dd /\ p_device sv = dd /\ p_device vt = dd).
  Proof. intro H. unfold outcome, faer_svd_f. pose proof (into_faer_holds _ m n A H) as F. pose proof F as (E1 & E2 & _). rewrite (rank_two _ _ _ _ H). cbn [check]. rewrite (lift_ok _ tt) by reflexivity. unfold faer_svd. rewrite enter_run. rewrite E1, E2, (lift_ok _ _ _ _ (fm_read_ok _ m n A F)), call_run.
    destruct (svd_lib (active pool g) full m n (rows m n A)) as [[[U s] V]|e|]; cbn [faer_err]; [|reflexivity|reflexivity].
    destruct (new_rstsr cap pad CAP m (if full then m else Nat.min m n) U) as (u & Eu & Mu & Lu). destruct (into_owned_copy Fixed dflt u (proj1 Mu)) as (u2 & Eu2 & Tu2 & Su2 & Qu2 & Ru2 & _). specialize (Ru2 ltac:(apply offset_rooted; now rewrite Lu)).
    destruct (settle_matrix dflt u2 (d_order (p_device a)) _ _ U (matrix_copy u u2 _ _ _ Mu Tu2 Su2 Qu2) Ru2) as (u3 & Eu3 & Mu3).
    destruct (column_ok (Nat.min m n) s) as (c & Ec & Vc & Lc). destruct (map_vector dflt rp c _ _ Vc) as (c2 & Ec2 & Vc2 & Oc2 & _). destruct (settle_vector dflt c2 (d_order (p_device a)) _ _ Vc2 (offset_rooted _ Oc2)) as (c3 & Ec3 & Vc3).
    destruct (new_rstsr cap pad CAP n (if full then n else Nat.min m n) V) as (v & Ev & Mv & Lv). destruct (settle_matrix dflt (transposed v) (d_order (p_device a)) _ _ _ (transposed_matrix v _ _ _ Mv)) as (v3 & Ev3 & Mv3); [apply offset_rooted; cbn [transposed t_layout]; now rewrite Lv|].
    cbv beta iota. erewrite lift_ok; [|rewrite Eu; cbn [bind]; rewrite Eu2; cbn [bind]; rewrite Ec; cbn [bind]; rewrite Ev; cbn [bind]; rewrite Eu3; cbn [bind]; rewrite Ec2; cbn [unwrap bind]; rewrite Ec3; cbn [bind]; rewrite Ev3; reflexivity].
    rewrite leave_run. eexists. split; [reflexivity|]. cbn [p_tensor p_device]. auto 10. Qed.
  Lemma svdvals_run_ok svdvals_lib pool (a : placed T) m n A g : is_matrix (p_tensor a) m n A ->
    outcome (svdvals_lib (active pool g) m n (rows m n A)) pool g (faer_svdvals svdvals_lib pool a)
      (fun l y => p_device y = p_device a /\ forall f : nat -> R, (forall i, (i < length l)%nat -> nth_error l i = Some (f i)) -> is_vector (p_tensor y) (length l) f).
  Proof. intro H. unfold outcome, faer_svdvals. pose proof (into_faer_holds _ m n A H) as F. pose proof F as (E1 & E2 & _). rewrite (rank_two _ _ _ _ H). cbn [check]. rewrite (lift_ok _ tt) by reflexivity. rewrite enter_run. rewrite E1, E2, (lift_ok _ _ _ _ (fm_read_ok _ m n A F)), call_run.
    destruct (svdvals_lib (active pool g) m n (rows m n A)) as [l|e|]; cbn [faer_err]; [|reflexivity|reflexivity]. rewrite leave_run. eexists. split; [reflexivity|]. cbn [p_tensor p_device]. split; [reflexivity|]. intros f Hf. now apply vector_new. Qed.
  Lemma eigvalsh_run_ok eigvals_lib pool (a : placed T) u m n A g : is_matrix (p_tensor a) m n A -> let t := side_of (p_device a) u in
    outcome (eigvals_lib (active pool g) t m n (rows m n (triangular zero one t false A))) pool g (faer_eigvalsh zero eigvals_lib pool a u)
      (fun l y => p_device y = p_device a /\ forall f : nat -> R, (forall i, (i < length l)%nat -> nth_error l i = Some (f i)) -> is_vector (p_tensor y) (length l) f).
  Proof. intros H t. unfold outcome, faer_eigvalsh. pose proof (into_faer_holds _ m n A H) as F. pose proof F as (E1 & E2 & _). rewrite (rank_two _ _ _ _ H). cbn [check]. rewrite (lift_ok _ tt) by reflexivity. rewrite enter_run. fold t. rewrite E1, E2, (lift_ok _ _ _ _ (fm_read_tri_ok zero one t _ m n A F)), call_run.
    destruct (eigvals_lib _ _ _ _ _) as [l|e|]; cbn [faer_err]; [|reflexivity|reflexivity]. rewrite leave_run. eexists. split; [reflexivity|]. cbn [p_tensor p_device]. split; [reflexivity|]. intros f Hf. now apply vector_new. Qed.
  Lemma eigh_run_ok eigen_lib pool (a : placed T) u m n A g : is_matrix (p_tensor a) m n A -> let t := side_of (p_device a) u in
    outcome (eigen_lib (active pool g) t m n (rows m n (triangular zero one t false A))) pool g (faer_eigh zero rp dflt cores cap pad eigen_lib pool a u)
      (fun x y => is_vector (p_tensor (fst y)) m (fun i => rp (fst x i) : R) /\ is_matrix (p_tensor (snd y)) m m (snd x) /\ p_device (fst y) = dd /\ p_device (snd y) = dd).
  Proof. intros H t. unfold outcome, faer_eigh. pose proof (into_faer_holds _ m n A H) as F. pose proof F as (E1 & E2 & _). rewrite (rank_two _ _ _ _ H). cbn [check]. rewrite (lift_ok _ tt) by reflexivity. rewrite enter_run. fold t. rewrite E1, E2, (lift_ok _ _ _ _ (fm_read_tri_ok zero one t _ m n A F)), call_run.
    destruct (eigen_lib _ _ _ _ _) as [[s V]|e|]; cbn [faer_err]; [|reflexivity|reflexivity]. destruct (column_ok m s) as (c & Ec & Vc & Lc). destruct (map_vector dflt rp c _ _ Vc) as (c2 & Ec2 & Vc2 & _).
    destruct (new_rstsr cap pad CAP m m V) as (v & Ev & Mv & Lv). destruct (settle_matrix dflt v (d_order (p_device a)) _ _ _ Mv) as (v3 & Ev3 & Mv3); [apply offset_rooted; now rewrite Lv|].
    cbv beta iota. erewrite lift_ok; [|rewrite Ec; cbn [bind]; rewrite Ec2; cbn [unwrap bind]; rewrite Ev; cbn [bind]; rewrite Ev3; reflexivity]. rewrite leave_run. eexists. split; [reflexivity|]. cbn [p_tensor p_device fst snd]. auto. Qed.
  Lemma cholesky_run_ok llt_lib pool (a : placed T) u m n A g : is_matrix (p_tensor a) m n A -> let t := side_of (p_device a) u in
    outcome (llt_lib (active pool g) t m n (rows m n (triangular zero one t false A))) pool g (faer_cholesky zero conj dflt cores cap pad llt_lib pool a u)
      (fun L y => is_matrix (p_tensor y) m m (match t with Lower => L | Upper => op_of conj ConjTrans L end) /\ p_device y = dd).
  Proof. intros H t. unfold outcome, faer_cholesky. pose proof (into_faer_holds _ m n A H) as F. pose proof F as (E1 & E2 & _). rewrite (rank_two _ _ _ _ H). cbn [check]. rewrite (lift_ok _ tt) by reflexivity. rewrite enter_run. fold t. rewrite E1, E2, (lift_ok _ _ _ _ (fm_read_tri_ok zero one t _ m n A F)), call_run.
    destruct (llt_lib _ _ _ _ _) as [L|e|]; cbn [faer_err]; [|reflexivity|reflexivity].
    assert (K : exists v, into_rstsr (match t with Lower => fm_new cap pad m m L | Upper => fm_new cap pad m m (adjoint conj L) end) = Ok v /\ is_matrix v m m (match t with Lower => L | Upper => op_of conj ConjTrans L end) /\ t_layout v = mkLayout [m; m] [1; Z.of_nat (cap m)] 0) by (destruct t; apply (new_rstsr cap pad CAP)).
    destruct K as (v & Ev & Mv & Lv). destruct (settle_matrix dflt v (d_order (p_device a)) _ _ _ Mv) as (v3 & Ev3 & Mv3); [apply offset_rooted; now rewrite Lv|].
    cbv beta iota. erewrite lift_ok; [|rewrite Ev; cbn [bind]; rewrite Ev3; reflexivity]. rewrite leave_run. eexists. split; [reflexivity|]. cbn [p_tensor p_device]. auto. Qed.
  Lemma inv_run_ok svd_lib inverse_lib pool (a : placed T) m n A g : is_matrix (p_tensor a) m n A ->
    outcome (let* x := svd_lib (active pool g) true m n (rows m n A) in or_panic (inverse_lib (active pool g) m n x)) pool g (faer_inv dflt cores cap pad svd_lib inverse_lib pool a)
      (fun X y => is_matrix (p_tensor y) m m X /\ p_device y = dd).
  Proof. intros H. unfold outcome, faer_inv. pose proof (into_faer_holds _ m n A H) as F. pose proof F as (E1 & E2 & _). rewrite (rank_two _ _ _ _ H). cbn [check]. rewrite (lift_ok _ tt) by reflexivity. rewrite enter_run. rewrite E1, E2, (lift_ok _ _ _ _ (fm_read_ok _ m n A F)), call_run.
    destruct (svd_lib _ _ _ _ _) as [x|e|]; cbn [faer_err bind]; [|reflexivity|reflexivity]. rewrite call_run. destruct (inverse_lib _ _ _ _) as [X|]; cbn [or_panic]; [|reflexivity].
    destruct (new_rstsr cap pad CAP m m X) as (v & Ev & Mv & Lv). destruct (settle_matrix dflt v (d_order (p_device a)) _ _ _ Mv) as (v3 & Ev3 & Mv3); [apply offset_rooted; now rewrite Lv|].
    cbv beta iota. erewrite lift_ok; [|rewrite Ev; cbn [bind]; rewrite Ev3; reflexivity]. rewrite leave_run. eexists. split; [reflexivity|]. cbn [p_tensor p_device]. auto. Qed.
  Lemma det_run_ok det_lib pool (a : placed T) m n A g : is_matrix (p_tensor a) m n A ->
    outcome (or_panic (det_lib (active pool g) m n (rows m n A))) pool g (faer_det det_lib pool a) (fun x y : T => y = x).
  Proof. intros H. unfold outcome, faer_det. pose proof (into_faer_holds _ m n A H) as F. pose proof F as (E1 & E2 & _). rewrite (rank_two _ _ _ _ H). cbn [check]. rewrite (lift_ok _ tt) by reflexivity. rewrite enter_run. rewrite E1, E2, (lift_ok _ _ _ _ (fm_read_ok _ m n A F)), call_run.
    destruct (det_lib _ _ _ _) as [x|]; cbn [or_panic]; [|reflexivity]. rewrite leave_run. eexists. split; reflexivity. Qed.
  Lemma in_place (x : mutable T) m n A X target dev lda o base : tensor_ok (mview x) -> holds (t_data (mview x)) (t_layout (mview x)) m n A -> located o (t_layout (mview x)) m n base lda -> commits dev x target m n ->
    exists f y, fm_write (into_faer (mview x)) X = Ok f /\ clone_to_mut dev (mwrite x (fm_data f)) = Ok y /\ delivered target y m n X.
  Proof. intros Tx Hx L C. assert (M : is_matrix (mview x) m n A) by now split. assert (J : injective (t_layout (mview x))) by (eapply located_injective; eauto).
    destruct (fm_write_ok _ m n A X (into_faer_holds _ m n A M) (into_faer_free _ m n A M J)) as (f & Ef & Sf & _ & Hf & Lf & Uf). destruct (C (fm_data f) X) as (y & Ey & Dy); [|eapply into_faer_back; eauto|eauto].
    eapply into_faer_untouched; eauto. Qed.
  Lemma solve_general_ok svd_lib solve_lib pool d (a : tensor T) (b : reference T) k m n p A B g : is_matrix a k m A -> nonempty n p -> lapack_operand b n p B ->
    outcome (let* x := svd_lib (active pool g) true k m (rows k m A) in or_panic (solve_lib (active pool g) k m x n p (rows n p B))) pool g (faer_solve_general dflt svd_lib solve_lib pool d a b)
      (fun X y => delivered (target_of b) y n p X).
  Proof. intros H NE HB. unfold outcome, faer_solve_general. pose proof (into_faer_holds _ k m A H) as F. pose proof F as (E1 & E2 & _). rewrite enter_run. rewrite E1, E2, (lift_ok _ _ _ _ (fm_read_ok _ k m A F)), call_run.
    destruct (svd_lib _ _ _ _ _) as [x|e|]; cbn [faer_err bind]; [|reflexivity|reflexivity]. destruct (convert_ok (d_order d) dflt b n p B NE HB) as (c & Ec & Tc & Hc & (lda & _ & L & _) & Cc & _).
    rewrite (lift_ok _ _ _ _ Ec). pose proof (into_faer_holds (mview c) n p B (Logic.conj Tc Hc)) as Fc. pose proof Fc as (E3 & E4 & _). rewrite E3, E4, (lift_ok _ _ _ _ (fm_read_ok _ n p B Fc)), call_run.
    destruct (solve_lib _ _ _ _ _ _ _) as [X|]; cbn [or_panic]; [|reflexivity]. destruct (in_place c n p B X _ _ _ _ _ Tc Hc L Cc) as (f & y & Ef & Ey & Dy). rewrite (lift_ok _ _ _ _ Ef), leave_run. exists y. split; auto. unfold glift. now rewrite Ey. Qed.
  Lemma solve_triangular_ok tri_lib pool da d (a : tensor T) (b : reference T) u k m n p A B : is_matrix a k m A -> nonempty n p -> lapack_operand b n p B -> let t := side_of da u in
    match tri_lib (match pool with Some n => ParRayon n | None => ParSeq end) t k m (rows k m (triangular zero one t false A)) n p (rows n p B) with
    | Some X => exists y, faer_solve_triangular zero dflt tri_lib pool da d a b u = Ok y /\ delivered (target_of b) y n p X
    | None => faer_solve_triangular zero dflt tri_lib pool da d a b u = Panic
    end.
  Proof. intros H NE HB t. unfold faer_solve_triangular. pose proof (into_faer_holds _ k m A H) as F. pose proof F as (E1 & E2 & _). destruct (convert_ok (d_order d) dflt b n p B NE HB) as (c & Ec & Tc & Hc & (lda & _ & L & _) & Cc & _). rewrite Ec. cbn [bind].
    pose proof (into_faer_holds (mview c) n p B (Logic.conj Tc Hc)) as Fc. pose proof Fc as (E3 & E4 & _). fold t. rewrite (fm_read_tri_ok zero one t _ k m A F), (fm_read_ok _ n p B Fc), E1, E2, E3, E4. cbn [bind].
    destruct (tri_lib _ _ _ _ _ _ _ _) as [X|]; cbn [or_panic bind]; [|reflexivity]. destruct (in_place c n p B X _ _ _ _ _ Tc Hc L Cc) as (f & y & Ef & Ey & Dy). rewrite Ef. cbn [bind]. eauto. Qed.
End Runs.
