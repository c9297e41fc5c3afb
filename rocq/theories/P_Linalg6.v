(** pinv. *)
From Coq Require Import String Ring_theory Ring.
From Verif Require Import Base Spec Spec_Matmul Spec_Tri Spec_Blas P_Index P_List M_Layout P_Layout P_Bounds P_Contig P_Strides M_Indexer P_Indexer M_Broadcast P_Broadcast M_Rearr P_Rearr P_BinOp M_Iter P_Iter M_Kernel P_Kernel Q_Kernel M_Tensor P_Tensor Q_Tensor Q_Copy P_Arg P_Axes M_Matmul P_Matmul P_Matmul2 P_Matmul3 P_Matmul4 Q_Matmul M_Tri P_Tri P_Tri2 P_Tri3 P_Tri4 Q_Tri M_Fast P_Fast P_Fast2 P_Fast3 P_Creation M_Blas Spec_BlasApi P_Blas P_Blas2 P_Blas3 P_Blas4 M_Reduce Q_Reduce M_Linalg Spec_Linalg P_Linalg P_Linalg2 P_Linalg3 Q_Indexer P_Linalg4 P_Linalg5.
Local Open Scope Z_scope.

Lemma take_while_seq {R} (p : R -> bool) (s : nat -> R) k : let r := length (take_while p (map s (seq 0 k))) in
  (r <= k)%nat /\ (forall l, (l < r)%nat -> p (s l) = true) /\ (r = k \/ p (s r) = false).
Proof. cbv zeta. assert (X : forall a, let r := length (take_while p (map s (seq a k))) in (r <= k)%nat /\ (forall l, (l < r)%nat -> p (s (a + l)%nat) = true) /\ (r = k \/ p (s (a + r)%nat) = false)).
  { induction k as [|k IH]; intro a; cbv zeta; cbn [seq map take_while]; [cbn; split; [lia|]; split; [intros; lia|now left]|].
    destruct (p (s a)) eqn:E; [|cbn [length]; split; [lia|]; split; [intros; lia|right; now rewrite Nat.add_0_r]].
    destruct (IH (S a)) as (L & H & D). cbn [length]. split; [lia|]. split.
    - intros [|l] Hl; [now rewrite Nat.add_0_r|]. replace (a + S l)%nat with (S a + l)%nat by lia. apply H. lia.
    - destruct D as [D|D]; [left; now rewrite D|right]. now replace (a + S (length (take_while p (map s (seq (S a) k)))))%nat with (S a + length (take_while p (map s (seq (S a) k))))%nat by lia. }
  exact (X 0%nat). Qed.
Lemma row_broadcasts o m r : broadcasts o [m; r] [1%nat; r] [m; r].
Proof. split; [reflexivity|]. intro k. cbv zeta. unfold ext. destruct o; destruct k as [|[|[|k]]]; cbn; auto. Qed.
Lemma row_source o r i j : (j < r)%nat -> source_index o [1%nat; r] [i; j] = [0%nat; j].
Proof. intro H. unfold source_index. replace (match o with RowMajor => skipn (length [i; j] - length [1%nat; r]) [i; j] | ColMajor => firstn (length [1%nat; r]) [i; j] end) with [i; j] by now destruct o.
  unfold clip. cbn [combine map fst snd Nat.eqb]. destruct (Nat.eqb_spec r 1); [|reflexivity]. repeat f_equal. lia. Qed.
Lemma origin2 l m n : good l -> l_shape l = [m; n] -> addr l [0%nat; 0%nat] = l_offset l.
Proof. intros ((Ls & _) & _) E. rewrite E in Ls. destruct l as [sh st off]. cbn [l_shape l_stride] in *. subst sh. destruct st as [|a [|b [|]]]; try discriminate. unfold addr. cbn -[Z.mul Z.add]. lia. Qed.
Section Pinv.
  Context {T R : Type} (zero one : T) (add mul : T -> T -> T) (conj : T -> T) (MC : forall x y, mul x y = mul y x) (M1 : forall x, mul one x = x) (M0 : forall x, mul zero x = zero) (A0 : forall x, add x zero = x).
  Context (dev dflt : order) (gesdd_lib gesvd_lib : @svd_routine T R) (radd rmul : R -> R -> R) (rzero : R) (div : T -> R -> T) (rgt : R -> R -> bool) (rmax : R -> R -> R) (rlow : R) (of_nat : nat -> R) (eps : R).
  Context (MX : comm_monoid rlow rmax).
  Definition threshold (m n : nat) (s : nat -> R) (atol rtol : option R) : R :=
    radd (match atol with Some x => x | None => rzero end) (rmul (match rtol with Some x => x | None => rmul (of_nat (Nat.max m n)) eps end) (total rlow rmax (map s (seq 0 (Nat.min m n))))).
  Definition rank_of (m n : nat) (s : nat -> R) (atol rtol : option R) : nat := length (take_while (fun x => rgt x (threshold m n s atol rtol)) (map s (seq 0 (Nat.min m n)))).
  Notation run t atol rtol := (pinv zero one dev dflt gesdd_lib mul radd rmul rzero add conj div rgt rmax rlow of_nat eps t atol rtol).
  Lemma pinv_ok (t : tensor T) atol rtol m n A : nonempty m n -> is_matrix t m n A ->
    match gesdd_lib JobS m n (rows m n A) with
    | None => run t atol rtol = Err Miscellaneous
    | Some (F, s, U, V) => let r := rank_of m n s atol rtol in r <> 0%nat ->
        exists p, run t atol rtol = Ok (p, r) /\ is_matrix p n m (inverse_of zero add mul conj div r U s V)
    end.
  Proof. intros NE (Ht & Hh). pose proof (gesdd_ok dev dflt gesdd_lib (Ref t) false true m n A NE) as X. unfold svd_result in X. cbv zeta iota in X. unfold pinv. cbv zeta. unfold extent. rewrite (holds_shape _ _ _ _ _ Hh). cbn [nth].
    specialize (X (Logic.conj Ht (Logic.conj Hh I)) I). destruct (gesdd_lib JobS m n (rows m n A)) as [[[[F s] U] V]|]; [|now rewrite X]. destruct X as (vs & Hs & Ls & Ds & u & v & E & Hu & Hv & o & Lu & Lv). rewrite E. cbn [bind]. clear E.
    cbn [u_extents vt_extents fst snd] in *. set (k := Nat.min m n) in *.
    pose proof Hs as (Ts & Ss & Es). rewrite (l_reduce_all R R R rlow rmax (fun x => x) rmax (fun x => x) Fixed vs _ MX (fun _ _ => eq_refl) Ts (vector_elements _ _ _ Ss Es)). cbn [unwrap bind]. rewrite map_id, Ds.
    change (length (take_while _ _)) with (rank_of m n s atol rtol). set (r := rank_of m n s atol rtol). intro Nr.
    destruct (take_while_seq (fun x => rgt x (threshold m n s atol rtol)) s k) as (Lr & _ & _). change (length _) with r in Lr.
    destruct (cut_matrix u (mkSlice None None None) (mkSlice None (Some (Z.of_nat r)) None) m k m r U Hu (first_full m) (first_upto r k Lr) (le_n m) Lr) as (lu & Elu & Hu' & Au). change (dim_slice (t_layout u) [full_slice; upto r]) with (dim_slice (t_layout u) [ISlice (mkSlice None None None); ISlice (mkSlice None (Some (Z.of_nat r)) None)]). rewrite Elu. cbn [unwrap bind].
    destruct (cut_vector vs (mkSlice None (Some (Z.of_nat r)) None) k r s Hs (first_upto r k Lr) Lr) as (ls & Els & Hs'). unfold upto at 1. rewrite Els. cbn [unwrap bind]. rewrite <- Ds.
    destruct Hu' as (Tu' & Hu'). destruct Hs' as (Ts' & Hs'). destruct NE as (Nm & Nn).
    assert (Sl : l_shape lu = [m; r]) by exact (holds_shape _ _ _ _ _ Hu'). assert (Sr : l_shape ls = [1%nat; r]) by exact (holds_shape _ _ _ _ _ Hs').
    assert (IJ : injective lu). { intros i j Vi Vj Ea. rewrite Sl in Vi, Vj. apply P_Fast3.valid2 in Vi as (i1 & i2 & -> & H1 & H2). apply P_Fast3.valid2 in Vj as (j1 & j2 & -> & H3 & H4). rewrite !Au in Ea by auto. rewrite Lu in Ea.
      destruct (contig_facts Fixed [m; k] o) as (_ & J & _ & Sc & _). apply J; auto; rewrite Sc; apply valid_pair; lia. }
    pose proof (l_inplace_binary T R Fixed dev div (mkTensor (t_data u) lu) (mkTensor (t_data vs) ls) Tu' Ts' IJ) as X. unfold t_shape in X. cbn [t_layout t_data] in X. rewrite Sl, Sr in X.
    destruct (op_muta_refb_func Fixed dev div (mkTensor (t_data u) lu) (mkTensor (t_data vs) ls)) as [w|e|]; [|exfalso; apply X, row_broadcasts|contradiction]. destruct X as (_ & Lw & (Ln & _) & Hw). cbn [unwrap bind].
    assert (Hw' : is_matrix w m r (fun i l => div (U i l) (s l))).
    { split; [split; [rewrite Lw; apply Tu'|rewrite Lw, Ln; apply Tu']|]. split; [now rewrite Lw|]. intros i j Hi Hj. destruct (Hw [i; j]) as (x & y & X & Y & Z); [now apply valid_pair|]. rewrite (row_source dev r i j Hj) in Y.
      unfold at_ in *. rewrite Z. pose proof (proj2 Hu' i j Hi Hj) as X'. pose proof (proj2 Hs' 0%nat j ltac:(lia) Hj) as Y'. cbn [t_data t_layout] in *. congruence. }
    destruct (cut_matrix v (mkSlice None (Some (Z.of_nat r)) None) (mkSlice None None None) k n r n V Hv (first_upto r k Lr) (first_full n) Lr (le_n n)) as (lv & Elv & Hv' & Av). change (dim_slice (t_layout v) [upto r; full_slice]) with (dim_slice (t_layout v) [ISlice (mkSlice None (Some (Z.of_nat r)) None); ISlice (mkSlice None None None)]). rewrite Elv. cbn [unwrap bind].
    destruct Hv' as (Tv' & Hv'). destruct Hw' as (Tw & Hw').
    assert (Ou : l_offset lu = 0). { rewrite <- (origin2 lu m r); auto; [|apply tensor_ok_good in Tu'; apply Tu']. rewrite Au by lia. rewrite Lu. destruct (contig_facts Fixed [m; k] o) as (G & _ & _ & Sc & Of). now rewrite (origin2 _ m k). }
    assert (Ov : l_offset lv = 0). { rewrite <- (origin2 lv r n); auto; [|apply tensor_ok_good in Tv'; apply Tv'|exact (holds_shape _ _ _ _ _ Hv')]. rewrite Av by lia. rewrite Lv. destruct (contig_facts Fixed [k; n] o) as (G & _ & _ & Sc & Of). now rewrite (origin2 _ k n). }
    destruct (gemm_ok zero add mul conj dev dflt (transposed (mkTensor (t_data v) lv)) (transposed w) None one zero NoTrans NoTrans (Some dev) n r (fun i l => V l i) r m (fun l j => div (U j l) (s l)) n m r (fun _ _ => zero)) as (y & Ey & Dy); auto; try discriminate.
    - now apply transposed_ok.
    - left. cbn [transposed t_layout]. exact Ov.
    - apply (transposed_holds _ r n V); auto.
    - now split.
    - now apply transposed_ok.
    - left. cbn [transposed t_layout]. rewrite Lw. exact Ou.
    - apply (transposed_holds _ m r (fun i l => div (U i l) (s l))); auto.
    - now split.
    - intros i j _ _. reflexivity.
    - rewrite Ey. cbn [bind]. destruct Dy as (y' & -> & Ty & Hy). cbn [owned_of bind]. destruct (l_map T T Fixed dflt conj y' Ty) as (p & -> & Tp & Sp & Hp). cbn [unwrap bind]. exists p. split; [reflexivity|]. split; [auto|]. unfold t_shape in *. rewrite (holds_shape _ _ _ _ _ Hy) in *. split; [auto|].
      intros i j Hi Hj. destruct (Hp [i; j]) as (x & X & Y); [now apply valid_pair|]. unfold at_ in *. rewrite Y. rewrite (proj2 Hy i j Hi Hj) in X. injection X as <-. unfold combined. rewrite M1, M0, A0. reflexivity. Qed.
End Pinv.
