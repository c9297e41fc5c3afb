(** The pseudo-inverse on the faer device. *)
From Coq Require Import String Ring_theory Ring.
From Verif Require Import Base Spec Spec_Matmul Spec_Tri Spec_Blas P_Index P_List M_Layout P_Layout P_Bounds P_Contig P_Strides M_Indexer P_Indexer M_Broadcast P_Broadcast M_Rearr P_Rearr P_BinOp M_Iter P_Iter M_Kernel P_Kernel Q_Kernel M_Tensor P_Tensor Q_Tensor Q_Copy P_Arg P_Axes M_Matmul P_Matmul P_Matmul2 P_Matmul3 P_Matmul4 Q_Matmul M_Tri P_Tri P_Tri2 P_Tri3 P_Tri4 Q_Tri M_Fast P_Fast P_Fast2 P_Fast3 Q_Fast P_Creation M_Blas Spec_BlasApi P_Blas P_Blas2 P_Blas3 P_Blas4 M_Reduce Q_Reduce M_Linalg Spec_Linalg P_Linalg P_Linalg2 P_Linalg3 Q_Indexer P_Linalg4 P_Linalg5 P_Linalg6 M_Faer Spec_Faer P_Faer P_Faer2 P_Faer3 P_Faer4 P_Faer5.
Local Open Scope Z_scope.

Lemma copy_anchored k dflt l l' : good l -> layout_for_array_copy k dflt l OK = Ok l' -> anchored l'.
Proof. intros G E _. unfold layout_for_array_copy in E. destruct (greedy_keep_ok l G) as (g & ax & f & Eg & Pa & _ & _ & _ & Sg). rewrite Eg in E. cbn [bind fst snd] in E. rewrite (reversed_permute_ok ax (ndim l) Pa) in E.
  set (c := new_f_contig k (l_shape g) 0) in *. assert (Nc : ndim c = ndim l). { unfold ndim, c. cbn [new_f_contig l_shape]. rewrite Sg, pick_length, (Permutation_length Pa), seq_length. reflexivity. }
  pose proof (inv_perm_perm ax (ndim l) Pa) as P2. rewrite <- Nc in P2. rewrite transpose_nat in E by auto. injection E as <-. cbn [permuted l_offset l_stride]. split; [cbn; lia|].
  assert (F : Forall (fun t => 0 <= t) (l_stride c)) by (unfold c; cbn [new_f_contig l_stride]; destruct k; apply cum_nonneg; lia). rewrite Forall_forall in *. intros x Hx. unfold pick in Hx. apply in_map_iff in Hx as (q & <- & _). destruct (nth_in_or_default q (l_stride c) 0) as [I| ->]; [now apply F|lia]. Qed.
Lemma map_anchored {A B} k dflt (g : A -> B) (a : tensor A) c : tensor_ok a -> map_f k dflt g a = Ok c -> anchored (t_layout c).
Proof. intros Ht E. apply map_layout in E. apply tensor_ok_good in Ht as (G & _). eapply copy_anchored; eauto. Qed.
Lemma map_data {A B} dflt (g : A -> B) (t : tensor A) n s : is_vector t n s -> exists c, map_f Fixed dflt g t = Ok c /\ is_vector c n (fun i => g (s i)) /\ t_data c = map (fun i => g (s i)) (seq 0 n).
Proof. intros Hv. destruct (P_Faer2.map_vector dflt g t n s Hv) as (c & Ec & Vc & O & _). exists c. split; auto. split; auto. destruct Hv as (Ht & S & H).
  pose proof (map_layout _ _ _ _ _ Ec) as El. pose proof Ht as Ht'. apply tensor_ok_good in Ht' as (G & _). destruct (copy_layout_good Fixed dflt (t_layout t) OK G ltac:(auto)) as (l' & El' & _ & _ & S' & _ & Cv). assert (l' = t_layout c) as -> by congruence.
  destruct (fresh_copy Fixed dflt t g OK Ht) as (lc & d & E & (b0 & Eb) & Ek & _ & _ & Ld & _); auto. assert (lc = t_layout c) as -> by congruence.
  assert (D : t_data c = d). { unfold map_f, op_muta_refb in Ec. rewrite El in Ec. cbn [bind] in Ec. rewrite Eb in Ec. cbn [bind snd] in Ec. rewrite Ek in Ec. injection Ec as <-. reflexivity. }
  unfold t_shape in *. rewrite S in *. assert (Ln : length (t_data c) = n) by (rewrite D, Ld; cbn; lia). destruct Vc as (Tc & Sc & Qc). apply tensor_ok_good in Tc as (((Ls & _) & _) & _). unfold t_shape in Sc.
  destruct (t_layout c) as [sh st off] eqn:EL. cbn [l_shape l_stride l_offset] in *. subst sh off. destruct st as [|a [|]]; try discriminate.
  assert (SZ : size [n] = n) by (cbn; lia). rewrite SZ in Cv. assert (AD : forall i, addr (mkLayout [n] [a] 0) [i] = Z.of_nat i * a) by (intro i; unfold addr; cbn -[Z.mul Z.add Z.of_nat]; lia).
  assert (A1 : (1 < n)%nat -> a = 1). { intro N. destruct (Cv 1) as [Cv1 _]. destruct Cv1 as (ix & V & E1); [lia|]. cbn [l_shape] in V. apply valid1_inv in V as (i & -> & Hi). rewrite AD in E1. pose proof (Z.eq_mul_1 _ _ E1) as [E2|E2]; [rewrite E2 in E1|]; lia. }
  apply nth_error_ext. intro k. destruct (Nat.lt_ge_cases k n) as [Hk|Hk]; [|rewrite !(proj2 (nth_error_None _ _)); auto; rewrite ?map_length, ?seq_length; lia].
  rewrite nth_error_map, nth_error_seq by auto. cbn [option_map]. rewrite Nat.add_0_l. specialize (Qc k Hk). unfold at_, elem in Qc. rewrite EL, AD in Qc. replace (Z.of_nat k * a) with (Z.of_nat k) in Qc by (destruct k; [lia|rewrite A1 by lia; lia]).
  unfold peek in Qc. replace (Z.of_nat k <? 0) with false in Qc by lia. now rewrite Nat2Z.id in Qc. Qed.

(** ** columns cut off a new matrix *)
Lemma cut_columns n k r c : (n <= c)%nat -> (r <= k)%nat -> dim_slice (mkLayout [n; k] [1; Z.of_nat c] 0) [full_slice; upto r] = Ok (mkLayout [n; r] [1; Z.of_nat c] 0).
Proof. intros Hc Hr. unfold dim_slice. cbn [l_shape l_stride l_offset]. rewrite (layout_new_good _ _ _ (good_columns n k c Hc)). cbn [bind]. unfold full_slice, upto. cbn [count_indexers bind]. unfold ndim. cbn [l_shape length Nat.ltb Nat.leb Nat.sub]. cbn [expand_indexers repeat app slice_loop bind].
  change (Z.of_nat 2 - 1) with 1. unfold dim_narrow at 1. unfold ndim. cbn [l_shape length]. change (check_axis 1 2) with (Ok 1%nat). cbn [bind slice_is_full sl_step sl_start sl_stop unwrap_or l_shape l_stride l_offset nth upd]. change (1 =? 0) with false. change (1 >? 0) with true. cbv iota.
  destruct (Z.eqb_spec (Z.of_nat k) 0) as [E0|N0].
  - cbn [bind]. change (1 - 1) with 0. unfold dim_narrow. unfold ndim. cbn [l_shape length]. change (check_axis 0 2) with (Ok 0%nat). cbn [bind slice_is_full]. replace r with k by lia. reflexivity.
  - unfold narrow_pos. cbn [unwrap_or]. change (0 <? 0) with false. cbv iota. replace (Z.of_nat r <? 0) with false by lia. replace ((0 >? Z.of_nat k) || (0 >? Z.of_nat r)) with false by lia. replace (Z.of_nat r >? Z.of_nat k) with false by lia.
    rewrite Z.quot_1_r. replace (Z.to_nat (Z.max (Z.of_nat r - 0 + 1 - 1) 0)) with r by lia. replace (Z.of_nat c * 1) with (Z.of_nat c) by lia. replace (0 + Z.of_nat c * 0) with 0 by lia. rewrite (layout_new_good _ _ _ (good_columns n r c Hc)). cbn [bind].
    change (1 - 1) with 0. unfold dim_narrow. unfold ndim. cbn [l_shape length]. change (check_axis 0 2) with (Ok 0%nat). cbn [bind slice_is_full]. reflexivity. Qed.

(** ** the product of two matrices *)
Lemma ct_22 o M K N i j ts : contracts o [M; K] [K; N] [i; j] ts -> ts = map (fun k => ([i; k], [k; j])) (seq 0 K).
Proof. intro H. remember [M; K] as sa. remember [K; N] as sb. remember [i; j] as cx. destruct H as [K0|B K0 N0 bx n|B M0 K0 bx m|BA BB M0 K0 N0 bx m n]; try discriminate.
  assert (X : forall b p q x y, mat o b p q = [x; y] -> b = [] /\ p = x /\ q = y).
  { intros b p q x y E. destruct o; cbn [mat] in E; [|injection E as -> -> ->; auto]. destruct b as [|b0 [|b1 b]]; cbn in E; try discriminate; [injection E as -> ->; auto|]. injection E as _ _ E. destruct b; discriminate. }
  apply X in Heqsa as (-> & -> & ->). apply X in Heqsb as (-> & _ & ->). apply X in Heqcx as (-> & -> & ->). apply map_ext. intro k. unfold source_index. destruct o; cbn [mat app length Nat.sub skipn firstn]; reflexivity. Qed.
Section Product.
  Context {T : Type} (zero one : T) (add mul sub : T -> T -> T) (opp : T -> T) (RT : ring_theory zero one add mul sub opp eq).
  Context (eqb : T -> T -> bool) (EQ : forall x y, eqb x y = true <-> x = y) (dflt : order) (tree : split_tree) (tri : list (nat * nat) -> list (nat * nat)) (sched : list (list Z) -> list (list Z)) (junk : nat -> T).
  Context (PT : forall l, Permutation (tri l) l) (PS : forall l, Permutation (sched l) l).
  Add Ring TTR : RT.
  Lemma ring_semiring : comm_semiring zero add mul.
  Proof. unfold comm_semiring, comm_monoid. repeat split; intros; ring. Qed.
  Lemma faer_product (a b : tensor T) m k n A B : is_matrix a m k A -> is_matrix b k n B -> anchored (t_layout a) -> anchored (t_layout b) ->
    exists c, op_matmul_on zero (device_faer zero one add mul eqb dflt tree tri sched false) Fixed dflt junk a b one = Ok c /\ is_matrix c m n (product zero add mul k A B).
  Proof. intros (Ta & Sa & Qa) (Tb & Sb & Qb) Aa Ab. pose proof (l_faer_matmul T zero one add mul eqb Fixed dflt tree tri sched false junk a b one ring_semiring (Rmul_1_l RT) EQ PT PS ltac:(discriminate) Ta Tb Aa Ab) as H. rewrite Sa, Sb in H.
    destruct (op_matmul_on _ _ _ _ _ _ _ _) as [c|e|].
    - destruct H as (PSH & _ & Tc & _ & H). apply ps_22 in PSH as (_ & Sc). exists c. split; auto. split; auto. split; auto. intros i j Hi Hj. rewrite Sc in H. destruct (H [i; j] (valid_pair _ _ _ _ Hi Hj)) as (ts & vs & C & PR & ->). f_equal.
      apply ct_22 in C as ->. transitivity (total zero add vs); [ring|]. unfold product, sum_over. f_equal. clear H. unfold products in PR. assert (X : forall l vs, (forall q, In q l -> (q < k)%nat) -> Forall2 (fun t v => exists x y, elem (t_data a) (t_layout a) (fst t) = Some x /\ elem (t_data b) (t_layout b) (snd t) = Some y /\ v = mul x y) (map (fun q => ([i; q], [q; j])) l) vs -> vs = map (fun q => mul (A i q) (B q j)) l).
      { induction l as [|q l IH]; intros ws Hl F; cbn [map] in F; inversion F as [|? v0 ? ws' Hh Ht]; subst; auto. cbn [map]. f_equal; [|apply IH; auto; intros; apply Hl; now right]. destruct Hh as (x & y & X & Y & ->). cbn [fst snd] in *. rewrite Qa in X by (auto; apply Hl; now left). rewrite Qb in Y by (auto; apply Hl; now left). congruence. }
      apply X; auto. intros q Hq. apply in_seq in Hq. lia.
    - exfalso. destruct H as [H|H]; [apply (H [m; n]); now apply ps_22|apply H; unfold same_batch_rank; cbn [length]; lia].
    - contradiction. Qed.
End Product.

Section Max.
  Context {R : Type} (rcmp : R -> R -> option comparison) (TO : ordered rcmp).
  Lemma max_ok (s : nat -> R) k : (0 < k)%nat -> exists m, max_by rcmp (map s (seq 0 k)) = Ok m /\ greatest rcmp k s m.
  Proof. destruct TO as (DE & TT & TR). destruct k as [|k]; [lia|]. intros _. cbn [seq map max_by].
    assert (X : forall n a x, (exists l, (l < a)%nat /\ x = s l) -> (forall l, (l < a)%nat -> rcmp (s l) x <> Some Gt) ->
      exists m, fold_res (fun a b => match rcmp a b with Some Gt => Ok a | Some _ => Ok b | None => Panic end) (map s (seq a n)) x = Ok m /\ (exists l, (l < a + n)%nat /\ m = s l) /\ forall l, (l < a + n)%nat -> rcmp (s l) m <> Some Gt).
    { induction n as [|n IH]; intros a x (l0 & H0 & E0) Hx; cbn [seq map fold_res].
      - exists x. rewrite Nat.add_0_r. eauto 10.
      - replace (a + S n)%nat with (S a + n)%nat by lia. destruct (rcmp x (s a)) as [c|] eqn:Ec; [|now apply DE in Ec]. assert (RF : rcmp (s a) (s a) <> Some Gt) by (intro Z0; now apply (TT _ _ Z0)).
        assert (K : (c = Gt -> exists m, fold_res (fun a b => match rcmp a b with Some Gt => Ok a | Some _ => Ok b | None => Panic end) (map s (seq (S a) n)) x = Ok m /\ (exists l, (l < S a + n)%nat /\ m = s l) /\ forall l, (l < S a + n)%nat -> rcmp (s l) m <> Some Gt) /\
          (c <> Gt -> exists m, fold_res (fun a b => match rcmp a b with Some Gt => Ok a | Some _ => Ok b | None => Panic end) (map s (seq (S a) n)) (s a) = Ok m /\ (exists l, (l < S a + n)%nat /\ m = s l) /\ forall l, (l < S a + n)%nat -> rcmp (s l) m <> Some Gt)).
        { split; intro HC; apply IH.
          - exists l0. split; [lia|auto].
          - intros l Hl. destruct (Nat.eq_dec l a) as [->|]; [|apply Hx; lia]. subst c. now apply TT.
          - exists a. split; [lia|auto].
          - intros l Hl. destruct (Nat.eq_dec l a) as [->|]; [auto|]. apply (TR _ x); [apply Hx; lia|congruence]. }
        destruct c; cbn [bind]; [apply K; discriminate|apply K; discriminate|now apply K]. }
    destruct (X k 1%nat (s 0%nat)) as (m & E & M & H).
    - exists 0%nat. auto.
    - intros l Hl. replace l with 0%nat by lia. intro Z0. now apply (TT _ _ Z0).
    - exists m. split; auto. split; auto. Qed.
End Max.

Section Pinv.
  Context {T R : Type} (zero one : T) (add mul sub : T -> T -> T) (opp : T -> T) (RT : ring_theory zero one add mul sub opp eq).
  Context (conj : T -> T) (rp : T -> R).
  Context (dflt : order) (cores : nat) (cap : nat -> nat) (pad : nat -> T) (CAP : forall k, (k <= cap k)%nat).
  Context (svd_lib : par -> bool -> nat -> nat -> list (list T) -> res ((nat -> nat -> T) * (nat -> T) * (nat -> nat -> T))).
  Context (eqb : T -> T -> bool) (EQ : forall x y, eqb x y = true <-> x = y) (div : T -> R -> T) (radd rmul : R -> R -> R) (rzero : R) (rcmp : R -> R -> option comparison) (rgt : R -> R -> bool) (of_nat : nat -> R) (eps : R).
  Context (TO : ordered rcmp).
  Context (tree : split_tree) (tri : list (nat * nat) -> list (nat * nat)) (sched : list (list Z) -> list (list Z)) (junk : nat -> T).
  Context (PT : forall l, Permutation (tri l) l) (PS : forall l, Permutation (sched l) l).
  Notation dd := (default_device dflt cores).
  Notation run := (faer_pinv zero one conj rp dflt cores cap pad svd_lib add mul eqb div radd rmul rzero rcmp rgt of_nat eps tree tri sched junk).
  Lemma faer_pinv_ok pool (a : placed T) atol rtol m n A g : nonempty m n -> is_matrix (p_tensor a) m n A ->
    outcome (svd_lib (active pool g) false m n (rows m n A)) pool g (run pool a atol rtol) (fun x y => let '(U, sv, V) := x in let k := Nat.min m n in let s := fun l => rp (sv l) in
      exists mx, greatest rcmp k s mx /\
        let cut := radd (match atol with Some x => x | None => rzero end) (rmul (match rtol with Some x => x | None => rmul (of_nat (Nat.max m n)) eps end) mx) in
        numerical_rank rgt k s cut (snd y) /\ is_matrix (p_tensor (fst y)) n m (product zero add mul (snd y) V (fun l j => conj (div (U j l) (s l)))) /\ p_device (fst y) = dd).
  Proof. intros NE H. unfold outcome, faer_pinv. pose proof (into_faer_holds _ m n A H) as F. pose proof F as (E1 & E2 & _). rewrite enter_run, E1, E2. rewrite (lift_ok _ _ _ _ (fm_read_ok _ m n A F)), call_run.
    destruct (svd_lib _ _ _ _ _) as [[[U sv] V]|e|]; cbn [faer_err]; [|reflexivity|reflexivity]. cbv beta iota zeta. set (k := Nat.min m n).
    set (at0 := match atol with Some x => x | None => rzero end). set (rt0 := match rtol with Some x => x | None => rmul (of_nat (Nat.max m n)) eps end).
    destruct (new_rstsr cap pad CAP m k U) as (u & Eu & Mu & Lu). destruct (into_owned_copy Fixed dflt u) as (u2 & Eu2 & Tu2 & Su2 & Qu2 & _ & Lu2); [apply Mu|]. pose proof (matrix_copy _ _ _ _ _ Mu Tu2 Su2 Qu2) as Mu2.
    destruct (column_ok k sv) as (c & Ec & Vc & Lc). destruct (new_rstsr cap pad CAP n k V) as (v & Ev & Mv & Lv). destruct (map_data dflt rp c k sv Vc) as (s2 & Es2 & Vs2 & Ds2).
    destruct (max_ok rcmp TO (fun l => rp (sv l)) k) as (mx & Em & Gm); [destruct NE; unfold k; lia|]. set (cut := radd at0 (rmul rt0 mx)). set (r := length (take_while (fun x => rgt x cut) (t_data s2))).
    pose proof (take_while_seq (fun x => rgt x cut) (fun l => rp (sv l)) k) as TW. rewrite <- Ds2 in TW. fold r in TW. cbv zeta in TW. pose proof TW as (Lr & _ & _).
    destruct (cut_matrix u2 (mkSlice None None None) (mkSlice None (Some (Z.of_nat r)) None) m k m r U Mu2 (first_full m) (first_upto r k Lr) (le_n m) Lr) as (lu & Elu & Hu' & Au). change [ISlice (mkSlice None None None); ISlice (mkSlice None (Some (Z.of_nat r)) None)] with [full_slice; upto r] in Elu.
    destruct (cut_vector s2 (mkSlice None (Some (Z.of_nat r)) None) k r (fun l => rp (sv l)) Vs2 (first_upto r k Lr) Lr) as (ls & Els & Hs'). change [IInsert; ISlice (mkSlice None (Some (Z.of_nat r)) None)] with [IInsert; upto r] in Els.
    pose proof (cut_columns n k r (cap n) (CAP n) Lr) as Elv. rewrite <- Lv in Elv.
    assert (Mv' : is_matrix (mkTensor (t_data v) (mkLayout [n; r] [1; Z.of_nat (cap n)] 0)) n r V).
    { destruct (cut_matrix v (mkSlice None None None) (mkSlice None (Some (Z.of_nat r)) None) n k n r V Mv (first_full n) (first_upto r k Lr) (le_n n) Lr) as (lv & Elv' & Hv' & _). change [ISlice (mkSlice None None None); ISlice (mkSlice None (Some (Z.of_nat r)) None)] with [full_slice; upto r] in Elv'. rewrite Elv in Elv'. injection Elv' as <-. exact Hv'. }
    destruct Hu' as (Tu' & Hu'). destruct Hs' as (Ts' & Hs'). assert (Sl : l_shape lu = [m; r]) by exact (holds_shape _ _ _ _ _ Hu'). assert (Sr : l_shape ls = [1%nat; r]) by exact (holds_shape _ _ _ _ _ Hs').
    assert (J2 : injective (t_layout u2)). { destruct Lu2 as [(E & _)|(_ & J)]; auto. rewrite E, Lu. pose proof (fm_new_free cap pad CAP m k U) as FR. intros i j Vi Vj Ea. cbn [l_shape] in Vi, Vj. apply P_Fast3.valid2 in Vi as (i1 & i2 & -> & H1 & H2). apply P_Fast3.valid2 in Vj as (j1 & j2 & -> & H3 & H4). rewrite !P_Faer.addr2 in Ea.
      destruct (FR i1 i2 j1 j2) as [-> ->]; auto. }
    assert (IJ : injective lu). { intros i j Vi Vj Ea. rewrite Sl in Vi, Vj. apply P_Fast3.valid2 in Vi as (i1 & i2 & -> & H1 & H2). apply P_Fast3.valid2 in Vj as (j1 & j2 & -> & H3 & H4). rewrite !Au in Ea by auto. apply J2 in Ea; auto; destruct Mu2 as (_ & S2 & _); rewrite S2; apply valid_pair; lia. }
    pose proof (l_inplace_binary T R Fixed dflt div (mkTensor (t_data u2) lu) (mkTensor (t_data s2) ls) Tu' Ts' IJ) as X. unfold t_shape in X. cbn [t_layout t_data] in X. rewrite Sl, Sr in X.
    destruct (op_muta_refb_func Fixed dflt div (mkTensor (t_data u2) lu) (mkTensor (t_data s2) ls)) as [w|e|] eqn:Ew; [|exfalso; apply X, row_broadcasts|contradiction]. destruct X as (_ & Lw & (Ln & _) & Hw).
    assert (Hw' : is_matrix w m r (fun i l => div (U i l) (rp (sv l)))).
    { split; [split; [rewrite Lw; apply Tu'|rewrite Lw, Ln; apply Tu']|]. split; [now rewrite Lw|]. intros i j Hi Hj. destruct (Hw [i; j]) as (x & y & X & Y & Z); [now apply valid_pair|]. rewrite (row_source dflt r i j Hj) in Y.
      unfold at_ in *. rewrite Z. pose proof (proj2 Hu' i j Hi Hj) as X'. pose proof (proj2 Hs' 0%nat j ltac:(lia) Hj) as Y'. cbn [t_data t_layout] in *. congruence. }
    destruct (map_matrix dflt conj w m r _ Hw') as (w2 & Ew2 & Mw2 & _ & _ & _). pose proof (map_anchored _ _ _ _ _ (proj1 Hw') Ew2) as Aw2.
    destruct (faer_product zero one add mul sub opp RT eqb EQ dflt tree tri sched junk PT PS (mkTensor (t_data v) (mkLayout [n; r] [1; Z.of_nat (cap n)] 0)) (transposed w2) n r m V (fun l j => conj (div (U j l) (rp (sv l))))) as (p & Ep & Mp); auto.
    - now apply transposed_matrix in Mw2.
    - intros _. cbn [t_layout l_offset l_stride]. split; [lia|]. repeat constructor; lia.
    - apply rev_anchored. exact Aw2.
    - erewrite lift_ok; [|rewrite Eu; cbn [bind]; rewrite Eu2; cbn [bind]; rewrite Ec; cbn [bind]; rewrite Ev; cbn [bind]; rewrite Es2; cbn [unwrap bind]; rewrite Ds2, Em; cbn [bind]; fold cut; rewrite <- Ds2; fold r; rewrite Elu; cbn [unwrap bind]; rewrite Els; cbn [unwrap bind]; rewrite Ew; cbn [unwrap bind]; rewrite Elv; cbn [unwrap bind]; rewrite Ew2; cbn [unwrap bind]; rewrite Ep; cbn [unwrap bind]; reflexivity].
      rewrite leave_run. eexists. split; [reflexivity|]. exists mx. cbn [p_tensor p_device fst snd]. split; [exact Gm|]. split; [exact TW|]. auto. Qed.
  Lemma faer_pinv_empty pool (a : placed T) atol rtol m n A g x : ~ nonempty m n -> is_matrix (p_tensor a) m n A -> svd_lib (active pool g) false m n (rows m n A) = Ok x -> fst (run pool a atol rtol g) = Panic.
  Proof. clear EQ. intros NE H Ex. unfold faer_pinv. pose proof (into_faer_holds _ m n A H) as F. pose proof F as (E1 & E2 & _). rewrite enter_run, E1, E2. rewrite (lift_ok _ _ _ _ (fm_read_ok _ m n A F)), call_run. rewrite Ex. destruct x as [[U sv] V]. cbn [faer_err]. cbv beta iota zeta.
    assert (Ek : Nat.min m n = 0%nat) by (unfold nonempty in NE; lia). rewrite Ek.
    destruct (new_rstsr cap pad CAP m 0 U) as (u & Eu & Mu & Lu). destruct (into_owned_copy Fixed dflt u) as (u2 & Eu2 & _); [apply Mu|]. destruct (column_ok 0 sv) as (c & Ec & Vc & Lc). destruct (new_rstsr cap pad CAP n 0 V) as (v & Ev & Mv & Lv). destruct (map_data dflt rp c 0 sv Vc) as (s2 & Es2 & Vs2 & Ds2).
    unfold gbind, glift. rewrite Eu. cbn [bind]. rewrite Eu2. cbn [bind]. rewrite Ec. cbn [bind]. rewrite Ev. cbn [bind]. rewrite Es2. cbn [unwrap bind]. rewrite Ds2. cbn [seq map max_by bind fst]. reflexivity. Qed.
End Pinv.
