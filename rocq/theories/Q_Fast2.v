(** Proofs: adding to stacks of matrices and vectors on the BLAS devices (C66). *)
From Verif Require Import Base Spec Spec_Matmul Spec_Fast P_Index P_List M_Layout P_Layout P_Bounds P_Contig P_Strides M_Indexer P_Indexer M_Broadcast P_Broadcast Q_Broadcast M_Rearr P_Rearr P_BinOp M_Iter P_Iter M_Kernel P_Kernel Q_Rearr Q_Kernel M_Tensor P_Tensor Q_Tensor Q_Copy M_Matmul P_Matmul P_Matmul2 P_Matmul3 P_Matmul4 P_Tri3 Q_Matmul M_Fast P_Fast P_Fast2 P_Fast3 Q_Fast.
Local Open Scope Z_scope.

(** the matrices that the broadcast rules cut out of the operands *)
Definition cut_matrices (la lb lc lam lcm : layout) : Prop :=
  match ndim la, ndim lb with
  | 1%nat, _ => exists a c, dim_split_at la (-1) = Ok a /\ dim_split_at lc (-1) = Ok c /\ dim_insert (snd a) 0 = Ok lam /\ dim_insert (snd c) 0 = Ok lcm
  | _, 1%nat => exists a c, dim_split_at la (-2) = Ok a /\ dim_split_at lc (-1) = Ok c /\ snd a = lam /\ dim_insert (snd c) 1 = Ok lcm
  | _, _ => exists a c, dim_split_at la (-2) = Ok a /\ dim_split_at lc (-2) = Ok c /\ snd a = lam /\ snd c = lcm
  end.
Ltac step E := repeat (match type of E with context [bind ?x _] => match x with bind _ _ => fail 1 | _ => let E1 := fresh "E" in destruct x eqn:E1; cbn [bind unwrap_opt mm_la mm_lb mm_lc_matmul mm_la_rest mm_lb_rest mm_lc_rest] in E; try discriminate E end end).
Lemma plan_cut la lb lc ra rb rc lam lbm lcm : plan la lb lc = Ok (ra, rb, rc, lam, lbm, lcm) -> cut_matrices la lb lc lam lcm.
Proof. intros E. unfold plan, layout_matmul_with_lc in E. unfold cut_matrices.
  destruct (ndim la) as [|[|[|na]]] eqn:NA, (ndim lb) as [|[|[|nb]]] eqn:NB; cbn [bind] in E; try discriminate E; step E; try (injection E; intros; subst; eauto 9). Qed.

Section Add.
  Context {T : Type} (zero : T) (add mul : T -> T -> T) (eqb : T -> T -> bool) (SR : comm_semiring zero add mul) (EQ : forall x y, eqb x y = true <-> x = y).
  Context (t : split_tree) (tri : list (nat * nat) -> list (nat * nat)) (PT : forall l, Permutation (tri l) l) (sched : list (list Z) -> list (list Z)) (PERM : forall l, Permutation (sched l) l) (same : bool).
  Definition addable (la lb lc : layout) : Prop := forall lam lcm, cut_matrices la lb lc lam lcm -> (forall off, f_prefer (at_offset lcm off) = true \/ c_prefer (at_offset lcm off) = true) /\ extent lam 1 <> 0%nat.
  Lemma batched_add a b alpha beta c lc la lb : (same = true -> a = b) -> good la -> good lb -> good lc -> inside la (length a) -> inside lb (length b) -> inside lc (length c) -> injective lc -> stacked la lb lc -> addable la lb lc ->
    exists c', matmul_batched (fun c lc la lb => dispatch_blas zero add mul eqb tri same c lc a la b lb alpha beta) sched c lc la lb = Ok c' /\ is_product RowMajor mul zero add mul alpha beta a la b lb c lc c'.
  Proof using SR EQ PT PERM. intros HS Ga Gb Gc Ia Ib Ic Jc (ra & rb & rc & lam & lbm & lcm & BC & M & K & N & cell & ia & ib & EP & ST) AD.
    destruct (AD lam lcm (plan_cut _ _ _ _ _ _ _ _ _ EP)) as [PF HK].
    set (g := fun c lc la lb => dispatch_blas zero add mul eqb tri same c lc a la b lb alpha beta).
    assert (X : matmul_batched g sched c lc la lb = (let* pss := map_res (dispatch_positions Dyn) [ra; rb; rc] in fold_res (fun c p => match p with
      | [ia; ib; ic] => g c (at_offset lcm ic) (at_offset lam ia) (at_offset lbm ib)
      | _ => Panic end) (sched (zip_all pss)) c)).
    { unfold matmul_batched. unfold plan in EP. destruct (layout_matmul_with_lc la lb lc) as [cfg| |]; try discriminate EP. cbn [bind] in *. destruct (check _ _) as [u| |]; try discriminate EP. cbn [bind] in *.
      destruct (mm_la_rest cfg) as [ra'|]; try discriminate EP. destruct (mm_lb_rest cfg) as [rb'|]; try discriminate EP. destruct (mm_lc_rest cfg) as [rc'|]; try discriminate EP. cbn [bind unwrap_opt] in *. injection EP as -> -> -> <- <- <-. reflexivity. }
    rewrite X. apply (batched_product mul zero add mul SR a b c alpha beta g sched PERM RowMajor lc la lb ra rb rc lam lbm lcm BC M K N cell ia ib); auto.
    intros c0 bx L0 Vb. destruct ST as [W1 N1 W2 N2 W3 N3 S1 S2 S3 Sc Sa Sb HC HA HB COV INJ CT GC GA GB].
    assert (SH : forall l off, l_shape (at_offset l off) = l_shape l) by reflexivity.
    assert (I1 : inside (at_offset lam (addr ra bx)) (length a)). { intros ix V. rewrite SH, Sa in V. apply valid2 in V as (i & j & -> & Hi & Hj). destruct (HA bx i j) as (V & ->); auto. }
    assert (I2 : inside (at_offset lbm (addr rb bx)) (length b)). { intros ix V. rewrite SH, Sb in V. apply valid2 in V as (i & j & -> & Hi & Hj). destruct (HB bx i j) as (V & ->); auto. }
    assert (I3 : inside (at_offset lcm (addr rc bx)) (length c0)). { intros ix V. rewrite SH, Sc in V. apply valid2 in V as (i & j & -> & Hi & Hj). destruct (HC bx i j) as (V & ->); auto. rewrite L0. auto. }
    assert (J3 : injective (at_offset lcm (addr rc bx))). { intros ix jx V V' E. rewrite SH, Sc in V, V'. apply valid2 in V as (i & j & -> & Hi & Hj). apply valid2 in V' as (i' & j' & -> & Hi' & Hj'). destruct (HC bx i j) as (V & E1); auto. destruct (HC bx i' j') as (V' & E2); auto. rewrite E1, E2 in E. apply Jc in E; auto. apply INJ in E as (_ & -> & ->); auto. }
    unfold extent in HK. rewrite Sa in HK. cbn [nth] in HK.
    apply (exact_gemm zero add mul SR a b alpha beta g c0 _ _ _ M K N); auto. apply (dispatch_blas_filled zero add mul eqb SR EQ tri same M K N); auto. Qed.

  Lemma row_add a b alpha beta c lc la lb : (same = true -> a = b) -> good la -> good lb -> good lc -> inside la (length a) -> inside lb (length b) -> inside lc (length c) -> injective lc ->
    anchored la -> anchored lb -> anchored lc -> product_shape RowMajor (l_shape la) (l_shape lb) (l_shape lc) -> same_batch_rank (l_shape la) (l_shape lb) ->
    (forall M K N, l_shape la = [M; K] -> l_shape lb = [K; N] -> l_shape lc = [M; N] -> (f_prefer lc = true \/ c_prefer lc = true) /\ K <> 0%nat) -> addable la lb lc ->
    exists c', matmul_blas zero add mul eqb t tri sched same c lc a la b lb alpha beta = Ok c' /\ is_product RowMajor mul zero add mul alpha beta a la b lb c lc c'.
  Proof using SR EQ PT PERM. intros HS Ga Gb Gc Ia Ib Ic Jc Aa Ab Ac PS SB H2 AD. unfold matmul_blas, l_size. destruct (Nat.eqb_spec (size (l_shape lc)) 0) as [Z|_].
    { exists c. split; auto. split; [split; auto|]. intros cx V. exfalso. now apply valid_size_pos in V. }
    destruct (product_stacked a la b lb c lc (good_wf _ Ga) (good_wf _ Gb) (good_wf _ Gc) Ia Ib Ic Aa Ab Ac PS SB) as [(K & Sa & Sb & Sc)|[(M & K & N & Sa & Sb & Sc)|(ST & N1 & N2)]].
    - unfold ndim. rewrite Sa, Sb, Sc. cbn [length]. now apply l_inner_dot_rayon with (K := K).
    - destruct (H2 M K N Sa Sb Sc) as [PF HK].
      assert (X : dispatch_blas zero add mul eqb tri same c lc a la b lb alpha beta = gemm mul mul add c lc a la b lb alpha beta).
      { apply (exact_gemm zero add mul SR a b alpha beta (fun c lc la lb => dispatch_blas zero add mul eqb tri same c lc a la b lb alpha beta) c lc la lb M K N); auto. apply (dispatch_blas_filled zero add mul eqb SR EQ tri same M K N); auto. }
      unfold ndim. rewrite Sa, Sb, Sc. cbn [length]. rewrite X. apply (l_gemm _ _ _ mul zero add mul a la b lb c lc M K N); auto.
    - destruct (batched_add a b alpha beta c lc la lb) as (c' & E & P); auto. exists c'. split; auto. rewrite <- E. destruct (ndim la) as [|[|[|na]]]; destruct (ndim lb) as [|[|[|nb]]]; destruct (ndim lc) as [|[|[|nc]]]; try reflexivity; exfalso; auto. Qed.
End Add.

Lemma prefer_matrix M N off s : 1 <= s -> (f_prefer (mkLayout [M; N] [1; s] off) = true \/ c_prefer (mkLayout [M; N] [1; s] off) = true) /\ (f_prefer (mkLayout [M; N] [s; 1] off) = true \/ c_prefer (mkLayout [M; N] [s; 1] off) = true).
Proof. intros H. split; [left|right; rewrite c_prefer2]; now apply unit_stride_prefer. Qed.
Lemma prefer_vector N off x s : 1 <= s -> f_prefer (mkLayout [1%nat; N] [x; s] off) = true /\ c_prefer (mkLayout [N; 1%nat] [s; x] off) = true.
Proof. intro H. assert (A : f_prefer (mkLayout [1%nat; N] [x; s] off) = true).
  { unfold f_prefer, ndim, l_size. cbn [l_shape l_stride length combine Nat.eqb orb]. destruct (size [1%nat; N] =? 0)%nat; auto. cbn [prefer_loop Nat.eqb negb]. destruct (N =? 1)%nat; cbn [negb]; auto. replace (s <? 1) with false by lia. reflexivity. }
  split; auto. now rewrite c_prefer2. Qed.
Lemma skip_app {A} (u v : list A) n : n = length u -> skipn n (u ++ v) = v.
Proof. intros ->. rewrite skipn_app, skipn_all, Nat.sub_diag. reflexivity. Qed.
Lemma addable_matrices la lb lc BA BB BC M K N : wf lc -> l_shape la = BA ++ [M; K] -> l_shape lb = BB ++ [K; N] -> l_shape lc = BC ++ [M; N] -> K <> 0%nat -> unit_stride_matrices RowMajor lc -> addable la lb lc.
Proof. intros [W _] Sa Sb Sc HK (ss & s & Hs & St) lam lcm CUT.
  assert (L : length ss = length BC). { assert (length (l_stride lc) = length ss + 2)%nat by (destruct St as [-> | ->]; cbn [matrix_strides]; rewrite app_length; reflexivity). rewrite Sc, app_length in W. cbn in W. lia. }
  assert (CUT2 : exists a c, dim_split_at la (-2) = Ok a /\ dim_split_at lc (-2) = Ok c /\ snd a = lam /\ snd c = lcm).
  { unfold cut_matrices, ndim in CUT. rewrite Sa, Sb, !app_length in CUT. cbn [length] in CUT. rewrite !(Nat.add_comm _ 2) in CUT. exact CUT. } clear CUT.
  destruct CUT2 as (a & c & E1 & E2 & <- & <-). pose proof (split_tail la BA [M; K] 2 Sa eq_refl eq_refl) as X1. pose proof (split_tail lc BC [M; N] 2 Sc eq_refl eq_refl) as X2. cbn [Z.opp] in X1, X2. rewrite X1 in E1. rewrite X2 in E2. injection E1 as <-. injection E2 as <-. cbn [snd].
  unfold tail_of, extent, at_offset. cbn [l_shape l_stride l_offset]. rewrite Sa, Sc, !skip_app by reflexivity. cbn [nth]. split; auto.
  intros off. destruct St as [-> | ->]; cbn [matrix_strides]; rewrite skip_app by auto; now apply prefer_matrix. Qed.
Lemma unit_of_two lc M N : wf lc -> l_shape lc = [M; N] -> unit_stride_matrices RowMajor lc -> f_prefer lc = true \/ c_prefer lc = true.
Proof. intros [W _] Sc (ss & s & Hs & St). destruct lc as [sh st off]. cbn [l_shape l_stride] in *. subst sh.
  assert (ss = []) as ->. { destruct ss; auto. exfalso. destruct St as [-> | ->]; cbn [matrix_strides] in W; rewrite app_length in W; cbn in W; lia. }
  destruct St as [-> | ->]; cbn [matrix_strides app]; now apply prefer_matrix. Qed.
Lemma unit_reverse lc : unit_stride_matrices ColMajor lc -> unit_stride_matrices RowMajor (reverse_axes lc).
Proof. intros (ss & s & Hs & St). exists (rev ss), s. split; auto. unfold reverse_axes. cbn [l_stride]. destruct St as [-> | ->]; cbn [matrix_strides rev]; rewrite <- app_assoc; cbn; auto. Qed.

Lemma row_add_matrices {T} (zero : T) add mul eqb t tri sched same a b c la lb lc BA BB BC M K N alpha beta :
  comm_semiring zero add mul -> (forall x y, eqb x y = true <-> x = y) -> (forall l, Permutation (tri l) l) -> (forall l, Permutation (sched l) l) -> (same = true -> a = b) ->
  good la -> good lb -> good lc -> inside la (length a) -> inside lb (length b) -> inside lc (length c) -> injective lc -> anchored la -> anchored lb -> anchored lc ->
  l_shape la = BA ++ [M; K] -> l_shape lb = BB ++ [K; N] -> l_shape lc = BC ++ [M; N] -> broadcasts RowMajor BA BB BC -> same_batch_rank (l_shape la) (l_shape lb) -> K <> 0%nat -> unit_stride_matrices RowMajor lc ->
  exists c', matmul_blas zero add mul eqb t tri sched same c lc a la b lb alpha beta = Ok c' /\ is_product RowMajor mul zero add mul alpha beta a la b lb c lc c'.
Proof. intros SR EQ PT PERM HS Ga Gb Gc Ia Ib Ic Jc Aa Ab Ac Sa Sb Sc Br SB HK US. apply row_add; auto.
  - rewrite Sa, Sb, Sc. now apply (ps_matmat RowMajor).
  - intros M' K' N' S1 S2 S3. split; [now apply (unit_of_two lc M' N'); auto using good_wf|]. rewrite Sa in S1. destruct BA as [|x [|y BA]]; cbn in S1; [injection S1 as _ <-; auto| |]; apply (f_equal (@length nat)) in S1; cbn in S1; rewrite ?app_length in S1; cbn in S1; lia.
  - apply (addable_matrices la lb lc BA BB BC M K N); auto using good_wf. Qed.

Lemma l_blas_accumulate_stacks_partial : forall (T : Type) (zero : T) add mul eqb o t tri sched same (a b c : tensor T) BA BB BC M K N alpha beta,
  comm_semiring zero add mul -> (forall x y, eqb x y = true <-> x = y) -> (forall l, Permutation (tri l) l) -> (forall l, Permutation (sched l) l) -> (same = true -> t_data a = t_data b) ->
  tensor_ok a -> tensor_ok b -> tensor_ok c -> anchored (t_layout a) -> anchored (t_layout b) -> anchored (t_layout c) -> injective (t_layout c) ->
  t_shape a = mat o BA M K -> t_shape b = mat o BB K N -> t_shape c = mat o BC M N -> broadcasts o BA BB BC -> same_batch_rank (t_shape a) (t_shape b) ->
  K <> 0%nat -> unit_stride_matrices o (t_layout c) ->
  exists c', op_mutc_matmul_on (device_blas zero add mul eqb o t tri sched same) c a b alpha beta = Ok (mkTensor c' (t_layout c)) /\
    is_product o mul zero add mul alpha beta (t_data a) (t_layout a) (t_data b) (t_layout b) (t_data c) (t_layout c) c'.
Proof. intros T zero add mul eqb o t tri sched same a b c BA BB BC M K N alpha beta SR EQ PT PERM HS Ta Tb Tc Aa Ab Ac Jc Sa Sb Sc Br SB HK US. apply tensor_ok_good in Ta as [Ga Ia], Tb as [Gb Ib], Tc as [Gc Ic]. unfold t_shape in *.
  assert (X : exists c', device_blas zero add mul eqb o t tri sched same (t_data c) (t_layout c) (t_data a) (t_layout a) (t_data b) (t_layout b) alpha beta = Ok c' /\
    is_product o mul zero add mul alpha beta (t_data a) (t_layout a) (t_data b) (t_layout b) (t_data c) (t_layout c) c').
  { destruct o; cbn [device_blas mat] in *.
    - now apply (row_add_matrices zero add mul eqb t tri sched same _ _ _ _ _ _ BA BB BC M K N).
    - assert (PS : product_shape ColMajor (l_shape (t_layout a)) (l_shape (t_layout b)) (l_shape (t_layout c))) by (rewrite Sa, Sb, Sc; now apply (ps_matmat ColMajor)).
      destruct (row_add_matrices zero add mul eqb t tri sched same (t_data b) (t_data a) (t_data c) (reverse_axes (t_layout b)) (reverse_axes (t_layout a)) (reverse_axes (t_layout c)) (rev BB) (rev BA) (rev BC) N K M alpha beta) as (c' & E & P);
        auto using good_reverse, rev_inside, rev_injective, rev_anchored, good_wf, unit_reverse; try (cbn [reverse_axes l_shape]; rewrite ?Sa, ?Sb, ?Sc; cbn [rev]; now rewrite <- app_assoc).
      + intro E. symmetry. auto.
      + now apply broadcasts_comm, broadcasts_col.
      + unfold same_batch_rank in *. cbn [reverse_axes l_shape]. rewrite !rev_length. lia.
      + exists c'. split; auto. apply (product_turn mul mul); auto using good_wf. intros. apply (mul_comm zero add mul SR). }
  destruct X as (c' & E & P). exists c'. split; auto. unfold op_mutc_matmul_on. now rewrite E. Qed.

(** vectors: the inserted axis has extent 1 *)
Lemma layout_new_is sh st off l : layout_new sh st off = Ok l -> l = mkLayout sh st off.
Proof. unfold layout_new. intros E. step E. now injection E as <-. Qed.
Lemma insert_first n s off l : dim_insert (mkLayout [n] [s] off) 0 = Ok l -> exists x, l = mkLayout [1%nat; n] [x; s] off.
Proof. unfold dim_insert. cbn [ndim l_shape length check_axis_insert Z.ltb Z.compare Z.leb Z.of_nat Pos.of_succ_nat andb bind Z.to_nat]. intros E. apply layout_new_is in E. rewrite E. cbn [insert_at firstn skipn app l_shape l_stride l_offset]. eauto. Qed.
Lemma insert_last n s off l : dim_insert (mkLayout [n] [s] off) 1 = Ok l -> exists x, l = mkLayout [n; 1%nat] [s; x] off.
Proof. unfold dim_insert. cbn [ndim l_shape length check_axis_insert Z.ltb Z.compare Z.leb Z.of_nat Pos.of_succ_nat andb bind Z.to_nat]. intros E. apply layout_new_is in E. rewrite E. eexists. reflexivity. Qed.
Lemma tail_vector l B n ss s : wf l -> l_shape l = B ++ [n] -> l_stride l = ss ++ [s] -> dim_split_at l (-1) = Ok (head_of l (length B), mkLayout [n] [s] (l_offset l)).
Proof. intros [W _] S St. pose proof (split_tail l B [n] 1 S eq_refl eq_refl) as X. cbn [Z.opp] in X. rewrite X. unfold tail_of. rewrite S, St in *. rewrite !app_length in W. cbn in W. rewrite !skip_app by (auto; lia). reflexivity. Qed.
Lemma addable_vecmat la lb lc BB K N : wf la -> wf lc -> l_shape la = [K] -> l_shape lb = BB ++ [K; N] -> l_shape lc = BB ++ [N] -> K <> 0%nat -> ascending_vectors RowMajor lc -> addable la lb lc.
Proof. intros Wa Wc Sa Sb Sc HK (ss & s & Hs & St) lam lcm CUT. cbn [vector_strides] in St.
  assert (exists x, l_stride la = [x]) as [x Sx]. { destruct Wa as [W _]. rewrite Sa in W. destruct (l_stride la) as [|x [|]]; try discriminate W. eauto. }
  unfold cut_matrices, ndim in CUT. rewrite Sa in CUT. cbn [length] in CUT. destruct CUT as (a & c & E1 & E2 & E3 & E4).
  rewrite (tail_vector la [] K [] x Wa Sa Sx) in E1. rewrite (tail_vector lc BB N ss s Wc Sc St) in E2. injection E1 as <-. injection E2 as <-. cbn [snd] in E3, E4.
  apply insert_first in E3 as [y ->]. apply insert_first in E4 as [z ->]. unfold extent, at_offset. cbn [l_shape l_stride nth]. split; auto. intros off. left. now apply (prefer_vector N off z s). Qed.
Lemma addable_matvec la lb lc BA M K : wf lc -> l_shape la = BA ++ [M; K] -> l_shape lb = [K] -> l_shape lc = BA ++ [M] -> K <> 0%nat -> ascending_vectors RowMajor lc -> addable la lb lc.
Proof. intros Wc Sa Sb Sc HK (ss & s & Hs & St) lam lcm CUT. cbn [vector_strides] in St.
  assert (CUT2 : exists a c, dim_split_at la (-2) = Ok a /\ dim_split_at lc (-1) = Ok c /\ snd a = lam /\ dim_insert (snd c) 1 = Ok lcm).
  { unfold cut_matrices, ndim in CUT. rewrite Sa, Sb, !app_length in CUT. cbn [length] in CUT. rewrite !(Nat.add_comm _ 2) in CUT. exact CUT. } clear CUT. destruct CUT2 as (a & c & E1 & E2 & <- & E4).
  pose proof (split_tail la BA [M; K] 2 Sa eq_refl eq_refl) as X1. cbn [Z.opp] in X1. rewrite X1 in E1. rewrite (tail_vector lc BA M ss s Wc Sc St) in E2. injection E1 as <-. injection E2 as <-. cbn [snd] in *.
  apply insert_last in E4 as [z ->]. unfold tail_of, extent, at_offset. cbn [l_shape l_stride]. rewrite Sa, skip_app by reflexivity. cbn [nth]. split; auto. intros off. right. now apply (prefer_vector M off z s). Qed.
Lemma ascending_reverse lc : ascending_vectors ColMajor lc -> ascending_vectors RowMajor (reverse_axes lc).
Proof. intros (ss & s & Hs & St). exists (rev ss), s. split; auto. unfold reverse_axes. cbn [l_stride]. now rewrite St. Qed.

(** products with a vector: by a stack of matrices from the left or from the right, or by a vector *)
Lemma row_add_vectors {T} (zero : T) add mul eqb t tri sched same a b c la lb lc B M K alpha beta :
  comm_semiring zero add mul -> (forall x y, eqb x y = true <-> x = y) -> (forall l, Permutation (tri l) l) -> (forall l, Permutation (sched l) l) -> (same = true -> a = b) ->
  good la -> good lb -> good lc -> inside la (length a) -> inside lb (length b) -> inside lc (length c) -> injective lc -> anchored la -> anchored lb -> anchored lc ->
  (l_shape la = [K] /\ l_shape lb = B ++ [K; M]) \/ (l_shape la = B ++ [M; K] /\ l_shape lb = [K]) -> l_shape lc = B ++ [M] -> K <> 0%nat -> ascending_vectors RowMajor lc ->
  exists c', matmul_blas zero add mul eqb t tri sched same c lc a la b lb alpha beta = Ok c' /\ is_product RowMajor mul zero add mul alpha beta a la b lb c lc c'.
Proof. intros SR EQ PT PERM HS Ga Gb Gc Ia Ib Ic Jc Aa Ab Ac SS Sc HK US. apply row_add; auto.
  - rewrite Sc. destruct SS as [[-> ->]|[-> ->]]; [apply (ps_vecmat RowMajor)|apply (ps_matvec RowMajor)].
  - unfold same_batch_rank. destruct SS as [[-> _]|[_ ->]]; cbn [length]; lia.
  - intros M' K' N' S1 S2 _. exfalso. destruct SS as [[S _]|[_ S]]; congruence.
  - destruct SS as [[Sa Sb]|[Sa Sb]]; [apply (addable_vecmat la lb lc B K M)|apply (addable_matvec la lb lc B M K)]; auto using good_wf. Qed.

Lemma l_blas_accumulate_vectors_partial : forall (T : Type) (zero : T) add mul eqb o t tri sched same (a b c : tensor T) B M K alpha beta,
  comm_semiring zero add mul -> (forall x y, eqb x y = true <-> x = y) -> (forall l, Permutation (tri l) l) -> (forall l, Permutation (sched l) l) -> (same = true -> t_data a = t_data b) ->
  tensor_ok a -> tensor_ok b -> tensor_ok c -> anchored (t_layout a) -> anchored (t_layout b) -> anchored (t_layout c) -> injective (t_layout c) ->
  (t_shape a = [K] /\ t_shape b = mat o B K M) \/ (t_shape a = mat o B M K /\ t_shape b = [K]) -> t_shape c = vec o B M ->
  K <> 0%nat -> ascending_vectors o (t_layout c) ->
  exists c', op_mutc_matmul_on (device_blas zero add mul eqb o t tri sched same) c a b alpha beta = Ok (mkTensor c' (t_layout c)) /\
    is_product o mul zero add mul alpha beta (t_data a) (t_layout a) (t_data b) (t_layout b) (t_data c) (t_layout c) c'.
Proof. intros T zero add mul eqb o t tri sched same a b c B M K alpha beta SR EQ PT PERM HS Ta Tb Tc Aa Ab Ac Jc SS Sc HK US. apply tensor_ok_good in Ta as [Ga Ia], Tb as [Gb Ib], Tc as [Gc Ic]. unfold t_shape in *.
  assert (X : exists c', device_blas zero add mul eqb o t tri sched same (t_data c) (t_layout c) (t_data a) (t_layout a) (t_data b) (t_layout b) alpha beta = Ok c' /\
    is_product o mul zero add mul alpha beta (t_data a) (t_layout a) (t_data b) (t_layout b) (t_data c) (t_layout c) c').
  { destruct o; cbn [device_blas mat vec] in *.
    - now apply (row_add_vectors zero add mul eqb t tri sched same _ _ _ _ _ _ B M K).
    - assert (PS : product_shape ColMajor (l_shape (t_layout a)) (l_shape (t_layout b)) (l_shape (t_layout c))) by (rewrite Sc; destruct SS as [[-> ->]|[-> ->]]; [apply (ps_vecmat ColMajor)|apply (ps_matvec ColMajor)]).
      destruct (row_add_vectors zero add mul eqb t tri sched same (t_data b) (t_data a) (t_data c) (reverse_axes (t_layout b)) (reverse_axes (t_layout a)) (reverse_axes (t_layout c)) (rev B) M K alpha beta) as (c' & E & P);
        auto using good_reverse, rev_inside, rev_injective, rev_anchored, good_wf, ascending_reverse.
      + intro E. symmetry. auto.
      + cbn [reverse_axes l_shape]. destruct SS as [[-> ->]|[-> ->]]; cbn [rev app]; rewrite <- app_assoc; cbn [app]; auto.
      + cbn [reverse_axes l_shape]. rewrite Sc. reflexivity.
      + exists c'. split; auto. apply (product_turn mul mul); auto using good_wf. intros. apply (mul_comm zero add mul SR). }
  destruct X as (c' & E & P). exists c'. split; auto. unfold op_mutc_matmul_on. now rewrite E. Qed.
Lemma row_add_dot {T} (zero : T) add mul eqb t tri sched same a b c la lb lc K alpha beta : comm_semiring zero add mul ->
  inside la (length a) -> inside lb (length b) -> inside lc (length c) -> l_shape la = [K] -> l_shape lb = [K] -> l_shape lc = [] ->
  exists c', matmul_blas zero add mul eqb t tri sched same c lc a la b lb alpha beta = Ok c' /\ is_product RowMajor mul zero add mul alpha beta a la b lb c lc c'.
Proof. intros SR Ia Ib Ic Sa Sb Sc. unfold matmul_blas, l_size, ndim. rewrite Sc, Sa, Sb. cbn [size fold_right length Nat.eqb]. now apply l_inner_dot_rayon with (K := K). Qed.
Lemma l_blas_accumulate_dot : forall (T : Type) (zero : T) add mul eqb o t tri sched same (a b c : tensor T) K alpha beta,
  comm_semiring zero add mul -> tensor_ok a -> tensor_ok b -> tensor_ok c -> t_shape a = [K] -> t_shape b = [K] -> t_shape c = [] ->
  exists c', op_mutc_matmul_on (device_blas zero add mul eqb o t tri sched same) c a b alpha beta = Ok (mkTensor c' (t_layout c)) /\
    is_product o mul zero add mul alpha beta (t_data a) (t_layout a) (t_data b) (t_layout b) (t_data c) (t_layout c) c'.
Proof. intros T zero add mul eqb o t tri sched same a b c K alpha beta SR Ta Tb Tc Sa Sb Sc. apply tensor_ok_good in Ta as [Ga Ia], Tb as [Gb Ib], Tc as [Gc Ic]. unfold t_shape in *.
  assert (X : exists c', device_blas zero add mul eqb o t tri sched same (t_data c) (t_layout c) (t_data a) (t_layout a) (t_data b) (t_layout b) alpha beta = Ok c' /\
    is_product o mul zero add mul alpha beta (t_data a) (t_layout a) (t_data b) (t_layout b) (t_data c) (t_layout c) c').
  { destruct o; cbn [device_blas] in *; [now apply (row_add_dot zero add mul eqb t tri sched same _ _ _ _ _ _ K)|].
    assert (PS : product_shape ColMajor (l_shape (t_layout a)) (l_shape (t_layout b)) (l_shape (t_layout c))) by (rewrite Sa, Sb, Sc; apply (ps_dot ColMajor)).
    destruct (row_add_dot zero add mul eqb t tri sched same (t_data b) (t_data a) (t_data c) (reverse_axes (t_layout b)) (reverse_axes (t_layout a)) (reverse_axes (t_layout c)) K alpha beta) as (c' & E & P);
      auto using rev_inside, good_wf; try (cbn [reverse_axes l_shape]; now rewrite ?Sa, ?Sb, ?Sc).
    exists c'. split; auto. apply (product_turn mul mul); auto using good_wf. intros. apply (mul_comm zero add mul SR). }
  destruct X as (c' & E & P). exists c'. split; auto. unfold op_mutc_matmul_on. now rewrite E. Qed.
