From Verif Require Import Base Spec Spec_Matmul P_Index P_List M_Layout P_Layout P_Bounds P_Contig P_Strides M_Indexer P_Indexer M_Broadcast P_Broadcast Q_Broadcast M_Rearr P_Rearr P_BinOp M_Iter P_Iter M_Kernel P_Kernel Q_Rearr Q_Kernel M_Tensor P_Tensor Q_Tensor Q_Copy M_Matmul P_Matmul P_Matmul2 P_Matmul3 P_Matmul4 P_Tri3 Q_Matmul M_Fast P_Fast P_Fast2 P_Fast3.
Local Open Scope Z_scope.

(** ** from a matrix kernel to the device *)
Section Stacks.
  Context {T : Type} (zero : T) (add mul : T -> T -> T) (SR : comm_semiring zero add mul) (a : list T) (b : list T) (alpha beta : T).
  Context (g : list T -> layout -> layout -> layout -> res (list T)) (sched : list (list Z) -> list (list Z)) (PERM : forall l, Permutation (sched l) l).
  Definition exact (c : list T) (lc la lb : layout) (M K N : nat) : Prop := exists c', g c lc la lb = Ok c' /\ filled add mul M N lc (entry zero add mul a la b lb K) alpha beta c c'.
  Lemma exact_gemm c lc la lb M K N : l_shape la = [M; K] -> l_shape lb = [K; N] -> l_shape lc = [M; N] -> inside la (length a) -> inside lb (length b) -> inside lc (length c) -> injective lc ->
    exact c lc la lb M K N -> g c lc la lb = gemm mul mul add c lc a la b lb alpha beta.
  Proof using SR. intros Sa Sb Sc Ia Ib Ic Jc (c1 & E1 & F1). destruct (gemm_filled zero add mul SR a la b lb c lc M K N alpha beta) as (c2 & E2 & F2); auto. rewrite E1, E2. f_equal. eapply filled_unique; eauto. Qed.
  (** [g] need only be right on good operands *)
  Definition right : Prop := forall c lc la lb M K N, good la -> good lb -> good lc -> l_shape la = [M; K] -> l_shape lb = [K; N] -> l_shape lc = [M; N] -> inside la (length a) -> inside lb (length b) -> inside lc (length c) -> injective lc -> exact c lc la lb M K N.
  Lemma batched_ok c lc la lb : right -> good la -> good lb -> good lc -> inside la (length a) -> inside lb (length b) -> inside lc (length c) -> injective lc -> stacked la lb lc ->
    exists c', matmul_batched g sched c lc la lb = Ok c' /\ is_product RowMajor mul zero add mul alpha beta a la b lb c lc c'.
  Proof using SR PERM. intros RT Ga Gb Gc Ia Ib Ic Jc (ra & rb & rc & lam & lbm & lcm & BC & M & K & N & cell & ia & ib & EP & ST).
    assert (X : matmul_batched g sched c lc la lb = (let* pss := map_res (dispatch_positions Dyn) [ra; rb; rc] in fold_res (fun c p => match p with
      | [ia; ib; ic] => g c (at_offset lcm ic) (at_offset lam ia) (at_offset lbm ib)
      | _ => Panic end) (sched (zip_all pss)) c)).
    { unfold matmul_batched. unfold plan in EP. destruct (layout_matmul_with_lc la lb lc) as [cfg| |]; try discriminate EP. cbn [bind] in *. destruct (check _ _) as [u| |]; try discriminate EP. cbn [bind] in *.
      destruct (mm_la_rest cfg) as [ra'|]; try discriminate EP. destruct (mm_lb_rest cfg) as [rb'|]; try discriminate EP. destruct (mm_lc_rest cfg) as [rc'|]; try discriminate EP. cbn [bind unwrap_opt] in *. injection EP as -> -> -> <- <- <-. reflexivity. }
    rewrite X. apply (batched_product mul zero add mul SR a b c alpha beta g sched PERM RowMajor lc la lb ra rb rc lam lbm lcm BC M K N cell ia ib); auto.
    intros c0 bx L0 Vb. destruct ST as [W1 N1 W2 N2 W3 N3 S1 S2 S3 Sc Sa Sb HC HA HB COV INJ CT GC GA GB].
    assert (SH : forall l off, l_shape (at_offset l off) = l_shape l) by reflexivity.
    assert (I1 : inside (at_offset lam (addr ra bx)) (length a)). { intros ix V. rewrite SH, Sa in V. apply valid2 in V as (i & j & -> & Hi & Hj). destruct (HA bx i j) as (V & ->); auto. }
    assert (I2 : inside (at_offset lbm (addr rb bx)) (length b)). { intros ix V. rewrite SH, Sb in V. apply valid2 in V as (i & j & -> & Hi & Hj). destruct (HB bx i j) as (V & ->); auto. }
    assert (I3 : inside (at_offset lcm (addr rc bx)) (length c0)). { intros ix V. rewrite SH, Sc in V. apply valid2 in V as (i & j & -> & Hi & Hj). destruct (HC bx i j) as (V & ->); auto. rewrite L0. auto. }
    assert (J3 : injective (at_offset lcm (addr rc bx))). { intros ix jx V V' E. rewrite SH, Sc in V, V'. apply valid2 in V as (i & j & -> & Hi & Hj). apply valid2 in V' as (i' & j' & -> & Hi' & Hj'). destruct (HC bx i j) as (V & E1); auto. destruct (HC bx i' j') as (V' & E2); auto. rewrite E1, E2 in E. apply Jc in E; auto. apply INJ in E as (_ & -> & ->); auto. }
    apply (exact_gemm c0 _ _ _ M K N); auto. Qed.
  Lemma row_ok t c lc la lb : right -> good la -> good lb -> good lc -> inside la (length a) -> inside lb (length b) -> inside lc (length c) -> injective lc ->
    anchored la -> anchored lb -> anchored lc -> product_shape RowMajor (l_shape la) (l_shape lb) (l_shape lc) -> same_batch_rank (l_shape la) (l_shape lb) ->
    exists c', match ndim la, ndim lb, ndim lc with
    | 1%nat, 1%nat, O => inner_dot_rayon t mul mul add zero c lc a la b lb alpha beta
    | 2%nat, 2%nat, 2%nat => g c lc la lb
    | _, _, _ => matmul_batched g sched c lc la lb
    end = Ok c' /\ is_product RowMajor mul zero add mul alpha beta a la b lb c lc c'.
  Proof using SR PERM. intros RT Ga Gb Gc Ia Ib Ic Jc Aa Ab Ac PS SB.
    destruct (product_stacked a la b lb c lc (good_wf _ Ga) (good_wf _ Gb) (good_wf _ Gc) Ia Ib Ic Aa Ab Ac PS SB) as [(K & Sa & Sb & Sc)|[(M & K & N & Sa & Sb & Sc)|(ST & H1 & H2)]].
    - unfold ndim. rewrite Sa, Sb, Sc. cbn [length]. now apply l_inner_dot_rayon with (K := K).
    - unfold ndim. rewrite Sa, Sb, Sc. cbn [length]. rewrite (exact_gemm c lc la lb M K N); auto. apply (l_gemm _ _ _ mul zero add mul a la b lb c lc M K N); auto.
    - destruct (batched_ok c lc la lb) as (c' & E & P); auto. exists c'. split; auto. rewrite <- E. destruct (ndim la) as [|[|[|na]]]; destruct (ndim lb) as [|[|[|nb]]]; destruct (ndim lc) as [|[|[|nc]]]; try reflexivity; exfalso; auto. Qed.
  (** different batch ranks *)
  Lemma row_rank t c lc la lb : product_shape RowMajor (l_shape la) (l_shape lb) (l_shape lc) -> ~ same_batch_rank (l_shape la) (l_shape lb) ->
    exists e, match ndim la, ndim lb, ndim lc with
    | 1%nat, 1%nat, O => inner_dot_rayon t mul mul add zero c lc a la b lb alpha beta
    | 2%nat, 2%nat, 2%nat => g c lc la lb
    | _, _, _ => matmul_batched g sched c lc la lb
    end = Err e.
  Proof using. clear. intros PS SB. assert (R : (3 <= ndim la)%nat /\ (3 <= ndim lb)%nat /\ ndim la <> ndim lb) by (unfold same_batch_rank, ndim in *; lia).
    assert (L : ndim lc = Nat.max (ndim la) (ndim lb)). { unfold ndim in *. revert R. destruct PS as [K|B' K N|B' M K|BA BB BC M K N [LB _]]; cbn [length]; rewrite ?mat_length; lia. }
    unfold matmul_batched, layout_matmul_with_lc. destruct (ndim la) as [|[|[|na]]]; try lia. destruct (ndim lb) as [|[|[|nb]]]; try lia. destruct (ndim lc) as [|[|[|nc]]]; try lia.
    destruct (S (S (S na)) =? S (S (S nc)))%nat eqn:E1; cbn [check bind]; [|eauto]. destruct (S (S (S nb)) =? S (S (S nc)))%nat eqn:E2; cbn [check bind]; [|eauto]. lia. Qed.
End Stacks.

(** a product in a new tensor; [early]: an empty result is returned at once *)
Lemma on_device {T} (zero : T) add mul (early : bool) (dev : list T -> layout -> list T -> layout -> list T -> layout -> T -> T -> res (list T)) k o junk (a b : tensor T) alpha :
  comm_semiring zero add mul -> tensor_ok a -> tensor_ok b -> anchored (t_layout a) -> anchored (t_layout b) ->
  (forall c lc, good lc -> inside lc (length c) -> injective lc -> anchored lc -> product_shape o (l_shape (t_layout a)) (l_shape (t_layout b)) (l_shape lc) -> same_batch_rank (l_shape (t_layout a)) (l_shape (t_layout b)) ->
     exists c', dev c lc (t_data a) (t_layout a) (t_data b) (t_layout b) alpha zero = Ok c' /\ is_product o mul zero add mul alpha zero (t_data a) (t_layout a) (t_data b) (t_layout b) c lc c') ->
  (forall c lc, product_shape o (l_shape (t_layout a)) (l_shape (t_layout b)) (l_shape lc) -> ~ same_batch_rank (l_shape (t_layout a)) (l_shape (t_layout b)) ->
     (exists e, dev c lc (t_data a) (t_layout a) (t_data b) (t_layout b) alpha zero = Err e) \/ (early = true /\ size (l_shape lc) = 0%nat /\ dev c lc (t_data a) (t_layout a) (t_data b) (t_layout b) alpha zero = Ok c)) ->
  match op_matmul_on zero dev k o junk a b alpha with
  | Ok t => product_shape o (l_shape (t_layout a)) (l_shape (t_layout b)) (l_shape (t_layout t)) /\ (same_batch_rank (l_shape (t_layout a)) (l_shape (t_layout b)) \/ (early = true /\ size (l_shape (t_layout t)) = 0%nat)) /\
      tensor_ok t /\ addrs o (t_layout t) = consecutive 0 (length (t_data t)) /\
      forall cx, valid (l_shape (t_layout t)) cx -> exists ts vs, contracts o (l_shape (t_layout a)) (l_shape (t_layout b)) cx ts /\
        products mul (t_data a) (t_layout a) (t_data b) (t_layout b) ts vs /\ elem (t_data t) (t_layout t) cx = Some (mul alpha (total zero add vs))
  | Err _ => (forall s, ~ product_shape o (l_shape (t_layout a)) (l_shape (t_layout b)) s) \/ ~ same_batch_rank (l_shape (t_layout a)) (l_shape (t_layout b))
  | Panic => False
  end.
Proof. intros SR Ta Tb Aa Ab FULL RANK. apply tensor_ok_good in Ta as [Ga Ia], Tb as [Gb Ib]. unfold op_matmul_on.
  pose proof (layout_ok k o _ _ (good_wf _ Ga) (good_wf _ Gb) (good_nonneg _ Ga) (good_nonneg _ Gb) Aa Ab) as H. destruct (layout_matmul k (t_layout a) (t_layout b) o) as [cfg|e|]; cbn [bind]; auto.
  destruct H as (k' & s & PS & ->). set (lc := new_contig k' s 0 o). destruct (contig_facts k' s o) as (Gc & J & Cv & Sc & Oc). fold lc in Gc, J, Cv, Sc, Oc.
  destruct (bounds_covers lc _ (good_wf _ Gc) Oc Cv) as (lo & ->). cbn [bind snd]. rewrite Nat2Z.id. set (d := map junk (seq 0 (size s))). assert (Ld : length d = size s) by (unfold d; now rewrite map_length, seq_length).
  unfold op_mutc_matmul_on. cbn [t_data t_layout].
  assert (DEC : same_batch_rank (l_shape (t_layout a)) (l_shape (t_layout b)) \/ ~ same_batch_rank (l_shape (t_layout a)) (l_shape (t_layout b))) by (unfold same_batch_rank; lia).
  assert (Id : inside lc (length d)) by (rewrite Ld; now apply covers_inside). assert (PSc : product_shape o (l_shape (t_layout a)) (l_shape (t_layout b)) (l_shape lc)) by now rewrite Sc.
  destruct DEC as [SB|SB].
  - destruct (FULL d lc) as (c' & E & [[L U] V]); auto. { apply contig_anchored. }
    rewrite E. cbn [bind t_layout t_data]. split; [auto|]. split; [auto|]. split. { apply tensor_ok_good. split; [exact Gc|]. cbn [t_data t_layout]. now rewrite L. }
    split. { rewrite L, Ld. apply contig_addrs. }
    intros cx Vx. destruct (V cx Vx) as (ts & vs & z & CT & PR & _ & R). exists ts, vs. split; auto. split; auto. rewrite R. f_equal. destruct SR as ((_ & UN & CM) & _ & _ & ZM). rewrite ZM. auto.
  - destruct (RANK d lc) as [(e & E)|(EA & Z & E)]; auto; rewrite E; cbn [bind t_layout t_data]; [now right|]. split; [auto|]. split; [auto|]. split. { apply tensor_ok_good. split; [exact Gc|auto]. }
    split. { rewrite Ld. apply contig_addrs. } intros cx Vx. exfalso. now apply valid_size_pos in Vx. Qed.

(** ** faer *)
Section Devices.
  Context {T : Type} (zero one : T) (add mul : T -> T -> T) (eqb : T -> T -> bool) (SR : comm_semiring zero add mul) (ONE : forall x, mul one x = x) (EQ : forall x y, eqb x y = true <-> x = y).
  Context (t : split_tree) (tri : list (nat * nat) -> list (nat * nat)) (PT : forall l, Permutation (tri l) l) (sched : list (list Z) -> list (list Z)) (PERM : forall l, Permutation (sched l) l) (same : bool).
  Lemma faer_row c lc a la b lb alpha beta : (same = true -> a = b) -> good la -> good lb -> good lc -> inside la (length a) -> inside lb (length b) -> inside lc (length c) -> injective lc ->
    anchored la -> anchored lb -> anchored lc -> product_shape RowMajor (l_shape la) (l_shape lb) (l_shape lc) -> same_batch_rank (l_shape la) (l_shape lb) ->
    exists c', matmul_faer zero one add mul eqb t tri sched same c lc a la b lb alpha beta = Ok c' /\ is_product RowMajor mul zero add mul alpha beta a la b lb c lc c'.
  Proof. intros HS Ga Gb Gc Ia Ib Ic Jc Aa Ab Ac PS SB. unfold matmul_faer.
    apply (row_ok zero add mul SR a b alpha beta (fun c lc la lb => dispatch_faer zero one add mul eqb tri same c lc a la b lb alpha beta) sched PERM t c lc la lb); auto.
    intros c0 lc0 la0 lb0 M K N G1 G2 G3 S1 S2 S3 I1 I2 I3 J3. apply (dispatch_faer_filled zero one add mul eqb SR EQ ONE tri same M K N); auto using good_wf. Qed.
  Lemma faer_device o c lc a la b lb alpha beta : (same = true -> a = b) -> good la -> good lb -> good lc -> inside la (length a) -> inside lb (length b) -> inside lc (length c) -> injective lc ->
    anchored la -> anchored lb -> anchored lc -> product_shape o (l_shape la) (l_shape lb) (l_shape lc) -> same_batch_rank (l_shape la) (l_shape lb) ->
    exists c', device_faer zero one add mul eqb o t tri sched same c lc a la b lb alpha beta = Ok c' /\ is_product o mul zero add mul alpha beta a la b lb c lc c'.
  Proof. intros HS Ga Gb Gc Ia Ib Ic Jc Aa Ab Ac PS SB. destruct o; cbn [device_faer]; [now apply faer_row|].
    destruct (faer_row c (reverse_axes lc) b (reverse_axes lb) a (reverse_axes la) alpha beta) as (c' & E & P); auto using good_reverse, rev_inside, rev_injective, rev_anchored, good_wf.
    - intro E. symmetry. auto.
    - cbn [reverse_axes l_shape]. now apply ps_col_row.
    - unfold same_batch_rank in *. cbn [reverse_axes l_shape]. rewrite !rev_length. lia.
    - exists c'. split; auto. apply (product_turn mul mul); auto using good_wf. intros. apply (mul_comm zero add mul SR). Qed.
  Lemma faer_rank o c lc a la b lb alpha beta : product_shape o (l_shape la) (l_shape lb) (l_shape lc) -> ~ same_batch_rank (l_shape la) (l_shape lb) ->
    exists e, device_faer zero one add mul eqb o t tri sched same c lc a la b lb alpha beta = Err e.
  Proof using. clear. intros PS SB. destruct o; cbn [device_faer]; unfold matmul_faer.
    - apply (row_rank zero add mul a b alpha beta (fun c lc la lb => dispatch_faer zero one add mul eqb tri same c lc a la b lb alpha beta) sched t c lc la lb); auto.
    - apply (row_rank zero add mul b a alpha beta (fun c lc la lb => dispatch_faer zero one add mul eqb tri same c lc b la a lb alpha beta) sched t c (reverse_axes lc) (reverse_axes lb) (reverse_axes la)).
      + cbn [reverse_axes l_shape]. now apply ps_col_row. + unfold same_batch_rank in *. cbn [reverse_axes l_shape]. rewrite !rev_length. lia. Qed.

  (** ** BLAS *)
  Lemma blas_row c lc a la b lb alpha : (same = true -> a = b) -> good la -> good lb -> good lc -> inside la (length a) -> inside lb (length b) -> inside lc (length c) -> injective lc ->
    anchored la -> anchored lb -> anchored lc -> product_shape RowMajor (l_shape la) (l_shape lb) (l_shape lc) -> same_batch_rank (l_shape la) (l_shape lb) ->
    exists c', matmul_blas zero add mul eqb t tri sched same c lc a la b lb alpha zero = Ok c' /\ is_product RowMajor mul zero add mul alpha zero a la b lb c lc c'.
  Proof using SR EQ PT PERM. clear one ONE. intros HS Ga Gb Gc Ia Ib Ic Jc Aa Ab Ac PS SB. unfold matmul_blas, l_size. destruct (Nat.eqb_spec (size (l_shape lc)) 0) as [Z|_].
    { exists c. split; auto. split; [split; auto|]. intros cx V. exfalso. now apply valid_size_pos in V. }
    apply (row_ok zero add mul SR a b alpha zero (fun c lc la lb => dispatch_blas zero add mul eqb tri same c lc a la b lb alpha zero) sched PERM t c lc la lb); auto.
    intros c0 lc0 la0 lb0 M K N G1 G2 G3 S1 S2 S3 I1 I2 I3 J3. apply (dispatch_blas_filled zero add mul eqb SR EQ tri same M K N); auto. Qed.
  Lemma blas_device o c lc a la b lb alpha : (same = true -> a = b) -> good la -> good lb -> good lc -> inside la (length a) -> inside lb (length b) -> inside lc (length c) -> injective lc ->
    anchored la -> anchored lb -> anchored lc -> product_shape o (l_shape la) (l_shape lb) (l_shape lc) -> same_batch_rank (l_shape la) (l_shape lb) ->
    exists c', device_blas zero add mul eqb o t tri sched same c lc a la b lb alpha zero = Ok c' /\ is_product o mul zero add mul alpha zero a la b lb c lc c'.
  Proof using SR EQ PT PERM. clear one ONE. intros HS Ga Gb Gc Ia Ib Ic Jc Aa Ab Ac PS SB. destruct o; cbn [device_blas]; [now apply blas_row|].
    destruct (blas_row c (reverse_axes lc) b (reverse_axes lb) a (reverse_axes la) alpha) as (c' & E & P); auto using good_reverse, rev_inside, rev_injective, rev_anchored, good_wf.
    - intro E. symmetry. auto.
    - cbn [reverse_axes l_shape]. now apply ps_col_row.
    - unfold same_batch_rank in *. cbn [reverse_axes l_shape]. rewrite !rev_length. lia.
    - exists c'. split; auto. apply (product_turn mul mul); auto using good_wf. intros. apply (mul_comm zero add mul SR). Qed.
  Lemma blas_rank o c lc a la b lb alpha beta : product_shape o (l_shape la) (l_shape lb) (l_shape lc) -> ~ same_batch_rank (l_shape la) (l_shape lb) ->
    (exists e, device_blas zero add mul eqb o t tri sched same c lc a la b lb alpha beta = Err e) \/ (true = true /\ size (l_shape lc) = 0%nat /\ device_blas zero add mul eqb o t tri sched same c lc a la b lb alpha beta = Ok c).
  Proof using. clear. intros PS SB. destruct o; cbn [device_blas]; unfold matmul_blas, l_size; cbn [reverse_axes l_shape]; rewrite ?size_rev; (destruct (Nat.eqb_spec (size (l_shape lc)) 0) as [Z|_]; [auto|left]).
    - apply (row_rank zero add mul a b alpha beta (fun c lc la lb => dispatch_blas zero add mul eqb tri same c lc a la b lb alpha beta) sched t c lc la lb); auto.
    - apply (row_rank zero add mul b a alpha beta (fun c lc la lb => dispatch_blas zero add mul eqb tri same c lc b la a lb alpha beta) sched t c (reverse_axes lc) (reverse_axes lb) (reverse_axes la)).
      + cbn [reverse_axes l_shape]. now apply ps_col_row. + unfold same_batch_rank in *. cbn [reverse_axes l_shape]. rewrite !rev_length. lia. Qed.
End Devices.

(** ** the theorems *)
Lemma l_faer_from : forall (T : Type) (zero one : T) add mul eqb o t tri sched same (a b c : tensor T) alpha beta,
  comm_semiring zero add mul -> (forall x, mul one x = x) -> (forall x y, eqb x y = true <-> x = y) -> (forall l, Permutation (tri l) l) -> (forall l, Permutation (sched l) l) -> (same = true -> t_data a = t_data b) ->
  tensor_ok a -> tensor_ok b -> tensor_ok c -> anchored (t_layout a) -> anchored (t_layout b) -> anchored (t_layout c) -> injective (t_layout c) ->
  product_shape o (l_shape (t_layout a)) (l_shape (t_layout b)) (l_shape (t_layout c)) -> same_batch_rank (l_shape (t_layout a)) (l_shape (t_layout b)) ->
  exists c', op_mutc_matmul_on (device_faer zero one add mul eqb o t tri sched same) c a b alpha beta = Ok (mkTensor c' (t_layout c)) /\
    is_product o mul zero add mul alpha beta (t_data a) (t_layout a) (t_data b) (t_layout b) (t_data c) (t_layout c) c'.
Proof. intros T zero one add mul eqb o t tri sched same a b c alpha beta SR ONE EQ PT PERM HS Ta Tb Tc Aa Ab Ac Jc PS SB. apply tensor_ok_good in Ta as [Ga Ia], Tb as [Gb Ib], Tc as [Gc Ic].
  destruct (faer_device zero one add mul eqb SR ONE EQ t tri PT sched PERM same o (t_data c) (t_layout c) (t_data a) (t_layout a) (t_data b) (t_layout b) alpha beta) as (c' & E & P); auto.
  exists c'. split; auto. unfold op_mutc_matmul_on. now rewrite E. Qed.
Lemma l_faer_matmul : forall (T : Type) (zero one : T) add mul eqb k o t tri sched same junk (a b : tensor T) alpha,
  comm_semiring zero add mul -> (forall x, mul one x = x) -> (forall x y, eqb x y = true <-> x = y) -> (forall l, Permutation (tri l) l) -> (forall l, Permutation (sched l) l) -> (same = true -> t_data a = t_data b) ->
  tensor_ok a -> tensor_ok b -> anchored (t_layout a) -> anchored (t_layout b) ->
  match op_matmul_on zero (device_faer zero one add mul eqb o t tri sched same) k o junk a b alpha with
  | Ok r => product_shape o (l_shape (t_layout a)) (l_shape (t_layout b)) (l_shape (t_layout r)) /\ same_batch_rank (l_shape (t_layout a)) (l_shape (t_layout b)) /\
      tensor_ok r /\ addrs o (t_layout r) = consecutive 0 (length (t_data r)) /\
      forall cx, valid (l_shape (t_layout r)) cx -> exists ts vs, contracts o (l_shape (t_layout a)) (l_shape (t_layout b)) cx ts /\
        products mul (t_data a) (t_layout a) (t_data b) (t_layout b) ts vs /\ elem (t_data r) (t_layout r) cx = Some (mul alpha (total zero add vs))
  | Err _ => (forall s, ~ product_shape o (l_shape (t_layout a)) (l_shape (t_layout b)) s) \/ ~ same_batch_rank (l_shape (t_layout a)) (l_shape (t_layout b))
  | Panic => False
  end.
Proof. intros T zero one add mul eqb k o t tri sched same junk a b alpha SR ONE EQ PT PERM HS Ta Tb Aa Ab. pose proof (on_device zero add mul false (device_faer zero one add mul eqb o t tri sched same) k o junk a b alpha SR Ta Tb Aa Ab) as H.
  apply tensor_ok_good in Ta as [Ga Ia], Tb as [Gb Ib]. destruct (op_matmul_on _ _ _ _ _ _ _ _) as [r|e|].
  - destruct H as (H1 & H2 & H3). + intros. apply faer_device; auto. + intros. left. now apply faer_rank. + split; auto. split; auto. destruct H2 as [|[]]; [auto|discriminate].
  - apply H. + intros. apply faer_device; auto. + intros. left. now apply faer_rank.
  - apply H. + intros. apply faer_device; auto. + intros. left. now apply faer_rank. Qed.
Lemma l_blas_from : forall (T : Type) (zero : T) add mul eqb o t tri sched same (a b c : tensor T) alpha,
  comm_semiring zero add mul -> (forall x y, eqb x y = true <-> x = y) -> (forall l, Permutation (tri l) l) -> (forall l, Permutation (sched l) l) -> (same = true -> t_data a = t_data b) ->
  tensor_ok a -> tensor_ok b -> tensor_ok c -> anchored (t_layout a) -> anchored (t_layout b) -> anchored (t_layout c) -> injective (t_layout c) ->
  product_shape o (l_shape (t_layout a)) (l_shape (t_layout b)) (l_shape (t_layout c)) -> same_batch_rank (l_shape (t_layout a)) (l_shape (t_layout b)) ->
  exists c', op_mutc_matmul_on (device_blas zero add mul eqb o t tri sched same) c a b alpha zero = Ok (mkTensor c' (t_layout c)) /\
    is_product o mul zero add mul alpha zero (t_data a) (t_layout a) (t_data b) (t_layout b) (t_data c) (t_layout c) c'.
Proof. intros T zero add mul eqb o t tri sched same a b c alpha SR EQ PT PERM HS Ta Tb Tc Aa Ab Ac Jc PS SB. apply tensor_ok_good in Ta as [Ga Ia], Tb as [Gb Ib], Tc as [Gc Ic].
  destruct (blas_device zero add mul eqb SR EQ t tri PT sched PERM same o (t_data c) (t_layout c) (t_data a) (t_layout a) (t_data b) (t_layout b) alpha) as (c' & E & P); auto.
  exists c'. split; auto. unfold op_mutc_matmul_on. now rewrite E. Qed.
Lemma l_blas_matmul : forall (T : Type) (zero : T) add mul eqb k o t tri sched same junk (a b : tensor T) alpha,
  comm_semiring zero add mul -> (forall x y, eqb x y = true <-> x = y) -> (forall l, Permutation (tri l) l) -> (forall l, Permutation (sched l) l) -> (same = true -> t_data a = t_data b) ->
  tensor_ok a -> tensor_ok b -> anchored (t_layout a) -> anchored (t_layout b) ->
  match op_matmul_on zero (device_blas zero add mul eqb o t tri sched same) k o junk a b alpha with
  | Ok r => product_shape o (l_shape (t_layout a)) (l_shape (t_layout b)) (l_shape (t_layout r)) /\ (same_batch_rank (l_shape (t_layout a)) (l_shape (t_layout b)) \/ size (l_shape (t_layout r)) = 0%nat) /\
      tensor_ok r /\ addrs o (t_layout r) = consecutive 0 (length (t_data r)) /\
      forall cx, valid (l_shape (t_layout r)) cx -> exists ts vs, contracts o (l_shape (t_layout a)) (l_shape (t_layout b)) cx ts /\
        products mul (t_data a) (t_layout a) (t_data b) (t_layout b) ts vs /\ elem (t_data r) (t_layout r) cx = Some (mul alpha (total zero add vs))
  | Err _ => (forall s, ~ product_shape o (l_shape (t_layout a)) (l_shape (t_layout b)) s) \/ ~ same_batch_rank (l_shape (t_layout a)) (l_shape (t_layout b))
  | Panic => False
  end.
Proof. intros T zero add mul eqb k o t tri sched same junk a b alpha SR EQ PT PERM HS Ta Tb Aa Ab. pose proof (on_device zero add mul true (device_blas zero add mul eqb o t tri sched same) k o junk a b alpha SR Ta Tb Aa Ab) as H.
  apply tensor_ok_good in Ta as [Ga Ia], Tb as [Gb Ib]. destruct (op_matmul_on _ _ _ _ _ _ _ _) as [r|e|].
  - destruct H as (H1 & H2 & H3). + intros. apply blas_device; auto. + intros. now apply blas_rank. + split; auto. split; auto. tauto.
  - apply H. + intros. apply blas_device; auto. + intros. now apply blas_rank.
  - apply H. + intros. apply blas_device; auto. + intros. now apply blas_rank. Qed.
(** adding to a matrix: only a matrix one of whose strides is 1, and a product with at least one term *)
Lemma unit_stride_prefer M N t off : 1 <= t -> f_prefer (mkLayout [M; N] [1; t] off) = true.
Proof. intro H. unfold f_prefer, ndim, l_size. cbn [l_shape l_stride length combine Nat.eqb orb]. destruct (size [M; N] =? 0)%nat; auto. cbn [prefer_loop].
  destruct (M =? 1)%nat; cbn [negb Z.eqb Z.ltb andb Pos.eqb Z.compare]; destruct (N =? 1)%nat; cbn [negb]; auto; replace (t <? 1) with false by lia; reflexivity. Qed.
Lemma l_blas_accumulate_partial : forall (T : Type) (zero : T) add mul eqb t tri sched same (a b c : tensor T) M K N s alpha beta,
  comm_semiring zero add mul -> (forall x y, eqb x y = true <-> x = y) -> (forall l, Permutation (tri l) l) -> (same = true -> t_data a = t_data b) ->
  tensor_ok a -> tensor_ok b -> tensor_ok c -> injective (t_layout c) ->
  l_shape (t_layout a) = [M; K] -> l_shape (t_layout b) = [K; N] -> l_shape (t_layout c) = [M; N] -> K <> 0%nat -> (1 <= s)%Z -> l_stride (t_layout c) = [1%Z; s] \/ l_stride (t_layout c) = [s; 1%Z] ->
  exists c', op_mutc_matmul_on (device_blas zero add mul eqb RowMajor t tri sched same) c a b alpha beta = Ok (mkTensor c' (t_layout c)) /\
    is_product RowMajor mul zero add mul alpha beta (t_data a) (t_layout a) (t_data b) (t_layout b) (t_data c) (t_layout c) c'.
Proof. intros T zero add mul eqb t tri sched same a b c M K N s alpha beta SR EQ PT HS Ta Tb Tc Jc Sa Sb Sc HK Hs St. apply tensor_ok_good in Ta as [Ga Ia], Tb as [Gb Ib], Tc as [Gc Ic].
  assert (PF : f_prefer (t_layout c) = true \/ c_prefer (t_layout c) = true). { destruct (t_layout c) as [sh st off]. cbn [l_shape l_stride] in *. subst sh. destruct St as [->| ->]; [left|right; rewrite c_prefer2]; now apply unit_stride_prefer. }
  assert (X : exact zero add mul (t_data a) (t_data b) alpha beta (fun c lc la lb => dispatch_blas zero add mul eqb tri same c lc (t_data a) la (t_data b) lb alpha beta) (t_data c) (t_layout c) (t_layout a) (t_layout b) M K N).
  { apply (dispatch_blas_filled zero add mul eqb SR EQ tri same M K N); auto. }
  apply (exact_gemm zero add mul SR) in X; auto. unfold op_mutc_matmul_on, device_blas, matmul_blas, l_size, ndim. rewrite Sa, Sb, Sc. cbn [length]. destruct (Nat.eqb_spec (size [M; N]) 0) as [Z|_].
  { exists (t_data c). cbn [bind]. split; auto. split; [split; auto|]. intros cx V. exfalso. apply valid_size_pos in V. now rewrite Sc in V. }
  rewrite X. destruct (l_gemm T T T mul zero add mul (t_data a) (t_layout a) (t_data b) (t_layout b) (t_data c) (t_layout c) M K N alpha beta) as (c' & E & P); auto. exists c'. split; auto. now rewrite E. Qed.
(** a strided output loses beta * c *)
Lemma l_blas_strided_refuted : exists (a b c : tensor Z) c', tensor_ok a /\ tensor_ok b /\ tensor_ok c /\ injective (t_layout c) /\ l_shape (t_layout a) = [2; 1]%nat /\ l_shape (t_layout b) = [1; 2]%nat /\ l_shape (t_layout c) = [2; 2]%nat /\
  op_mutc_matmul_on (device_blas 0%Z Z.add Z.mul Z.eqb RowMajor Leaf (fun l => l) (fun l => l) false) c a b 1%Z 1%Z = Ok (mkTensor c' (t_layout c)) /\
  elem (t_data c) (t_layout c) [0; 0]%nat = Some 100%Z /\ elem c' (t_layout c) [0; 0]%nat = Some 6%Z.
Proof. exists (mkTensor [2; 3] (mkLayout [2; 1]%nat [1; 1] 0)), (mkTensor [3; 5] (mkLayout [1; 2]%nat [2; 1] 0)), (mkTensor [100; 7; 100; 7; 100; 7; 100] (mkLayout [2; 2]%nat [4; 2] 0)), [6; 7; 10; 7; 9; 7; 15].
  split; [concrete_tensor|]. split; [concrete_tensor|]. split; [concrete_tensor|]. split; [|repeat split].
  intros ix jx V V' E. cbn [t_layout l_shape] in V, V'. apply valid2 in V as (i & j & -> & Hi & Hj). apply valid2 in V' as (i' & j' & -> & Hi' & Hj'). cbn [t_layout] in E. rewrite !addr2 in E. assert (i = i' /\ j = j') as [-> ->] by lia. reflexivity. Qed.
(** a product of no terms clears the output, whatever beta is *)
Lemma l_blas_empty_refuted : exists (a b c : tensor Z) c', tensor_ok a /\ tensor_ok b /\ tensor_ok c /\ t_layout c = mkLayout [1; 1]%nat [1; 1]%Z 0%Z /\ l_shape (t_layout a) = [1; 0]%nat /\ l_shape (t_layout b) = [0; 1]%nat /\
  op_mutc_matmul_on (device_blas 0%Z Z.add Z.mul Z.eqb RowMajor Leaf (fun l => l) (fun l => l) false) c a b 1%Z 1%Z = Ok (mkTensor c' (t_layout c)) /\ t_data c = [100%Z] /\ c' = [0%Z].
Proof. exists (mkTensor [] (mkLayout [1; 0]%nat [1; 1] 0)), (mkTensor [] (mkLayout [0; 1]%nat [1; 1] 0)), (mkTensor [100] (mkLayout [1; 1]%nat [1; 1] 0)), [0].
  split; [concrete_tensor|]. split; [concrete_tensor|]. split; [concrete_tensor|]. repeat split. Qed.
(** an empty product of stacks of different batch ranks is accepted here and refused elsewhere *)
Lemma l_blas_rank_refuted : exists (a b : tensor Z), tensor_ok a /\ tensor_ok b /\
  (exists r, op_matmul_on 0%Z (device_blas 0%Z Z.add Z.mul Z.eqb RowMajor Leaf (fun l => l) (fun l => l) false) Dyn RowMajor (fun _ => 0%Z) a b 1%Z = Ok r) /\
  (exists e, op_matmul_on 0%Z (device_faer 0%Z 1%Z Z.add Z.mul Z.eqb RowMajor Leaf (fun l => l) (fun l => l) false) Dyn RowMajor (fun _ => 0%Z) a b 1%Z = Err e).
Proof. exists (mkTensor [] (mkLayout [1; 0; 1]%nat [1; 1; 1] 0)), (mkTensor [3] (mkLayout [1; 1; 1; 1]%nat [1; 1; 1; 1] 0)). split; [concrete_tensor|]. split; [concrete_tensor|]. split; eexists; reflexivity. Qed.

(** ** the old contents of the result do not matter when beta is 0, whatever the arithmetic *)
Definition agree {T} (S : Z -> Prop) (c d : list T) : Prop := length c = length d /\ forall p, S p -> peek c p = peek d p.
Lemma agree_set {T} (S : Z -> Prop) (c d c' : list T) p v : agree S c d -> zset c p v = Ok c' -> exists d', zset d p v = Ok d' /\ agree (fun q => S q \/ q = p) c' d'.
Proof. intros [L A] E. assert (R : 0 <= p < Z.of_nat (length c)). { unfold zset, vset in E. destruct (Z.ltb_spec p 0); [discriminate|]. destruct (Nat.ltb_spec (Z.to_nat p) (length c)); [lia|discriminate]. }
  destruct (zset_ok c p v R) as (c1 & E1 & L1 & P1 & Q1). rewrite E1 in E. injection E as ->. rewrite L in R. destruct (zset_ok d p v R) as (d' & E2 & L2 & P2 & Q2). exists d'. split; auto. split; [congruence|].
  intros q Hq. destruct (Z.eq_dec q p) as [->|N]; [congruence|]. rewrite Q1, Q2 by auto. apply A. tauto. Qed.
Lemma agree_product {T} zero add mul alpha pc (a : list T) pa b pb K cells : forall S c d c', agree S c d -> lib_product zero add mul cells None alpha c pc a pa b pb K = Ok c' ->
  exists d', lib_product zero add mul cells None alpha d pc a pa b pb K = Ok d' /\ agree (fun q => S q \/ exists i j, In (i, j) cells /\ q = pc i j) c' d'.
Proof. unfold lib_product. induction cells as [|[i j] cells IH]; intros S c d c' A E; cbn [fold_res] in *.
  - injection E as <-. exists d. split; auto. destruct A as [L A]. split; auto. intros p [H|(i & j & [] & _)]. auto.
  - unfold lib_cell at 1 in E. unfold lib_cell at 1. cbn [fst snd] in *. destruct (lib_entry zero add mul a b (pa i) (fun k => pb k j) K) as [s| |]; try discriminate. cbn [bind] in *.
    destruct (zset c (pc i j) (mul alpha s)) as [c1| |] eqn:Z; try discriminate. destruct (agree_set S c d c1 _ _ A Z) as (d1 & -> & A1). cbn [bind] in *.
    destruct (IH _ _ _ _ A1 E) as (d' & E' & [L' A']). exists d'. split; auto. split; auto. intros p [H|(i' & j' & [[= <- <-]|H] & ->)]; apply A'; eauto. Qed.
Lemma agree_copies {T} ps : forall (S : Z -> Prop) (c d c' : list T), (forall p, In p ps -> S (fst p)) -> agree S c d -> fold_res copy_cell ps c = Ok c' -> exists d', fold_res copy_cell ps d = Ok d' /\ agree (fun q => S q \/ In q (map snd ps)) c' d'.
Proof. induction ps as [|[s p] ps IH]; intros S c d c' HS A E; cbn [fold_res map snd] in *.
  - injection E as <-. exists d. split; auto. destruct A as [L A]. split; auto. intros q [H|[]]. auto.
  - unfold copy_cell at 1 in E. unfold copy_cell at 1. cbn [fst snd] in *. destruct (zget c s) as [x| |] eqn:G; try discriminate. assert (Gd : zget d s = Ok x). { apply zget_peek. apply zget_peek in G. rewrite <- (proj2 A s); auto. apply (HS (s, p)). now left. } rewrite Gd. cbn [bind] in *.
    destruct (zset c p x) as [c1| |] eqn:Z; try discriminate. destruct (agree_set S c d c1 _ _ A Z) as (d1 & -> & A1). cbn [bind] in *.
    destruct (IH _ _ _ _ (fun q Hq => or_introl (HS q (or_intror Hq))) A1 E) as (d' & E' & [L' A']). exists d'. split; auto. split; auto. intros q [H|[<-|H]]; apply A'; auto. Qed.
Lemma agree_faer {T} (zero one : T) add mul eqb tri same c d lc a la b lb alpha M N c' : eqb zero zero = true -> (forall l, Permutation (tri l) l) -> l_shape lc = [M; N] -> length c = length d ->
  dispatch_faer zero one add mul eqb tri same c lc a la b lb alpha zero = Ok c' -> exists d', dispatch_faer zero one add mul eqb tri same d lc a la b lb alpha zero = Ok d' /\ forall m n, (m < M)%nat -> (n < N)%nat -> peek c' (addr lc [m; n]) = peek d' (addr lc [m; n]).
Proof. intros Z PT Sc L E. assert (A0 : agree (fun _ => False) c d) by (split; auto; intros ? []). unfold dispatch_faer in *. destruct (able_syrk zero eqb same la lb zero).
  - unfold gemm_with_syrk_faer, syrk_faer in *. rewrite Z in *. cbn [negb] in *. unfold extent in *. rewrite Sc in *. cbn [nth] in *. destruct (check (M =? N)%nat InvalidLayout) as [u| |] eqn:CK; try discriminate. assert (M = N) as -> by (unfold check in CK; destruct (Nat.eqb_spec M N); [auto|discriminate]). cbn [bind] in *. destruct (check _ _) as [u'| |]; try discriminate. cbn [bind] in *.
    unfold faer_product in *. destruct (lib_product zero add mul (lower_cells N) None alpha c _ a _ a _ _) as [c1| |] eqn:E1; try discriminate. destruct (agree_product _ _ _ _ _ _ _ _ _ _ _ _ _ _ _ A0 E1) as (d1 & -> & A1). cbn [bind] in *.
    assert (IL : forall i j, In (i, j) (lower_cells N) <-> (j <= i)%nat /\ (i < N)%nat) by (intros i j; unfold lower_cells; rewrite filter_In, in_all; cbn [fst snd]; lia).
    assert (TI : forall i j, In (i, j) (tri (strict_lower N)) <-> (j < i)%nat /\ (i < N)%nat). { intros i j. rewrite <- in_strict. split; apply Permutation_in; auto. symmetry. auto. }
    eapply agree_copies in E; [| |exact A1].
    + destruct E as (d' & E' & [_ A']). exists d'. split; auto. intros m n Hm Hn. apply A'. destruct (le_lt_dec n m) as [H|H]; [left; right; exists m, n; split; auto; apply IL; lia|].
      right. rewrite map_map. apply in_map_iff. exists (n, m). cbn [fst snd]. split; [apply index_uncheck_addr|]. apply TI. lia.
    + intros p Hp. apply in_map_iff in Hp as ([i j] & <- & Hp). apply TI in Hp. cbn [fst snd]. right. exists i, j. split; [apply IL; lia|apply index_uncheck_addr].
  - unfold gemm_faer in *. destruct (check _ _) as [u| |] in E |- *; try discriminate. cbn [bind] in *. destruct (check _ _) as [u'| |] in E |- *; try discriminate. cbn [bind] in *. destruct (check _ _) as [u''| |] in E |- *; try discriminate. cbn [bind] in *. rewrite Z in *.
    unfold faer_product in *. destruct (agree_product _ _ _ _ _ _ _ _ _ _ _ _ _ _ _ A0 E) as (d' & -> & [_ A']). exists d'. split; auto. intros m n Hm Hn. apply A'. right. exists m, n. split; auto. unfold extent. rewrite Sc. cbn [nth]. now apply in_all. Qed.
Lemma l_faer_fresh : forall (T : Type) (zero one : T) add mul eqb o t tri sched same (a b : tensor T) (c d : list T) lc alpha M N r,
  eqb zero zero = true -> (forall l, Permutation (tri l) l) -> wf lc -> length (l_shape (t_layout a)) = 2%nat -> length (l_shape (t_layout b)) = 2%nat -> l_shape lc = [M; N] -> length c = length d ->
  op_mutc_matmul_on (device_faer zero one add mul eqb o t tri sched same) (mkTensor c lc) a b alpha zero = Ok r ->
  exists r', op_mutc_matmul_on (device_faer zero one add mul eqb o t tri sched same) (mkTensor d lc) a b alpha zero = Ok r' /\ t_layout r' = t_layout r /\ forall ix, valid [M; N] ix -> elem (t_data r') lc ix = elem (t_data r) lc ix.
Proof. intros T zero one add mul eqb o t tri sched same a b c d lc alpha M N r Z PT W Na Nb Sc L E. unfold op_mutc_matmul_on in *. cbn [t_data t_layout] in *. destruct o; cbn [device_faer] in *; unfold matmul_faer, ndim in *.
  - rewrite Na, Nb, Sc in *. cbn [length] in *. destruct (dispatch_faer _ _ _ _ _ _ _ c lc _ _ _ _ _ _) as [c'| |] eqn:E1; try discriminate. cbn [bind] in E. injection E as <-. destruct (agree_faer _ _ _ _ _ _ _ _ d _ _ _ _ _ _ _ _ _ Z PT Sc L E1) as (d' & -> & A).
    cbn [bind]. eexists. split; [reflexivity|]. split; auto. intros ix V. apply valid2 in V as (m & n & -> & Hm & Hn). cbn [t_data]. symmetry. now apply A.
  - cbn [reverse_axes l_shape] in *. rewrite !rev_length, Na, Nb, Sc in *. cbn [length] in *. destruct (dispatch_faer _ _ _ _ _ _ _ c (reverse_axes lc) _ _ _ _ _ _) as [c'| |] eqn:E1; try discriminate. cbn [bind] in E. injection E as <-.
    assert (Sr : l_shape (reverse_axes lc) = [N; M]) by (cbn [reverse_axes l_shape]; rewrite Sc; reflexivity). destruct (agree_faer _ _ _ _ _ _ _ _ d _ _ _ _ _ _ _ _ _ Z PT Sr L E1) as (d' & -> & A).
    cbn [bind]. eexists. split; [reflexivity|]. split; auto. intros ix V. apply valid2 in V as (m & n & -> & Hm & Hn). cbn [t_data]. symmetry. specialize (A n m Hn Hm). rewrite !reverse_addr' in A by (rewrite (proj1 W), Sc; reflexivity). exact A. Qed.
