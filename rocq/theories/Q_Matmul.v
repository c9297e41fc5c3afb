From Verif Require Import Base Spec Spec_Matmul P_Index P_List M_Layout P_Layout P_Bounds P_Contig P_Strides M_Indexer P_Indexer M_Broadcast P_Broadcast Q_Broadcast M_Rearr P_Rearr P_BinOp M_Iter P_Iter M_Kernel P_Kernel Q_Kernel M_Tensor P_Tensor Q_Tensor Q_Copy M_Matmul P_Matmul P_Matmul2 P_Matmul3 P_Matmul4.
Local Open Scope Z_scope.

Lemma cum_nonneg g s : forall acc, 0 <= acc -> Forall (fun t => 0 <= t) (cum_strides g s acc).
Proof. induction s as [|d s IH]; intros acc H; cbn [cum_strides]; constructor; auto. apply IH. lia. Qed.
Lemma contig_anchored k s o : anchored (new_contig k s 0 o).
Proof. intros _. split; [destruct o; cbn; lia|]. assert (F : forall s, Forall (fun t => 0 <= t) (stride_f_contig k s)) by (intro s0; destruct k; apply cum_nonneg; lia).
  destruct o; cbn [new_contig new_c_contig new_f_contig l_stride]; [rewrite stride_c_rev; apply Forall_rev|]; apply F. Qed.
Lemma bind_id {T} (r : res T) : (let* x := r in Ok x) = r.
Proof. now destruct r. Qed.
Lemma good_nonneg l : good l -> nonneg l. Proof. intros (_ & N & _). exact N. Qed.

Lemma l_matmul_layout : forall k o la lb, accepted la -> accepted lb -> anchored la -> anchored lb ->
  match layout_matmul k la lb o with
  | Ok cfg => product_shape o (l_shape la) (l_shape lb) (l_shape (mm_lc cfg)) /\ l_offset (mm_lc cfg) = 0 /\ addrs o (mm_lc cfg) = consecutive 0 (size (l_shape (mm_lc cfg)))
  | Err _ => forall s, ~ product_shape o (l_shape la) (l_shape lb) s
  | Panic => False
  end.
Proof. intros k o la lb Ga Gb Aa Ab. apply good_accepted in Ga, Gb. pose proof (layout_ok k o la lb (good_wf _ Ga) (good_wf _ Gb) (good_nonneg _ Ga) (good_nonneg _ Gb) Aa Ab) as H.
  destruct (layout_matmul k la lb o) as [cfg|e|]; auto. destruct H as (k' & s & PS & ->). assert (l_shape (new_contig k' s 0 o) = s) as -> by (destruct o; reflexivity). split; auto. split; [destruct o; reflexivity|]. apply contig_addrs. Qed.
Lemma l_product_shape_fun : forall o sa sb s s', product_shape o sa sb s -> product_shape o sa sb s' -> s = s'.
Proof. exact product_shape_fun. Qed.

(** matmul_from / matmul_with_output *)
Lemma l_matmul_from_by : forall (A B C : Type) o (mab : A -> B -> C) (mba : B -> A -> C) add mul (a : tensor A) (b : tensor B) (c : tensor C) alpha beta (Ent : C -> list C -> C -> Prop),
  (forall z vs, Ent z vs (fold_left (fun v p => add (mul alpha p) v) vs (mul beta z))) -> (forall z vs, Ent z vs (fold_left (fun v p => add v (mul alpha p)) vs (mul beta z))) -> (forall x y, mba y x = mab x y) ->
  tensor_ok a -> tensor_ok b -> tensor_ok c -> anchored (t_layout a) -> anchored (t_layout b) -> anchored (t_layout c) -> injective (t_layout c) ->
  product_shape o (l_shape (t_layout a)) (l_shape (t_layout b)) (l_shape (t_layout c)) -> same_batch_rank (l_shape (t_layout a)) (l_shape (t_layout b)) ->
  (l_shape (t_layout c) = [] -> l_offset (t_layout c) = 0) ->
  exists c', op_mutc_matmul o mab mba mul add c a b alpha beta = Ok (mkTensor c' (t_layout c)) /\
    is_product_by o mab Ent (t_data a) (t_layout a) (t_data b) (t_layout b) (t_data c) (t_layout c) c'.
Proof. intros A B C o mab mba add mul a b c alpha beta Ent HE HE' HM Ta Tb Tc Aa Ab Ac Jc PS SB O. apply tensor_ok_good in Ta as [Ga Ia], Tb as [Gb Ib], Tc as [Gc Ic].
  destruct (device_by mab mba add mul HM o (t_data a) (t_layout a) (t_data b) (t_layout b) (t_data c) (t_layout c) alpha beta Ent) as (c' & E & P); auto using good_wf.
  { intro N. apply O. unfold ndim in N. now apply length_zero_iff_nil in N. }
  exists c'. split; auto. unfold op_mutc_matmul. now rewrite E. Qed.

Lemma l_matmul_from : forall (A B C : Type) o (mab : A -> B -> C) (mba : B -> A -> C) (zero : C) add mul (a : tensor A) (b : tensor B) (c : tensor C) alpha beta,
  comm_semiring zero add mul -> (forall x y, mba y x = mab x y) ->
  tensor_ok a -> tensor_ok b -> tensor_ok c -> anchored (t_layout a) -> anchored (t_layout b) -> anchored (t_layout c) -> injective (t_layout c) ->
  product_shape o (l_shape (t_layout a)) (l_shape (t_layout b)) (l_shape (t_layout c)) -> same_batch_rank (l_shape (t_layout a)) (l_shape (t_layout b)) ->
  (l_shape (t_layout c) = [] -> l_offset (t_layout c) = 0) ->
  exists c', op_mutc_matmul o mab mba mul add c a b alpha beta = Ok (mkTensor c' (t_layout c)) /\
    is_product o mab zero add mul alpha beta (t_data a) (t_layout a) (t_data b) (t_layout b) (t_data c) (t_layout c) c'.
Proof. intros A B C o mab mba zero add mul a b c alpha beta SR HM Ta Tb Tc Aa Ab Ac Jc PS SB O.
  destruct (l_matmul_from_by A B C o mab mba add mul a b c alpha beta (fun z vs v => v = add (mul beta z) (mul alpha (total zero add vs)))) as (c' & E & P); auto using accum_total, accum_total'.
  exists c'. split; [exact E|]. now apply product_by. Qed.

(** matmul *)
Lemma l_matmul_by : forall (A B C : Type) k o (mab : A -> B -> C) (mba : B -> A -> C) (zero : C) add mul junk (a : tensor A) (b : tensor B) alpha (Ent : C -> list C -> C -> Prop),
  (forall z vs, Ent z vs (fold_left (fun v p => add (mul alpha p) v) vs (mul zero z))) -> (forall z vs, Ent z vs (fold_left (fun v p => add v (mul alpha p)) vs (mul zero z))) -> (forall x y, mba y x = mab x y) -> tensor_ok a -> tensor_ok b -> anchored (t_layout a) -> anchored (t_layout b) ->
  match op_matmul k o mab mba mul add zero junk a b alpha with
  | Ok t => product_shape o (l_shape (t_layout a)) (l_shape (t_layout b)) (l_shape (t_layout t)) /\ same_batch_rank (l_shape (t_layout a)) (l_shape (t_layout b)) /\
      tensor_ok t /\ addrs o (t_layout t) = consecutive 0 (length (t_data t)) /\
      forall cx, valid (l_shape (t_layout t)) cx -> exists ts vs i v, contracts o (l_shape (t_layout a)) (l_shape (t_layout b)) cx ts /\
        products mab (t_data a) (t_layout a) (t_data b) (t_layout b) ts vs /\ elem (t_data t) (t_layout t) cx = Some v /\ Ent (junk i) vs v
  | Err _ => (forall s, ~ product_shape o (l_shape (t_layout a)) (l_shape (t_layout b)) s) \/ ~ same_batch_rank (l_shape (t_layout a)) (l_shape (t_layout b))
  | Panic => False
  end.
Proof. intros A B C k o mab mba zero add mul junk a b alpha Ent HE HE' HM Ta Tb Aa Ab. apply tensor_ok_good in Ta as [Ga Ia], Tb as [Gb Ib]. unfold op_matmul.
  pose proof (layout_ok k o _ _ (good_wf _ Ga) (good_wf _ Gb) (good_nonneg _ Ga) (good_nonneg _ Gb) Aa Ab) as H. destruct (layout_matmul k (t_layout a) (t_layout b) o) as [cfg|e|]; cbn [bind]; auto.
  destruct H as (k' & s & PS & ->). set (lc := new_contig k' s 0 o). assert (Sc : l_shape lc = s) by (destruct o; reflexivity). assert (Oc : l_offset lc = 0) by (destruct o; reflexivity).
  assert (Gc : good lc) by (apply contig_good; lia). assert (P : Permutation (addrs RowMajor lc) (consecutive 0 (size s))) by apply contig_perm. assert (Cv : covers lc (size s)) by now apply perm_covers. assert (J : injective lc) by now apply (perm_injective lc (size s)).
  destruct (bounds_covers lc _ (good_wf _ Gc) Oc Cv) as (lo & ->). cbn [bind snd]. rewrite Nat2Z.id. set (d := map junk (seq 0 (size s))). assert (Ld : length d = size s) by (unfold d; now rewrite map_length, seq_length).
  unfold op_mutc_matmul. cbn [t_data t_layout].
  assert (DEC : same_batch_rank (l_shape (t_layout a)) (l_shape (t_layout b)) \/ ~ same_batch_rank (l_shape (t_layout a)) (l_shape (t_layout b))) by (unfold same_batch_rank; lia).
  destruct DEC as [SB|SB].
  - destruct (device_by mab mba add mul HM o (t_data a) (t_layout a) (t_data b) (t_layout b) d lc alpha zero Ent) as (c' & E & [[L U] V]); auto using good_wf.
    { rewrite Ld. now apply covers_inside. } { apply contig_anchored. } { now rewrite Sc. }
    rewrite E. cbn [bind t_layout t_data]. rewrite Sc. split; [auto|]. split; [auto|]. split. { apply tensor_ok_good. split; [exact Gc|]. cbn [t_data t_layout]. rewrite L, Ld. now apply covers_inside. }
    split. { rewrite L, Ld. apply contig_addrs. }
    intros cx Vx. rewrite <- Sc in Vx. destruct (V cx Vx) as (ts & vs & z & v & CT & PR & Hz & R & HR).
    assert (J' : exists i, z = junk i). { unfold elem, peek in Hz. destruct (_ <? 0); [discriminate|]. apply nth_error_In in Hz. unfold d in Hz. apply in_map_iff in Hz as (i & Hi & _). eauto. }
    destruct J' as (i & ->). exists ts, vs, i, v. auto.
  - destruct (device_rank o mab mba mul add (t_data a) (t_layout a) (t_data b) (t_layout b) d lc alpha zero) as (e & E); auto. { now rewrite Sc. } rewrite E. cbn [bind]. now right. Qed.

Lemma l_matmul : forall (A B C : Type) k o (mab : A -> B -> C) (mba : B -> A -> C) (zero : C) add mul junk (a : tensor A) (b : tensor B) alpha,
  comm_semiring zero add mul -> (forall x y, mba y x = mab x y) -> tensor_ok a -> tensor_ok b -> anchored (t_layout a) -> anchored (t_layout b) ->
  match op_matmul k o mab mba mul add zero junk a b alpha with
  | Ok t => product_shape o (l_shape (t_layout a)) (l_shape (t_layout b)) (l_shape (t_layout t)) /\ same_batch_rank (l_shape (t_layout a)) (l_shape (t_layout b)) /\
      tensor_ok t /\ addrs o (t_layout t) = consecutive 0 (length (t_data t)) /\
      forall cx, valid (l_shape (t_layout t)) cx -> exists ts vs, contracts o (l_shape (t_layout a)) (l_shape (t_layout b)) cx ts /\
        products mab (t_data a) (t_layout a) (t_data b) (t_layout b) ts vs /\ elem (t_data t) (t_layout t) cx = Some (mul alpha (total zero add vs))
  | Err _ => (forall s, ~ product_shape o (l_shape (t_layout a)) (l_shape (t_layout b)) s) \/ ~ same_batch_rank (l_shape (t_layout a)) (l_shape (t_layout b))
  | Panic => False
  end.
Proof. intros A B C k o mab mba zero add mul junk a b alpha SR HM Ta Tb Aa Ab.
  pose proof (l_matmul_by A B C k o mab mba zero add mul junk a b alpha (fun z vs v => v = add (mul zero z) (mul alpha (total zero add vs))) (fun z vs => accum_total zero add mul SR alpha vs (mul zero z)) (fun z vs => accum_total' zero add mul SR alpha vs (mul zero z)) HM Ta Tb Aa Ab) as H.
  destruct (op_matmul k o mab mba mul add zero junk a b alpha) as [t|e|]; auto. destruct H as (H1 & H2 & H3 & H4 & H5). split; [auto|]. split; [auto|]. split; [auto|]. split; [auto|].
  intros cx V. destruct (H5 cx V) as (ts & vs & i & v & CT & PR & R & ->). exists ts, vs. split; [auto|]. split; [auto|]. rewrite R. f_equal. destruct SR as ((_ & UN & CM) & _ & _ & ZM). rewrite ZM. auto. Qed.

(** the kernels themselves *)
Lemma l_gemm : forall (A B C : Type) (mab : A -> B -> C) (zero : C) add mul a la b lb c lc M K N alpha beta, comm_semiring zero add mul ->
  l_shape la = [M; K] -> l_shape lb = [K; N] -> l_shape lc = [M; N] -> inside la (length a) -> inside lb (length b) -> inside lc (length c) -> injective lc ->
  exists c', gemm mab mul add c lc a la b lb alpha beta = Ok c' /\ is_product RowMajor mab zero add mul alpha beta a la b lb c lc c'.
Proof. intros A B C mab zero add mul a la b lb c lc M K N alpha beta SR Sa Sb Sc Ia Ib Ic Jc. now apply (rule_22 mab zero add mul SR a la b lb c lc alpha beta Ia Ib Ic Jc M K N). Qed.

Lemma l_gemv : forall (A B C : Type) (mab : A -> B -> C) (zero : C) add mul a la b lb c lc M K alpha beta, comm_semiring zero add mul ->
  l_shape la = [M; K] -> l_shape lb = [K] -> l_shape lc = [M] -> inside la (length a) -> inside lb (length b) -> inside lc (length c) -> injective lc ->
  exists c', gemv mab mul add c lc a la b lb alpha beta = Ok c' /\ is_product RowMajor mab zero add mul alpha beta a la b lb c lc c'.
Proof. intros A B C mab zero add mul a la b lb c lc M K alpha beta SR Sa Sb Sc Ia Ib Ic Jc.
  destruct (steps_run mab zero add mul a b alpha beta (fun _ _ : unit => true) (fun _ m k => addr la [m; k]) (fun _ k _ => addr lb [k]) (fun _ m _ => addr lc [m]) [tt] M K 1 c SR) as (c' & E & L & V & U).
  - intros [] []; tauto.
  - repeat constructor; auto.
  - intros x m n _ Hm Hn. apply Ic. rewrite Sc. now apply valid_tuple1.
  - intros x m k _ Hm Hk _. apply Ia. rewrite Sa. now apply valid_tuple2.
  - intros x k n _ _ Hk Hn. apply Ib. rewrite Sb. now apply valid_tuple1.
  - intros [] [] m n m' n' _ _ Hm Hn Hm' Hn' E. apply Jc in E; try (rewrite Sc; now apply valid_tuple1). injection E as ->. split; auto. split; auto. lia.
  - cbn [fold_res] in E. exists c'. split.
    + unfold gemv, extent. rewrite Sa, Sb, Sc. cbn [nth]. rewrite !Nat.eqb_refl. cbn [check bind]. destruct (fold_res (modify _ _) (gsteps M K 1) c) as [c1| |] eqn:E1; try discriminate. cbn [bind] in E. injection E as ->. rewrite <- E1.
      unfold gsteps. rewrite fold_res_flat_map. apply fold_res_ext. intros m c0 _. cbn [seq map app fold_res]. unfold scale_cell, modify at 1, gpos at 1 2, gdo at 1. cbn [fst snd].
      rewrite index_uncheck_addr. destruct (zget c0 (addr lc [m])) as [z| |]; cbn [bind]; auto. destruct (zset c0 (addr lc [m]) (mul beta z)) as [c2| |]; cbn [bind]; auto.
      rewrite fold_res_flat_map. apply fold_res_ext. intros k c3 _. cbn [fold_res]. rewrite accum_modify, (index_uncheck_addr la), (index_uncheck_addr lb).
      rewrite bind_id. reflexivity.
    + split.
      * split; auto. intros p Hp. apply U. intros x m n _ Hm Hn. apply Hp. rewrite Sc. now apply valid_tuple1.
      * intros cx Vc. rewrite Sc in Vc. apply valid_cons_inv in Vc as (m & r & -> & Hm & Vc). apply valid_nil in Vc as ->. destruct (V tt m 0%nat) as (z & vs & Hz & F & R); auto. { now left. }
        exists (map (fun k => ([m; k], [k])) (seq 0 K)), vs, z. rewrite Sa, Sb. split; [apply (ct_matvec RowMajor [] M K [] m)|]. split; [|auto].
        unfold products. clear - F. induction F as [|k v ks vs' H F IH]; cbn [map]; constructor; auto. Qed.

Lemma l_gevm : forall (A B C : Type) (mab : A -> B -> C) (zero : C) add mul a la b lb c lc K N alpha beta, comm_semiring zero add mul ->
  l_shape la = [K] -> l_shape lb = [K; N] -> l_shape lc = [N] -> inside la (length a) -> inside lb (length b) -> inside lc (length c) -> injective lc ->
  exists c', gevm mab mul add c lc a la b lb alpha beta = Ok c' /\ is_product RowMajor mab zero add mul alpha beta a la b lb c lc c'.
Proof. intros A B C mab zero add mul a la b lb c lc K N alpha beta SR Sa Sb Sc Ia Ib Ic Jc.
  destruct (steps_run (fun y x => mab x y) zero add mul b a alpha beta (fun _ _ : unit => true) (fun _ n k => addr lb [k; n]) (fun _ k _ => addr la [k]) (fun _ n _ => addr lc [n]) [tt] N K 1 c SR) as (c' & E & L & V & U).
  - intros [] []; tauto.
  - repeat constructor; auto.
  - intros x m n _ Hm Hn. apply Ic. rewrite Sc. now apply valid_tuple1.
  - intros x m k _ Hm Hk _. apply Ib. rewrite Sb. now apply valid_tuple2.
  - intros x k n _ _ Hk Hn. apply Ia. rewrite Sa. now apply valid_tuple1.
  - intros [] [] m n m' n' _ _ Hm Hn Hm' Hn' E. apply Jc in E; try (rewrite Sc; now apply valid_tuple1). injection E as ->. split; auto. split; auto. lia.
  - cbn [fold_res] in E. exists c'. split.
    + unfold gevm, extent. rewrite Sa, Sb, Sc. cbn [nth]. rewrite !Nat.eqb_refl. cbn [check bind]. destruct (fold_res (modify _ _) (gsteps N K 1) c) as [c1| |] eqn:E1; try discriminate. cbn [bind] in E. injection E as ->. rewrite <- E1.
      unfold gsteps. rewrite fold_res_flat_map. apply fold_res_ext. intros m c0 _. cbn [seq map app fold_res]. unfold scale_cell, modify at 1, gpos at 1 2, gdo at 1. cbn [fst snd].
      rewrite index_uncheck_addr. destruct (zget c0 (addr lc [m])) as [z| |]; cbn [bind]; auto. destruct (zset c0 (addr lc [m]) (mul beta z)) as [c2| |]; cbn [bind]; auto.
      rewrite fold_res_flat_map. apply fold_res_ext. intros k c3 _. cbn [fold_res]. rewrite accum_modify, (index_uncheck_addr la), (index_uncheck_addr lb). unfold modify, gpos, gdo. cbn [fst snd].
      rewrite bind_id. apply bind_ext. intro z0. f_equal. unfold ghead. apply zget_swap.
    + split.
      * split; auto. intros p Hp. apply U. intros x m n _ Hm Hn. apply Hp. rewrite Sc. now apply valid_tuple1.
      * intros cx Vc. rewrite Sc in Vc. apply valid_cons_inv in Vc as (m & r & -> & Hm & Vc). apply valid_nil in Vc as ->. destruct (V tt m 0%nat) as (z & vs & Hz & F & R); auto. { now left. }
        exists (map (fun k => ([k], [k; m])) (seq 0 K)), vs, z. rewrite Sa, Sb. split; [apply (ct_vecmat RowMajor [] K N [] m)|]. split; [|auto].
        unfold products. clear - F. induction F as [|k v ks vs' (x & y & H1 & H2 & ->) F IH]; cbn [map]; constructor; auto. exists y, x. auto. Qed.

Lemma l_inner_dot : forall (A B C : Type) (mab : A -> B -> C) (zero : C) add mul a la b lb c lc K alpha beta, comm_semiring zero add mul ->
  l_shape la = [K] -> l_shape lb = [K] -> l_shape lc = [] -> inside la (length a) -> inside lb (length b) -> inside lc (length c) -> l_offset lc = 0 ->
  exists c', inner_dot mab mul add c lc a la b lb alpha beta = Ok c' /\ is_product RowMajor mab zero add mul alpha beta a la b lb c lc c'.
Proof. intros A B C mab zero add mul a la b lb c lc K alpha beta SR Sa Sb Sc Ia Ib Ic O. now apply (rule_dot mab zero add mul SR a la b lb c lc alpha beta Ia Ib Ic K). Qed.

(** the parallel kernel, every schedule *)
Lemma in_row2 M N ix : In ix (row_major [M; N]) <-> exists i j, ix = [i; j] /\ (i < M)%nat /\ (j < N)%nat.
Proof. rewrite in_row_major. split.
  - intro V. apply valid_cons_inv in V as (i & r & -> & Hi & V). apply valid_cons_inv in V as (j & r' & -> & Hj & V). apply valid_nil in V as ->. eauto.
  - intros (i & j & -> & Hi & Hj). now apply valid_tuple2. Qed.
Lemma nodup_prod {S T} (l : list S) (m : list T) : NoDup l -> NoDup m -> NoDup (list_prod l m).
Proof. intros Hl Hm. induction l as [|x l IH]; cbn; [constructor|]. inversion Hl as [|? ? H1 H2]; subst. apply nodup_app; auto.
  - apply FinFun.Injective_map_NoDup; auto. intros y z E. congruence.
  - intros [s t] H H'. apply in_map_iff in H as (y & [= -> ->] & _). apply in_prod_iff in H' as [H' _]. contradiction. Qed.
Lemma total_from {C} (zero : C) add mul vs : comm_semiring zero add mul -> fold_left add vs zero = total zero add vs.
Proof. intro SR. rewrite (sum_total zero add mul SR). apply (add_zero zero add mul SR). Qed.

Lemma l_gemm_rayon_by : forall (A B C : Type) (mab : A -> B -> C) (zero : C) add mul a la b lb c lc M K N alpha beta r (Ent : C -> list C -> C -> Prop), (forall z vs, Ent z vs (add (mul z beta) (mul (fold_left add vs zero) alpha))) ->
  l_shape la = [M; K] -> l_shape lb = [K; N] -> l_shape lc = [M; N] -> inside la (length a) -> inside lb (length b) -> inside lc (length c) -> injective lc ->
  gemm_rayon mab mul add zero c lc a la b lb alpha beta r ->
  exists c', r = Ok c' /\ is_product_by RowMajor mab Ent a la b lb c lc c'.
Proof. intros A B C mab zero add mul a la b lb c lc M K N alpha beta r Ent HE Sa Sb Sc Ia Ib Ic Jc H. unfold gemm_rayon, extent in H. rewrite Sa, Sb, Sc in H. cbn [nth] in H. rewrite !Nat.eqb_refl in H. cbn [andb] in H. destruct H as (sg & P & ->).
  set (ixs := map (fun p : nat * nat => [fst p; snd p]) sg).
  set (h := fun ix z => let* s := fold_res (fun s p => let* x := zget a (index_uncheck la [nth 0 ix 0%nat; p]) in let* y := zget b (index_uncheck lb [p; nth 1 ix 0%nat]) in Ok (add s (mab x y))) (seq 0 K) zero in Ok (add (mul z beta) (mul s alpha))).
  assert (PI : Permutation ixs (row_major [M; N])).
  { apply NoDup_Permutation; [|apply (enum_nodup RowMajor)|].
    - unfold ixs. apply FinFun.Injective_map_NoDup. { intros [i j] [i' j']. cbn. congruence. } eapply Permutation_NoDup; [apply Permutation_sym, P|]. apply nodup_prod; apply seq_NoDup.
    - intro ix. rewrite in_row2. unfold ixs. rewrite in_map_iff. split.
      + intros ([i j] & <- & Hp). apply (Permutation_in _ P) in Hp. apply in_prod_iff in Hp as [H1 H2]. apply in_seq in H1, H2. exists i, j. cbn. split; auto. lia.
      + intros (i & j & -> & Hi & Hj). exists (i, j). split; auto. apply (Permutation_in _ (Permutation_sym P)). apply in_prod_iff. rewrite !in_seq. lia. }
  assert (G : forall i j, (i < M)%nat -> (j < N)%nat -> exists vs, products mab a la b lb (map (fun k => ([i; k], [k; j])) (seq 0 K)) vs /\
    fold_res (fun s p => let* x := zget a (index_uncheck la [i; p]) in let* y := zget b (index_uncheck lb [p; j]) in Ok (add s (mab x y))) (seq 0 K) zero = Ok (fold_left add vs zero)).
  { intros i j Hi Hj. assert (G : forall ks s, (forall k, In k ks -> (k < K)%nat) -> exists vs, products mab a la b lb (map (fun k => ([i; k], [k; j])) ks) vs /\
      fold_res (fun s p => let* x := zget a (index_uncheck la [i; p]) in let* y := zget b (index_uncheck lb [p; j]) in Ok (add s (mab x y))) ks s = Ok (fold_left add vs s)).
    { induction ks as [|k ks IH]; intros s Hk. { exists []. split; [constructor|reflexivity]. } assert (Hk' : (k < K)%nat) by (apply Hk; now left).
      destruct (elem_inside a la [i; k] Ia) as (u & Hu). { rewrite Sa. now apply valid_tuple2. } destruct (elem_inside b lb [k; j] Ib) as (w & Hw). { rewrite Sb. now apply valid_tuple2. }
      destruct (IH (add s (mab u w))) as (vs & Q & E). { intros; apply Hk; now right. } exists (mab u w :: vs). split. { constructor; auto. exists u, w. auto. }
      cbn [fold_res fold_left]. unfold elem in Hu, Hw. apply zget_peek in Hu, Hw. rewrite (index_uncheck_addr la), Hu. cbn [bind]. rewrite (index_uncheck_addr lb), Hw. cbn [bind]. exact E. }
    destruct (G (seq 0 K) zero) as (vs & Q & E). { intros k Hk. apply in_seq in Hk. lia. } exists vs. split; auto. }
  destruct (steps_modify c lc h ixs) as (c' & E & U & V); auto. { now rewrite Sc. }
  { intros ix x Vx. rewrite Sc in Vx. apply in_row_major in Vx. apply in_row2 in Vx as (i & j & -> & Hi & Hj). destruct (G i j Hi Hj) as (vs & _ & E). unfold h. cbn [nth]. rewrite E. cbn [bind]. eauto. }
  exists c'. split.
  - rewrite <- E. unfold ixs. rewrite fold_res_map. apply fold_res_ext. intros [i j] c0 _. unfold gemm_cell, modify, h. cbn [fst snd nth]. rewrite (index_uncheck_addr lc). unfold extent. rewrite Sa. cbn [nth]. apply bind_ext. intro z. now rewrite bind_assoc.
  - split; auto. intros cx Vx. destruct (V cx Vx) as (x & y & Hx & Hy & R). rewrite Sc in Vx. apply in_row_major in Vx. apply in_row2 in Vx as (i & j & -> & Hi & Hj). destruct (G i j Hi Hj) as (vs & Q & E'). unfold h in Hy. cbn [nth] in Hy. rewrite E' in Hy. cbn [bind] in Hy. injection Hy as <-.
    exists (map (fun k => ([i; k], [k; j])) (seq 0 K)), vs, x, (add (mul x beta) (mul (fold_left add vs zero) alpha)). rewrite Sa, Sb. split; [apply (ct_matmat RowMajor [] [] M K N [] i j)|]. split; [auto|]. split; [auto|]. split; [exact R|apply HE]. Qed.

Lemma l_gemm_rayon : forall (A B C : Type) (mab : A -> B -> C) (zero : C) add mul a la b lb c lc M K N alpha beta r, comm_semiring zero add mul ->
  l_shape la = [M; K] -> l_shape lb = [K; N] -> l_shape lc = [M; N] -> inside la (length a) -> inside lb (length b) -> inside lc (length c) -> injective lc ->
  gemm_rayon mab mul add zero c lc a la b lb alpha beta r ->
  exists c', r = Ok c' /\ is_product RowMajor mab zero add mul alpha beta a la b lb c lc c'.
Proof. intros A B C mab zero add mul a la b lb c lc M K N alpha beta r SR Sa Sb Sc Ia Ib Ic Jc H.
  destruct (l_gemm_rayon_by A B C mab zero add mul a la b lb c lc M K N alpha beta r (fun z vs v => v = add (mul beta z) (mul alpha (total zero add vs)))) as (c' & E & P); auto.
  { intros z vs. rewrite (total_from zero add mul) by auto. destruct SR as (_ & MC & _). now rewrite (MC z), (MC (total zero add vs)). }
  exists c'. split; [exact E|]. now apply product_by. Qed.

(** ** what does not hold *)
(** batch axes of different rank *)
Lemma l_matmul_rank_refuted : exists (a b : tensor Z), tensor_ok a /\ tensor_ok b /\ product_shape RowMajor (l_shape (t_layout a)) (l_shape (t_layout b)) [1; 1; 1; 1]%nat /\
  forall k junk, op_matmul k RowMajor Z.mul Z.mul Z.mul Z.add 0 junk a b 1 = Err InvalidLayout.
Proof. exists (mkTensor [2] (mkLayout [1; 1; 1]%nat [1; 1; 1] 0)), (mkTensor [3] (mkLayout [1; 1; 1; 1]%nat [1; 1; 1; 1] 0)). split; [concrete_tensor|]. split; [concrete_tensor|]. split.
  - apply (ps_matmat RowMajor [1%nat] [1%nat; 1%nat] [1%nat; 1%nat] 1 1 1). split; [reflexivity|]. intros k. cbn. destruct k as [|[|k]]; cbn; auto.
  - intros k junk. destruct k; reflexivity. Qed.
(** an output of another batch shape is accepted and only partly written *)
Lemma l_matmul_output_refuted : exists (a b c : tensor Z) c', tensor_ok a /\ tensor_ok b /\ tensor_ok c /\ injective (t_layout c) /\
  ~ product_shape RowMajor (l_shape (t_layout a)) (l_shape (t_layout b)) (l_shape (t_layout c)) /\
  op_mutc_matmul RowMajor Z.mul Z.mul Z.mul Z.add c a b 1 0 = Ok (mkTensor c' (t_layout c)) /\ c' = [10; 20; 7].
Proof. exists (mkTensor [10] (mkLayout [1]%nat [1] 0)), (mkTensor [1; 2] (mkLayout [2; 1; 1]%nat [1; 1; 1] 0)), (mkTensor [5; 6; 7] (mkLayout [3; 1]%nat [1; 1] 0)), [10; 20; 7].
  split; [concrete_tensor|]. split; [concrete_tensor|]. split; [concrete_tensor|]. split; [|split; [|split; reflexivity]].
  - intros ix jx V V' E. cbn [t_layout l_shape] in V, V'. repeat (apply valid_cons_inv in V as (? & ? & -> & ? & V)). repeat (apply valid_cons_inv in V' as (? & ? & -> & ? & V')). apply valid_nil in V, V'. subst. unfold addr in E. cbn [t_layout l_offset l_stride dot] in E. f_equal; [lia|]. f_equal. lia.
  - cbn [t_layout l_shape]. change [2; 1; 1]%nat with ([2]%nat ++ [1; 1]%nat). intro H. apply ps_1x in H as [_ H]. discriminate. Qed.
(** inner_dot writes the first cell of the storage whatever the layout of c says *)
Lemma l_inner_dot_refuted : exists (a b c : tensor Z) c', tensor_ok a /\ tensor_ok b /\ tensor_ok c /\ product_shape RowMajor (l_shape (t_layout a)) (l_shape (t_layout b)) (l_shape (t_layout c)) /\
  op_mutc_matmul RowMajor Z.mul Z.mul Z.mul Z.add c a b 1 0 = Ok (mkTensor c' (t_layout c)) /\
  elem c' (t_layout c) [] = elem (t_data c) (t_layout c) [] /\ elem c' (t_layout c) [] <> Some 12 /\ peek c' 0 = Some 12.
Proof. exists (mkTensor [3] (mkLayout [1]%nat [1] 0)), (mkTensor [4] (mkLayout [1]%nat [1] 0)), (mkTensor [5; 6] (mkLayout [] [] 1)), [12; 6].
  split; [concrete_tensor|]. split; [concrete_tensor|]. split; [concrete_tensor|]. split; [constructor|]. split; [reflexivity|]. split; [reflexivity|]. split; [discriminate|reflexivity]. Qed.
(** with a number that 0 does not annihilate (a NaN) the product depends on the uninitialised contents of the result *)
Definition nan_mul (x y : option Z) : option Z := match x, y with Some x, Some y => Some (x * y) | _, _ => None end.
Definition nan_add (x y : option Z) : option Z := match x, y with Some x, Some y => Some (x + y) | _, _ => None end.
Lemma l_matmul_junk_refuted : exists (a b : tensor (option Z)), tensor_ok a /\ tensor_ok b /\
  op_matmul Fixed RowMajor nan_mul nan_mul nan_mul nan_add (Some 0) (fun _ => Some 9) a b (Some 1) = Ok (mkTensor [Some 6] (mkLayout [1; 1]%nat [1; 1] 0)) /\
  op_matmul Fixed RowMajor nan_mul nan_mul nan_mul nan_add (Some 0) (fun _ => None) a b (Some 1) = Ok (mkTensor [None] (mkLayout [1; 1]%nat [1; 1] 0)).
Proof. exists (mkTensor [Some 2] (mkLayout [1; 1]%nat [1; 1] 0)), (mkTensor [Some 3] (mkLayout [1; 1]%nat [1; 1] 0)). split; [concrete_tensor|]. split; [concrete_tensor|]. split; reflexivity. Qed.
Lemma total_app2 {C} (zero : C) add mul xs ys : comm_semiring zero add mul -> add (total zero add xs) (total zero add ys) = total zero add (xs ++ ys).
Proof. intro SR. induction xs as [|x xs IH]; cbn [app]. { apply (add_zero zero add mul SR). } unfold total in *. cbn [fold_right]. rewrite <- IH. symmetry. apply (add_assoc zero add mul SR). Qed.
(** the sum that a way to split the range computes *)
Fixpoint tree_sum {C} (zero : C) (add : C -> C -> C) (t : split_tree) (vs : list C) : C :=
  match t with Leaf => fold_left add vs zero | Node n l r => add (tree_sum zero add l (firstn n vs)) (tree_sum zero add r (skipn n vs)) end.
Lemma par_fold_tree {C X} (zero : C) add (g : C -> X -> res C) (v : X -> C) t : forall xs, (forall s x, In x xs -> g s x = Ok (add s (v x))) -> par_fold zero add g t xs = Ok (tree_sum zero add t (map v xs)).
Proof. induction t as [|n l IHl r IHr]; intros xs G; cbn [par_fold tree_sum].
  - assert (H : forall s, fold_res g xs s = Ok (fold_left add (map v xs) s)). { induction xs as [|x xs IH]; intro s; cbn [fold_res map fold_left]; auto. rewrite G by now left. cbn [bind]. apply IH. intros; apply G; now right. }
    apply H.
  - rewrite IHl, IHr. 2:{ intros s x H. apply G. rewrite <- (firstn_skipn n). apply in_or_app. now right. } 2:{ intros s x H. apply G. rewrite <- (firstn_skipn n). apply in_or_app. now left. }
    cbn [bind]. now rewrite firstn_map, skipn_map. Qed.
Lemma tree_total {C} (zero : C) add mul t : comm_semiring zero add mul -> forall vs, tree_sum zero add t vs = total zero add vs.
Proof. intro SR. induction t as [|n l IHl r IHr]; intro vs; cbn [tree_sum]; [now apply (total_from zero add mul)|]. rewrite IHl, IHr, (total_app2 zero add mul) by auto. now rewrite firstn_skipn. Qed.
Lemma l_inner_dot_rayon_by : forall (A B C : Type) t (mab : A -> B -> C) (zero : C) add mul a la b lb c lc K alpha beta (Ent : C -> list C -> C -> Prop), (forall z vs, Ent z vs (add (mul (tree_sum zero add t vs) alpha) (mul z beta))) ->
  l_shape la = [K] -> l_shape lb = [K] -> l_shape lc = [] -> inside la (length a) -> inside lb (length b) -> inside lc (length c) ->
  exists c', inner_dot_rayon t mab mul add zero c lc a la b lb alpha beta = Ok c' /\ is_product_by RowMajor mab Ent a la b lb c lc c'.
Proof. intros A B C t mab zero add mul a la b lb c lc K alpha beta Ent HE Sa Sb Sc Ia Ib Ic. unfold inner_dot_rayon, extent. rewrite Sa, Sb. cbn [nth]. rewrite Nat.eqb_refl. cbn [check bind].
  assert (AC : addr lc [] = l_offset lc). { unfold addr. rewrite dot_nil_r. lia. }
  assert (VC : valid (l_shape lc) []) by (rewrite Sc; constructor). pose proof (Ic _ VC) as RC. rewrite AC in RC. destruct (proj1 (peek_inside c (l_offset lc)) RC) as (z & Hz). pose proof Hz as Hz'. apply zget_peek in Hz'.
  assert (EX : exists v : nat -> C, forall k, (k < K)%nat -> exists x y, elem a la [k] = Some x /\ elem b lb [k] = Some y /\ v k = mab x y).
  { exists (fun k => match elem a la [k], elem b lb [k] with Some x, Some y => mab x y | _, _ => zero end). intros k Hk.
    destruct (elem_inside a la [k] Ia) as (u & Hu). { rewrite Sa. now apply valid_tuple1. } destruct (elem_inside b lb [k] Ib) as (w & Hw). { rewrite Sb. now apply valid_tuple1. } rewrite Hu, Hw. eauto. }
  destruct EX as (v & HV). rewrite (par_fold_tree zero add _ v); auto.
  2:{ intros s k Hk. apply in_seq in Hk. destruct (HV k) as (x & y & Hx & Hy & ->); [lia|]. unfold elem in Hx, Hy. apply zget_peek in Hx, Hy. rewrite (index_uncheck_addr la), Hx. cbn [bind]. rewrite (index_uncheck_addr lb), Hy. reflexivity. }
  cbn [bind]. rewrite Hz'. cbn [bind]. set (r := add (mul (tree_sum zero add t (map v (seq 0 K))) alpha) (mul z beta)).
  destruct (zset_ok c (l_offset lc) r RC) as (c' & E' & L' & P' & Q'). exists c'. split; [exact E'|]. split.
  - split; auto. intros p Hp. apply Q'. intros ->. now apply (Hp [] VC).
  - intros cx V. rewrite Sc in V. apply valid_nil in V as ->. exists (map (fun k => ([k], [k])) (seq 0 K)), (map v (seq 0 K)), z, r. rewrite Sa, Sb. split; [constructor|]. split.
    + unfold products. assert (G : forall ks, (forall k, In k ks -> (k < K)%nat) -> Forall2 (fun t0 v0 => exists x y, elem a la (fst t0) = Some x /\ elem b lb (snd t0) = Some y /\ v0 = mab x y) (map (fun k => ([k], [k])) ks) (map v ks)).
      { induction ks as [|k ks IH]; intro H; cbn [map]; constructor; auto. { apply HV, H. now left. } apply IH. intros; apply H; now right. }
      apply G. intros k Hk. apply in_seq in Hk. lia.
    + unfold elem. rewrite AC. split; auto. split; auto. apply HE. Qed.
Lemma l_inner_dot_rayon : forall (A B C : Type) t (mab : A -> B -> C) (zero : C) add mul a la b lb c lc K alpha beta, comm_semiring zero add mul ->
  l_shape la = [K] -> l_shape lb = [K] -> l_shape lc = [] -> inside la (length a) -> inside lb (length b) -> inside lc (length c) ->
  exists c', inner_dot_rayon t mab mul add zero c lc a la b lb alpha beta = Ok c' /\ is_product RowMajor mab zero add mul alpha beta a la b lb c lc c'.
Proof. intros A B C t mab zero add mul a la b lb c lc K alpha beta SR Sa Sb Sc Ia Ib Ic.
  destruct (l_inner_dot_rayon_by A B C t mab zero add mul a la b lb c lc K alpha beta (fun z vs v => v = add (mul beta z) (mul alpha (total zero add vs)))) as (c' & E & P); auto.
  { intros z vs. rewrite (tree_total zero add mul) by auto. destruct SR as ((_ & CM & _) & MC & _). rewrite (MC z), (MC _ alpha). apply CM. }
  exists c'. split; [exact E|]. now apply product_by. Qed.
