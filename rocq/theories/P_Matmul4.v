From Verif Require Import Base Spec Spec_Matmul P_Index P_List M_Layout P_Layout P_Bounds P_Contig P_Strides M_Indexer P_Indexer M_Broadcast P_Broadcast Q_Broadcast M_Rearr P_Rearr P_BinOp M_Iter P_Iter M_Kernel P_Kernel Q_Kernel M_Tensor P_Tensor Q_Tensor Q_Copy M_Matmul P_Matmul P_Matmul2 P_Matmul3.
Local Open Scope Z_scope.

(** ** the shape rules *)
Lemma ps_0l o sb sc : ~ product_shape o [] sb sc.
Proof. intro H. inversion H as [| |B M K H1|BA BB BC M K N Br H1]; destruct o; cbn in *; try discriminate; apply app_eq_nil in H1 as [_ H1]; discriminate. Qed.
Lemma ps_0r o sa sc : ~ product_shape o sa [] sc.
Proof. intro H. inversion H as [|B K N H1 H2| |BA BB BC M K N Br H1 H2]; destruct o; cbn in *; try discriminate; apply app_eq_nil in H2 as [_ H2]; discriminate. Qed.
Lemma two_not_one {T} (B : list T) x y z : B ++ [x; y] <> [z].
Proof. intro H. apply (f_equal (@length T)) in H. rewrite app_length in H. cbn in H. lia. Qed.
Lemma ps_11 x y sc : product_shape RowMajor [x] [y] sc -> x = y /\ sc = [].
Proof. intro H. inversion H as [K E1 E2 E3|B K N E1 E2 E3|B M K E1 E2 E3|BA BB BC M K N Br E1 E2 E3]; subst; cbn [mat] in *; auto.
  - now apply two_not_one in E2. - now apply two_not_one in E1. - now apply two_not_one in E2. Qed.
Lemma ps_1x x B K N sc : product_shape RowMajor [x] (B ++ [K; N]) sc -> x = K /\ sc = B ++ [N].
Proof. intro H. inversion H as [K' E1 E2 E3|B' K' N' E1 E2 E3|B' M' K' E1 E2 E3|BA BB BC M' K' N' Br E1 E2 E3]; subst; cbn [mat vec] in *.
  - symmetry in E2. now apply two_not_one in E2. - apply app2_inj in E2 as (-> & -> & ->). auto. - now apply two_not_one in E1. - now apply two_not_one in E1. Qed.
Lemma ps_x1 x B M K sc : product_shape RowMajor (B ++ [M; K]) [x] sc -> x = K /\ sc = B ++ [M].
Proof. intro H. inversion H as [K' E1 E2 E3|B' K' N' E1 E2 E3|B' M' K' E1 E2 E3|BA BB BC M' K' N' Br E1 E2 E3]; subst; cbn [mat vec] in *.
  - symmetry in E1. now apply two_not_one in E1. - now apply two_not_one in E2. - apply app2_inj in E1 as (-> & -> & ->). auto. - now apply two_not_one in E2. Qed.
Lemma ps_xx BA M K BB K' N sc : product_shape RowMajor (BA ++ [M; K]) (BB ++ [K'; N]) sc -> K = K' /\ exists BC, broadcasts RowMajor BA BB BC /\ sc = BC ++ [M; N].
Proof. intro H. inversion H as [K1 E1 E2 E3|B1 K1 N1 E1 E2 E3|B1 M1 K1 E1 E2 E3|BA1 BB1 BC1 M1 K1 N1 Br E1 E2 E3]; subst; cbn [mat vec] in *.
  - symmetry in E1. now apply two_not_one in E1. - symmetry in E1. now apply two_not_one in E1. - symmetry in E2. now apply two_not_one in E2.
  - apply app2_inj in E1 as (-> & -> & ->). apply app2_inj in E2 as (-> & -> & ->). eauto. Qed.
Lemma rank_cases (s : list nat) : s = [] \/ (exists x, s = [x]) \/ exists B x y, s = B ++ [x; y].
Proof. destruct s as [|z s] using rev_ind; auto. right. clear IHs. destruct s as [|y s] using rev_ind; [left; exists z; reflexivity|]. right. exists s, y, z. now rewrite <- app_assoc. Qed.

Lemma rev_mat o B i j : rev (mat o B i j) = mat (match o with RowMajor => ColMajor | ColMajor => RowMajor end) (rev B) j i.
Proof. destruct o; cbn [mat]; [now rewrite rev_app_distr|]. cbn [rev]. now rewrite <- app_assoc. Qed.
Lemma rev_vec o B i : rev (vec o B i) = vec (match o with RowMajor => ColMajor | ColMajor => RowMajor end) (rev B) i.
Proof. destruct o; cbn [vec]; [now rewrite rev_app_distr|]. reflexivity. Qed.
Lemma ps_col_row sa sb sc : product_shape ColMajor sa sb sc -> product_shape RowMajor (rev sb) (rev sa) (rev sc).
Proof. intro H. destruct H as [K|B K N|B M K|BA BB BC M K N Br]; rewrite ?rev_mat, ?rev_vec.
  - apply (ps_dot RowMajor). - apply (ps_matvec RowMajor). - apply (ps_vecmat RowMajor). - apply (ps_matmat RowMajor). now apply broadcasts_comm, broadcasts_col. Qed.
Lemma ps_row_col sa sb sc : product_shape RowMajor (rev sb) (rev sa) (rev sc) -> product_shape ColMajor sa sb sc.
Proof. intro H. rewrite <- (rev_involutive sa), <- (rev_involutive sb), <- (rev_involutive sc). revert H. generalize (rev sa) (rev sb) (rev sc). intros a b c H.
  destruct H as [K|B K N|B M K|BA BB BC M K N Br]; rewrite ?rev_mat, ?rev_vec.
  - apply (ps_dot ColMajor). - apply (ps_matvec ColMajor). - apply (ps_vecmat ColMajor). - apply (ps_matmat ColMajor). apply broadcasts_comm, broadcasts_col. now rewrite !rev_involutive. Qed.

Lemma product_shape_fun : forall o sa sb s s', product_shape o sa sb s -> product_shape o sa sb s' -> s = s'.
Proof. assert (R : forall sa sb s s', product_shape RowMajor sa sb s -> product_shape RowMajor sa sb s' -> s = s').
  { intros sa sb s s' H H'. destruct H as [K|B K N|B M K|BA BB BC M K N Br]; cbn [mat vec] in *.
    - apply ps_11 in H' as [_ ->]. auto. - apply ps_1x in H' as [_ ->]. auto. - apply ps_x1 in H' as [_ ->]. auto. - apply ps_xx in H' as (_ & BC' & Br' & ->). f_equal. eapply broadcasts_fun; eauto. }
  intros [|] sa sb s s' H H'; [eapply R; eauto|]. rewrite <- (rev_involutive s), <- (rev_involutive s'). f_equal. apply ps_col_row in H, H'. eapply R; eauto. Qed.

Lemma same_shape_eq a b : same_shape a b = true <-> a = b.
Proof. unfold same_shape. destruct (list_eq_dec Nat.eq_dec a b); split; auto; discriminate. Qed.
Lemma head_wf l B T : wf l -> l_shape l = B ++ T -> length (l_stride (head_of l (length B))) = length B.
Proof. intros [L _] S. cbn [head_of l_stride]. rewrite firstn_length, L, S, app_length. lia. Qed.

(** the answer of layout_matmul *)
Definition row_answer (la lb : layout) (r : res matmul_config) : Prop :=
  match r with
  | Ok cfg => exists s, product_shape RowMajor (l_shape la) (l_shape lb) s /\ mm_lc cfg = new_c_contig Dyn s 0
  | Err _ => forall s, ~ product_shape RowMajor (l_shape la) (l_shape lb) s
  | Panic => False
  end.
Lemma contig_split s B T (n : Z) : s = B ++ T -> n = Z.of_nat (length T) -> 0 < n -> exists q, dim_split_at (new_c_contig Dyn s 0) (- n) = Ok q.
Proof. intros -> E H. eexists. apply (split_tail _ B T); auto. Qed.
Ltac gosplit H := let q := fresh "q" in let E := fresh "E" in destruct H as (q & E); change (- (1)) with (-1) in E; change (- (2)) with (-2) in E; rewrite E; cbn [bind].

Lemma layout_row_ok la lb : wf la -> wf lb -> nonneg la -> nonneg lb -> anchored la -> anchored lb -> row_answer la lb (layout_matmul_row la lb).
Proof. intros Wa Wb Na Nb Aa Ab. unfold row_answer. destruct (rank_cases (l_shape la)) as [Sa|[[x Sa]|(BA & M & K & Sa)]].
  { unfold layout_matmul_row, ndim. rewrite Sa. cbn [length]. intros s. apply ps_0l. }
  - destruct (rank_cases (l_shape lb)) as [Sb|[[y Sb]|(BB & K' & N & Sb)]].
    + unfold layout_matmul_row, ndim. rewrite Sa, Sb. cbn [length]. intros s. apply ps_0r.
    + unfold layout_matmul_row, ndim. rewrite Sa, Sb. cbn [length]. destruct (same_shape [x] [y]) eqn:E; cbn [check bind].
      * apply same_shape_eq in E. injection E as ->. exists []. split; [constructor|reflexivity].
      * intros s H. apply ps_11 in H as [-> _]. assert (same_shape [y] [y] = true) by now apply same_shape_eq. congruence.
    + assert (nb : ndim lb = S (S (length BB))) by (unfold ndim; rewrite Sb, app_length; cbn; lia). pose proof (split_tail lb BB [K'; N] 2 Sb eq_refl ltac:(lia)) as Kb. change (- (2)) with (-2) in *.
      assert (E : layout_matmul_row la lb = let* _ := check (x =? K')%nat InvalidLayout in let lc := new_c_contig Dyn (BB ++ [N]) 0 in let* q := dim_split_at lc (-1) in Ok (mkConfig GEVM lc None (Some (head_of lb (length BB))) (Some (fst q)) la (tail_of lb (length BB)) (snd q))).
      { unfold layout_matmul_row. rewrite nb. unfold ndim, extent. rewrite Sa, Kb. cbn [length nth bind]. rewrite (tail_shape _ _ _ Sb), (head_shape _ _ _ Sb). reflexivity. }
      rewrite E, Sa, Sb. destruct (x =? K')%nat eqn:EK; cbn [check bind].
      * apply Nat.eqb_eq in EK as ->. cbv zeta. gosplit (contig_split (BB ++ [N]) BB [N] 1 eq_refl eq_refl ltac:(lia)). exists (BB ++ [N]). split; [apply (ps_vecmat RowMajor)|reflexivity].
      * intros s H. apply ps_1x in H as [-> _]. rewrite Nat.eqb_refl in EK. discriminate.
  - assert (na : ndim la = S (S (length BA))) by (unfold ndim; rewrite Sa, app_length; cbn; lia). pose proof (split_tail la BA [M; K] 2 Sa eq_refl ltac:(lia)) as Ka. change (- (2)) with (-2) in *.
    destruct (rank_cases (l_shape lb)) as [Sb|[[y Sb]|(BB & K' & N & Sb)]].
    + unfold layout_matmul_row. rewrite na. unfold ndim. rewrite Sb. cbn [length]. destruct (length BA); intros s; apply ps_0r.
    + assert (E : layout_matmul_row la lb = let* _ := check (y =? K)%nat InvalidLayout in let lc := new_c_contig Dyn (BA ++ [M]) 0 in let* q := dim_split_at lc (-1) in Ok (mkConfig GEMV lc (Some (head_of la (length BA))) None (Some (fst q)) (tail_of la (length BA)) lb (snd q))).
      { unfold layout_matmul_row. rewrite na. unfold ndim, extent. rewrite Sb, Ka. pose proof (tail_shape _ _ _ Sa) as T. pose proof (head_shape _ _ _ Sa) as Hd. destruct (length BA); cbn [length nth bind]; rewrite T, Hd; reflexivity. }
      rewrite E, Sa, Sb. destruct (y =? K)%nat eqn:EK; cbn [check bind].
      * apply Nat.eqb_eq in EK as ->. cbv zeta. gosplit (contig_split (BA ++ [M]) BA [M] 1 eq_refl eq_refl ltac:(lia)). exists (BA ++ [M]). split; [apply (ps_matvec RowMajor)|reflexivity].
      * intros s H. apply ps_x1 in H as [-> _]. rewrite Nat.eqb_refl in EK. discriminate.
    + assert (nb : ndim lb = S (S (length BB))) by (unfold ndim; rewrite Sb, app_length; cbn; lia). pose proof (split_tail lb BB [K'; N] 2 Sb eq_refl ltac:(lia)) as Kb. change (- (2)) with (-2) in *.
      pose proof (tail_shape _ _ _ Sa) as Ta. pose proof (head_shape _ _ _ Sa) as Ha. pose proof (tail_shape _ _ _ Sb) as Tb. pose proof (head_shape _ _ _ Sb) as Hb.
      assert (NO : (K =? K')%nat = false -> forall s, ~ product_shape RowMajor (BA ++ [M; K]) (BB ++ [K'; N]) s). { intros EK s H. apply ps_xx in H as [-> _]. rewrite Nat.eqb_refl in EK. discriminate. }
      assert (YES : forall BC, broadcasts RowMajor BA BB BC -> (K =? K')%nat = true -> product_shape RowMajor (BA ++ [M; K]) (BB ++ [K'; N]) (BC ++ [M; N])). { intros BC Br EK. apply Nat.eqb_eq in EK as ->. now apply (ps_matmat RowMajor). }
      destruct BA as [|da BA]; destruct BB as [|db BB]; cbn [length] in *.
      * unfold layout_matmul_row. rewrite na, nb. unfold extent. rewrite Sa, Sb. cbn [app nth]. cbn [app] in YES, NO. destruct (K =? K')%nat eqn:EK; cbn [check bind]; auto. exists [M; N]. split; [|reflexivity]. apply (YES []); auto. apply broadcasts_nil.
      * unfold layout_matmul_row. rewrite na, nb. rewrite Kb. cbn [bind]. unfold extent. rewrite Sa, Sb, Tb, Hb. change ([] ++ [M; K]) with [M; K]. change ([] ++ [M; K]) with [M; K] in YES, NO. cbn [nth]. destruct (K =? K')%nat eqn:EK; cbn [check bind]; auto.
        gosplit (contig_split ((db :: BB) ++ [M; N]) (db :: BB) [M; N] 2 eq_refl eq_refl ltac:(lia)). exists ((db :: BB) ++ [M; N]). split; [|reflexivity]. apply YES; auto. apply broadcasts_nil.
      * unfold layout_matmul_row. rewrite na, nb. rewrite Ka. cbn [bind]. unfold extent. rewrite Sa, Sb, Ta, Ha. change ([] ++ [K'; N]) with [K'; N]. change ([] ++ [K'; N]) with [K'; N] in YES, NO. cbn [nth]. destruct (K =? K')%nat eqn:EK; cbn [check bind]; auto.
        gosplit (contig_split ((da :: BA) ++ [M; N]) (da :: BA) [M; N] 2 eq_refl eq_refl ltac:(lia)). exists ((da :: BA) ++ [M; N]). split; [|reflexivity]. apply (YES (da :: BA)); auto. apply broadcasts_comm, broadcasts_nil.
      * unfold layout_matmul_row. rewrite na, nb, Ka. cbn [bind]. rewrite Kb. cbn [bind]. unfold extent. rewrite Sa, Sb, Ta, Tb. cbn [nth]. destruct (K =? K')%nat eqn:EK; cbn [check bind]; auto.
        destruct (head_safe la (da :: BA) _ Wa Na Aa Sa) as (Wra & Nra). destruct (head_safe lb (db :: BB) _ Wb Nb Ab Sb) as (Wrb & Nrb).
        pose proof (l_broadcast_layout RowMajor _ _ Wra Wrb) as BL. cbn [length] in BL. destruct (broadcast_layout (head_of la (S (length BA))) (head_of lb (S (length BB))) RowMajor) as [[r1 r2]|e|]; cbn [bind fst snd].
        -- destruct BL as (BC & Br & -> & _). rewrite Ha, Hb in Br. gosplit (contig_split (BC ++ [M; N]) BC [M; N] 2 eq_refl eq_refl ltac:(lia)). exists (BC ++ [M; N]). split; [|reflexivity]. apply YES; auto.
        -- intros s H. apply ps_xx in H as (_ & BC & Br & _). rewrite Ha, Hb in BL. now apply (BL BC).
        -- exact BL. Qed.

(** ** column-major *)
Lemma clip_length s ix : length (clip s ix) = Nat.min (length s) (length ix).
Proof. unfold clip. now rewrite map_length, combine_length. Qed.
Lemma source_length o s ix : (length s <= length ix)%nat -> length (source_index o s ix) = length s.
Proof. intro H. unfold source_index. rewrite clip_length. destruct o; [rewrite skipn_length|rewrite firstn_length]; lia. Qed.
Definition turn (t : list nat * list nat) : list nat * list nat := (rev (snd t), rev (fst t)).

Lemma mat_length o B i j : length (mat o B i j) = S (S (length B)).
Proof. destruct o; cbn [mat length]; auto. rewrite app_length. cbn. lia. Qed.
Lemma vec_length o B i : length (vec o B i) = S (length B).
Proof. destruct o; cbn [vec length]; auto. rewrite app_length. cbn. lia. Qed.

Lemma contracts_lengths sb sa sc cx ts : product_shape RowMajor sb sa sc -> length sc = length cx -> contracts RowMajor sb sa cx ts -> Forall (fun t => length (fst t) = length sb /\ length (snd t) = length sa) ts.
Proof. intros PS L CT. destruct CT as [K|B K N bx n|B M K bx m|BA BB M K N bx m n]; apply Forall_forall; intros t Ht; apply in_map_iff in Ht as (k & <- & _); cbn [fst snd]; rewrite ?mat_length; auto.
  - cbn [mat] in PS. apply ps_1x in PS as [_ ->]. rewrite vec_length, app_length in L. cbn in *. lia.
  - cbn [mat] in PS. apply ps_x1 in PS as [_ ->]. rewrite vec_length, app_length in L. cbn in *. lia.
  - cbn [mat] in PS. apply ps_xx in PS as (_ & BC & [LB _] & ->). rewrite mat_length, app_length in L. cbn [length] in L. rewrite !source_length by lia. lia. Qed.
Lemma contracts_turn sb sa sc cx ts : product_shape RowMajor sb sa sc -> length sc = length cx -> contracts RowMajor sb sa cx ts -> contracts ColMajor (rev sa) (rev sb) (rev cx) (map turn ts).
Proof. intros PS L CT. destruct CT as [K|B K N bx n|B M K bx m|BA BB M K N bx m n]; rewrite map_map; unfold turn; cbn [fst snd].
  - apply (ct_dot ColMajor).
  - rewrite rev_mat, rev_vec. erewrite map_ext; [apply (ct_matvec ColMajor)|]. intro k. cbn beta. now rewrite rev_mat.
  - rewrite rev_mat, rev_vec. erewrite map_ext; [apply (ct_vecmat ColMajor)|]. intro k. cbn beta. now rewrite rev_mat.
  - cbn [mat] in PS. apply ps_xx in PS as (_ & BC & [LB _] & ->). rewrite mat_length, app_length in L. cbn [length] in L. rewrite !rev_mat.
    erewrite map_ext; [apply (ct_matmat ColMajor)|]. intro k. cbn beta. rewrite !rev_mat. rewrite !source_index_col by (rewrite !rev_length; lia). now rewrite !rev_involutive. Qed.

Lemma reverse_addr' l ix : length (l_stride l) = length ix -> addr (reverse_axes l) ix = addr l (rev ix).
Proof. intro H. rewrite <- (reverse_addr l (rev ix)) by now rewrite rev_length. now rewrite rev_involutive. Qed.
Lemma rev_anchored l : anchored l -> anchored (reverse_axes l).
Proof. intros H E. cbn [reverse_axes l_shape l_offset l_stride] in *. rewrite size_rev in E. destruct (H E) as (O & F). split; auto. apply Forall_rev, F. Qed.
Lemma rev_inside l n : wf l -> inside l n -> inside (reverse_axes l) n.
Proof. intros [L _] I ix V. pose proof (valid_length _ _ V) as LV. cbn [reverse_axes l_shape] in V, LV. rewrite rev_length in LV. apply valid_rev in V. rewrite rev_involutive in V. rewrite reverse_addr' by lia. now apply I. Qed.
Lemma rev_injective l : wf l -> injective l -> injective (reverse_axes l).
Proof. intros [L _] J ix jx V V' E. pose proof (valid_length _ _ V) as LV. pose proof (valid_length _ _ V') as LV'. cbn [reverse_axes l_shape] in *. rewrite rev_length in *. apply valid_rev in V, V'. rewrite rev_involutive in V, V'.
  rewrite !reverse_addr' in E by lia. apply J in E; auto. rewrite <- (rev_involutive ix), <- (rev_involutive jx). congruence. Qed.

Lemma product_turn_by {A B C} (mab : A -> B -> C) (mba : B -> A -> C) Ent a la b lb (c : list C) lc c' : (forall x y, mba y x = mab x y) -> wf la -> wf lb -> wf lc -> product_shape ColMajor (l_shape la) (l_shape lb) (l_shape lc) ->
  is_product_by RowMajor mba Ent b (reverse_axes lb) a (reverse_axes la) c (reverse_axes lc) c' -> is_product_by ColMajor mab Ent a la b lb c lc c'.
Proof. intros HM [La _] [Lb _] [Lc _] PS [[L U] H]. split.
  - split; auto. intros p Hp. apply U. intros ix V. pose proof (valid_length _ _ V) as LV. cbn [reverse_axes l_shape] in V, LV. rewrite rev_length in LV. apply valid_rev in V. rewrite rev_involutive in V. rewrite reverse_addr' by lia. now apply Hp.
  - intros cx V. pose proof (valid_length _ _ V) as LV. destruct (H (rev cx)) as (ts & vs & z & v & CT & P & Hz & R & HR). { cbn [reverse_axes l_shape]. now apply valid_rev. } cbn [reverse_axes l_shape] in CT.
    apply ps_col_row in PS. assert (LL : length (rev (l_shape lc)) = length (rev cx)) by (rewrite !rev_length; lia).
    pose proof (contracts_lengths _ _ _ _ _ PS LL CT) as CL. apply (contracts_turn _ _ _ _ _ PS LL) in CT. rewrite !rev_involutive in CT. exists (map turn ts), vs, z, v. split; [auto|]. split.
    + clear - P CL La Lb HM. rewrite !rev_length in CL. unfold products in *. induction P as [|t v ts vs (x & y & Hx & Hy & ->) P IH]; cbn [map]; constructor.
      * inversion CL as [|? ? [L1 L2] _]; subst. unfold turn. cbn [fst snd]. exists y, x. unfold elem in *. rewrite reverse_addr' in Hx, Hy by lia. auto.
      * apply IH. now inversion CL.
    + unfold elem in *. rewrite reverse_addr' in Hz, R by (rewrite rev_length; lia). rewrite rev_involutive in Hz, R. auto. Qed.
Lemma product_turn {A B C} (mab : A -> B -> C) (mba : B -> A -> C) zero add mul alpha beta a la b lb (c : list C) lc c' : (forall x y, mba y x = mab x y) -> wf la -> wf lb -> wf lc -> product_shape ColMajor (l_shape la) (l_shape lb) (l_shape lc) ->
  is_product RowMajor mba zero add mul alpha beta b (reverse_axes lb) a (reverse_axes la) c (reverse_axes lc) c' -> is_product ColMajor mab zero add mul alpha beta a la b lb c lc c'.
Proof. intros HM Wa Wb Wc PS [U H]. apply product_by, (product_turn_by mab mba); auto. split; [exact U|]. intros cx V. destruct (H cx V) as (ts & vs & z & H1 & H2 & H3 & H4). exists ts, vs, z. eexists. eauto. Qed.

(** ** layout_matmul, every dimension type and order *)
Lemma ps_22 o M K K' N s : product_shape o [M; K] [K'; N] s <-> K = K' /\ s = [M; N].
Proof. split.
  - intro H. destruct o.
    + change [M; K] with ([] ++ [M; K]) in H. change [K'; N] with ([] ++ [K'; N]) in H. apply ps_xx in H as (-> & BC & [L _] & ->). destruct BC; cbn in L; try lia. auto.
    + apply ps_col_row in H. cbn [rev app] in H. change [K; M] with ([] ++ [K; M]) in H. change [N; K'] with ([] ++ [N; K']) in H. apply ps_xx in H as (-> & BC & [L _] & E). destruct BC; cbn in L; try lia.
      split; auto. rewrite <- (rev_involutive s), E. reflexivity.
  - intros [-> ->]. destruct o; [apply (ps_matmat RowMajor [] [] [])|apply (ps_matmat ColMajor [] [] [])]; apply broadcasts_nil. Qed.
Lemma ps_11' o x y s : product_shape o [x] [y] s <-> x = y /\ s = [].
Proof. split.
  - intro H. destruct o; [now apply ps_11|]. apply ps_col_row in H. cbn [rev app] in H. apply ps_11 in H as [-> E]. split; auto. rewrite <- (rev_involutive s), E. reflexivity.
  - intros [-> ->]. constructor. Qed.
Lemma reverse_c_contig k s : reverse_axes (new_c_contig k s 0) = new_f_contig k (rev s) 0.
Proof. unfold new_c_contig, reverse_axes, new_f_contig. cbn [l_shape l_stride l_offset]. now rewrite stride_c_rev, rev_involutive. Qed.

Lemma layout_dyn_ok o la lb : wf la -> wf lb -> nonneg la -> nonneg lb -> anchored la -> anchored lb ->
  match layout_matmul_dyn la lb o with
  | Ok cfg => exists s, product_shape o (l_shape la) (l_shape lb) s /\ mm_lc cfg = new_contig Dyn s 0 o
  | Err _ => forall s, ~ product_shape o (l_shape la) (l_shape lb) s
  | Panic => False
  end.
Proof. intros Wa Wb Na Nb Aa Ab. destruct o; cbn [layout_matmul_dyn]. { exact (layout_row_ok la lb Wa Wb Na Nb Aa Ab). }
  unfold layout_matmul_col. destruct (Nat.eqb_spec (ndim la) 0) as [Ea|Ea].
  { cbn [orb]. unfold ndim in Ea. apply length_zero_iff_nil in Ea. rewrite Ea. intro s. apply ps_0l. }
  destruct (Nat.eqb_spec (ndim lb) 0) as [Eb|Eb].
  { cbn [orb]. unfold ndim in Eb. apply length_zero_iff_nil in Eb. rewrite Eb. intro s. apply ps_0r. }
  cbn [orb]. pose proof (layout_row_ok (reverse_axes lb) (reverse_axes la) (reverse_wf _ Wb) (reverse_wf _ Wa)) as H. unfold row_answer in H. cbn [reverse_axes l_shape] in H.
  assert (N : forall l, wf l -> nonneg l -> nonneg (reverse_axes l)). { intros l [L _] Hn ix V. pose proof (valid_length _ _ V) as LV. cbn [reverse_axes l_shape] in V, LV. rewrite rev_length in LV. apply valid_rev in V. rewrite rev_involutive in V. rewrite reverse_addr' by lia. now apply Hn. }
  specialize (H (N _ Wb Nb) (N _ Wa Na) (rev_anchored _ Ab) (rev_anchored _ Aa)).
  destruct (layout_matmul_row (reverse_axes lb) (reverse_axes la)) as [cfg|e|]; cbn [bind]; [|intros s Hs; apply ps_col_row in Hs; now apply (H (rev s))|auto].
  destruct H as (s & PS & E). exists (rev s). split. { apply ps_row_col. now rewrite rev_involutive. } cbn [mm_lc]. rewrite E. apply reverse_c_contig. Qed.

Lemma layout_ok k o la lb : wf la -> wf lb -> nonneg la -> nonneg lb -> anchored la -> anchored lb ->
  match layout_matmul k la lb o with
  | Ok cfg => exists k' s, product_shape o (l_shape la) (l_shape lb) s /\ mm_lc cfg = new_contig k' s 0 o
  | Err _ => forall s, ~ product_shape o (l_shape la) (l_shape lb) s
  | Panic => False
  end.
Proof. intros Wa Wb Na Nb Aa Ab. pose proof (layout_dyn_ok o la lb Wa Wb Na Nb Aa Ab) as H.
  assert (D : match layout_matmul_dyn la lb o with
  | Ok cfg => exists k' s, product_shape o (l_shape la) (l_shape lb) s /\ mm_lc cfg = new_contig k' s 0 o
  | Err _ => forall s, ~ product_shape o (l_shape la) (l_shape lb) s
  | Panic => False
  end). { destruct (layout_matmul_dyn la lb o); auto. destruct H as (s & H). exists Dyn, s. auto. }
  clear H. unfold layout_matmul. destruct k; auto. destruct (ndim la) as [|[|[|]]] eqn:E1; auto; destruct (ndim lb) as [|[|[|]]] eqn:E2; auto; clear D.
  - unfold ndim in *. destruct (l_shape la) as [|x [|]]; try discriminate. destruct (l_shape lb) as [|y [|]]; try discriminate. destruct (same_shape [x] [y]) eqn:ES; cbn [check bind].
    + apply same_shape_eq in ES. injection ES as ->. exists Dyn, []. split; [constructor|]. cbn [mm_lc]. destruct o; reflexivity.
    + intros s H. apply ps_11' in H as [-> _]. assert (same_shape [y] [y] = true) by now apply same_shape_eq. congruence.
  - unfold ndim, extent in *. destruct (l_shape la) as [|M [|K [|]]]; try discriminate. destruct (l_shape lb) as [|K' [|N [|]]]; try discriminate. cbn [nth]. destruct (K =? K')%nat eqn:EK; cbn [check bind].
    + exists Fixed, [M; N]. split; [|reflexivity]. apply ps_22. apply Nat.eqb_eq in EK. auto.
    + intros s H. apply ps_22 in H as [-> _]. rewrite Nat.eqb_refl in EK. discriminate. Qed.

(** ** the device's product *)
Section Device.
  Context {A B C : Type} (mab : A -> B -> C) (mba : B -> A -> C) (zero : C) (add mul : C -> C -> C) (SR : comm_semiring zero add mul) (HM : forall x y, mba y x = mab x y).
  Lemma device_by o a la b lb c lc alpha beta (Ent : C -> list C -> C -> Prop) : (forall z vs, Ent z vs (fold_left (fun v p => add (mul alpha p) v) vs (mul beta z))) -> (forall z vs, Ent z vs (fold_left (fun v p => add v (mul alpha p)) vs (mul beta z))) -> wf la -> wf lb -> wf lc -> inside la (length a) -> inside lb (length b) -> inside lc (length c) -> injective lc -> anchored la -> anchored lb -> anchored lc ->
    product_shape o (l_shape la) (l_shape lb) (l_shape lc) -> same_batch_rank (l_shape la) (l_shape lb) -> (ndim lc = 0%nat -> l_offset lc = 0) ->
    exists c', device_matmul o mab mba mul add c lc a la b lb alpha beta = Ok c' /\ is_product_by o mab Ent a la b lb c lc c'.
  Proof. intros HE HE' Wa Wb Wc Ia Ib Ic Jc Aa Ab Ac PS SB O. destruct o; cbn [device_matmul].
    - now apply naive_by.
    - destruct (naive_by mba add mul b (reverse_axes lb) a (reverse_axes la) c (reverse_axes lc) alpha beta) with (Ent := Ent) as (c' & E & P); auto using reverse_wf, rev_inside, rev_injective, rev_anchored.
      + cbn [reverse_axes l_shape]. now apply ps_col_row.
      + unfold same_batch_rank in *. cbn [reverse_axes l_shape]. rewrite !rev_length. lia.
      + unfold ndim. cbn [reverse_axes l_shape l_offset]. rewrite rev_length. exact O.
      + exists c'. split; auto. now apply (product_turn_by mab mba). Qed.
  Lemma device_ok o a la b lb c lc alpha beta : wf la -> wf lb -> wf lc -> inside la (length a) -> inside lb (length b) -> inside lc (length c) -> injective lc -> anchored la -> anchored lb -> anchored lc ->
    product_shape o (l_shape la) (l_shape lb) (l_shape lc) -> same_batch_rank (l_shape la) (l_shape lb) -> (ndim lc = 0%nat -> l_offset lc = 0) ->
    exists c', device_matmul o mab mba mul add c lc a la b lb alpha beta = Ok c' /\ is_product o mab zero add mul alpha beta a la b lb c lc c'.
  Proof. intros. destruct (device_by o a la b lb c lc alpha beta (fun z vs v => v = add (mul beta z) (mul alpha (total zero add vs)))) as (c' & E & P); auto using accum_total, accum_total'. exists c'. split; [exact E|]. now apply product_by. Qed.
  (** operands of different batch ranks *)
  Lemma naive_rank a la b lb (c : list C) lc alpha beta : product_shape RowMajor (l_shape la) (l_shape lb) (l_shape lc) -> ~ same_batch_rank (l_shape la) (l_shape lb) -> exists e, matmul_naive mab mul add c lc a la b lb alpha beta = Err e.
  Proof. intros PS SB. assert (R : (3 <= ndim la)%nat /\ (3 <= ndim lb)%nat /\ ndim la <> ndim lb) by (unfold same_batch_rank, ndim in *; lia).
    assert (L : ndim lc = Nat.max (ndim la) (ndim lb)). { unfold ndim in *. revert R. destruct PS as [K|B' K N|B' M K|BA BB BC M K N [LB _]]; cbn [length]; rewrite ?mat_length; lia. }
    unfold matmul_naive, layout_matmul_with_lc. destruct (ndim la) as [|[|[|na]]]; try lia. destruct (ndim lb) as [|[|[|nb]]]; try lia. destruct (ndim lc) as [|[|[|nc]]]; try lia.
    destruct (S (S (S na)) =? S (S (S nc)))%nat eqn:E1; cbn [check bind]; [|eauto]. destruct (S (S (S nb)) =? S (S (S nc)))%nat eqn:E2; cbn [check bind]; [|eauto]. lia. Qed.
End Device.
Lemma device_rank {A B C} o (mab : A -> B -> C) mba mul add a la b lb (c : list C) lc alpha beta : product_shape o (l_shape la) (l_shape lb) (l_shape lc) -> ~ same_batch_rank (l_shape la) (l_shape lb) -> exists e, device_matmul o mab mba mul add c lc a la b lb alpha beta = Err e.
Proof. intros PS SB. destruct o; cbn [device_matmul]; [now apply naive_rank|]. apply naive_rank; [now apply ps_col_row|]. unfold same_batch_rank in *. cbn [reverse_axes l_shape]. rewrite !rev_length. lia. Qed.
