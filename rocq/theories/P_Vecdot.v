(** Proofs about vecdot. *)
From Verif Require Import Base Spec P_Index P_List M_Layout P_Layout P_Bounds P_Contig P_Strides Q_Layout M_Indexer P_Indexer M_Broadcast P_Broadcast Q_Broadcast M_Rearr M_Iter P_Iter P_Rearr P_BinOp Q_Rearr M_Kernel P_Kernel Q_Kernel M_Tensor P_Tensor Q_Tensor
  M_Reduce P_Reduce P_Arg P_Axes Q_Reduce Q_Iter Spec_Views Spec_Tensordot Spec_Vecdot M_Vecdot.
Local Open Scope Z_scope.

(** ** contiguous axes *)
Lemma comp_c_strides sh st r : forall c, pick (comp_c_loop sh st r c) 0 st = cum_strides (fun n => n) (pick (comp_c_loop sh st r c) 0%nat sh) c.
Proof. induction r as [|i r IH]; intro c; cbn [comp_c_loop]; [reflexivity|]. destruct (nth i st 0 =? c) eqn:E; [|apply IH]. apply Z.eqb_eq in E. cbn [pick map cum_strides]. f_equal; auto. apply IH. Qed.
Definition contig_axes (l : layout) (ax : list nat) : Prop :=
  NoDup ax /\ (forall k, In k ax -> (k < ndim l)%nat) /\ pick ax 0 (l_stride l) = cum_strides (fun n => n) (pick ax 0%nat (l_shape l)) 1.
Definition comp_c (l : layout) : list nat := snd (fst (get_axes_composition l)).
Lemma comp_c_contig l : contig_axes l (comp_c l).
Proof. unfold comp_c, get_axes_composition. cbn [fst snd]. set (rem := sort_by _ _).
  assert (ND : NoDup rem). { unfold rem. eapply Permutation_NoDup; [apply sort_perm|]. apply NoDup_filter, seq_NoDup. }
  assert (Lt : forall k, In k rem -> (k < ndim l)%nat). { intros k Hk. unfold rem in Hk. eapply Permutation_in in Hk; [|apply Permutation_sym, sort_perm]. apply filter_In in Hk as [Hk _]. apply in_seq in Hk. lia. }
  destruct (comp_c_sub (l_shape l) (l_stride l) rem 1) as [I N]. split; [auto|]. split; [intros k Hk; apply Lt, I, Hk|]. apply comp_c_strides. Qed.
Lemma cum_strides_firstn g s m : forall c, firstn m (cum_strides g s c) = cum_strides g (firstn m s) c.
Proof. revert m. induction s as [|x s IH]; intros [|m] c; cbn [firstn cum_strides]; auto. now rewrite IH. Qed.
Lemma contig_firstn l ax m : contig_axes l ax -> contig_axes l (firstn m ax).
Proof. intros (ND & Lt & E). split; [|split].
  - rewrite <- (firstn_skipn m ax) in ND. clear - ND. induction (firstn m ax) as [|x r IH]; [constructor|]. cbn in ND. inversion ND; subst. constructor; auto. intro. apply H1. apply in_or_app. now left.
  - intros k Hk. apply Lt. rewrite <- (firstn_skipn m ax). apply in_or_app. now left.
  - assert (F : forall {T} (d : T) s, pick (firstn m ax) d s = firstn m (pick ax d s)) by (intros; unfold pick; symmetry; apply firstn_map). rewrite !F, E. apply cum_strides_firstn. Qed.
Lemma common_prefix_firstn a : forall b, exists m, common_prefix a b = firstn m a /\ common_prefix a b = firstn m b.
Proof. induction a as [|x a IH]; intros [|y b]; try (exists 0%nat; split; reflexivity). cbn [common_prefix]. destruct (Nat.eqb_spec x y) as [->|_]; [|exists 0%nat; split; reflexivity].
  destruct (IH b) as (m & E1 & E2). exists (S m). cbn [firstn]. split; congruence. Qed.
Lemma common_prefix3_firstn a : forall b c, exists m, common_prefix3 a b c = firstn m a /\ common_prefix3 a b c = firstn m b /\ common_prefix3 a b c = firstn m c.
Proof. induction a as [|x a IH]; intros [|y b] [|z c]; try (exists 0%nat; repeat split; reflexivity). cbn [common_prefix3]. destruct (Nat.eqb_spec x y) as [->|_]; [|exists 0%nat; repeat split; reflexivity].
  destruct (Nat.eqb_spec y z) as [->|_]; [|exists 0%nat; repeat split; reflexivity]. destruct (IH b c) as (m & E1 & E2 & E3). exists (S m). cbn [firstn andb]. split; [|split]; congruence. Qed.

(** ** visiting the rest of the axes in blocks *)
Lemma rest_layout_ok l ax : good l -> size (l_shape l) <> 0%nat -> NoDup ax -> (forall k, In k ax -> (k < ndim l)%nat) ->
  rest_layout l ax = Ok (sub (axes_except (ndim l) ax) l) /\ good (sub (axes_except (ndim l) ax) l).
Proof. intros G S ND Lt. assert (D : Forall2 (axis_denotes (ndim l)) (map Z.of_nat ax) ax).
  { clear ND. induction ax as [|a ax IH]; cbn; constructor; [|apply IH; intros; apply Lt; now right]. specialize (Lt a (or_introl eq_refl)). unfold axis_denotes. split; [lia|]. left. reflexivity. }
  destruct (split_axes_total l _ ax G S D ND) as (x & y & E & Gx & Gy). unfold rest_layout. rewrite E. cbn [bind snd].
  destruct (split_axes_ok l _ x y (good_wf _ G) E) as (ax' & D' & _ & _ & -> & _). pose proof (denotes_unique _ _ _ _ D D') as ->. auto. Qed.
Lemma contig_ranks s : map (dot (cum_strides (fun n => n) s 1)) (col_major s) = map Z.of_nat (seq 0 (size s)).
Proof. rewrite <- map_rav_f_col_major, map_map. apply map_ext_in. intros ix Hi. pose proof (proj1 (in_enum ColMajor s ix) Hi) as V. rewrite cum_strides_dot; auto. lia. Qed.
Lemma flat_map_length_le {X Y} (f : X -> list Y) l n : (forall x, In x l -> length (f x) = n) -> length (flat_map f l) = (length l * n)%nat.
Proof. intro H. induction l as [|x l IH]; cbn [flat_map length]; auto. rewrite app_length, IH, H; [lia|now left|]. intros; apply H; now right. Qed.
Definition blocks (n : nat) (ax s : list nat) (js : list (list nat)) : list (list nat) := flat_map (fun jx => map (fun cx => merge n ax cx jx) (col_major (pick ax 0%nat s))) js.
Lemma blocks_perm ax sh js : NoDup ax -> (forall k, In k ax -> (k < length sh)%nat) -> Permutation js (row_major (rest_of sh ax)) -> Permutation (blocks (length sh) ax sh js) (row_major sh).
Proof. intros ND Lt P. symmetry. pose proof (except_perm _ _ ND Lt) as Pe. apply NoDup_Permutation_bis; [apply (enum_nodup RowMajor)| |].
  - unfold blocks. rewrite (flat_map_length_le _ _ (size (pick ax 0%nat sh))) by (intros; now rewrite map_length, length_col_major). rewrite (Permutation_length P), !length_row_major.
    rewrite <- (size_perm _ _ (pick_perm _ 0%nat sh Pe)), pick_app, size_app. unfold rest_of. lia.
  - intros ix Hi. apply (in_enum RowMajor) in Hi. unfold blocks. apply in_flat_map. exists (pick (axes_except (length sh) ax) 0%nat ix). pose proof (valid_length _ _ Hi) as L. split.
    + eapply Permutation_in; [symmetry; exact P|]. apply (in_enum RowMajor). apply pick_valid_sub; auto. intros a Ha. unfold axes_except in Ha. apply filter_In in Ha as [Ha _]. apply in_seq in Ha. lia.
    + apply in_map_iff. exists (pick ax 0%nat ix). split; [now apply merge_split|]. apply (in_enum ColMajor). now apply pick_valid_sub. Qed.
Lemma visited_joint ls sh : ls <> [] -> Forall good ls -> Forall (fun l => l_shape l = sh) ls ->
  exists full ixs, translate_to_col_major RowMajor ls OK = Ok full /\ visited full = Ok (map (tuple ls) ixs) /\ Permutation ixs (row_major sh).
Proof. intros NE G Sh. destruct (joint_steps Dyn ls sh NE G Sh) as (full & ixs & pss & E & P & E1 & E2 & _). exists full, ixs. split; auto. split; auto. unfold visited. rewrite E1. cbn [bind]. now rewrite E2. Qed.
Lemma visited_plain ls sh : ls <> [] -> Forall good ls -> Forall (fun l => l_shape l = sh) ls -> visited ls = Ok (map (tuple ls) (col_major sh)).
Proof. intros NE G Sh. unfold visited. replace (map_res (dispatch_positions Dyn) ls) with (Ok (map (fun l => map (addr l) (col_major sh)) ls)).
  - cbn [bind]. f_equal. now apply zip_all_map.
  - symmetry. apply map_res_all. intros l Hl. rewrite Forall_forall in G, Sh. specialize (G l Hl). specialize (Sh l Hl). rewrite dispatch_ok by apply G. unfold addrs. now rewrite Sh. Qed.
Lemma block_tuple ls sh ax jx : Forall good ls -> Forall (fun l => l_shape l = sh) ls -> Forall (fun l => contig_axes l ax) ls -> length jx = length (axes_except (length sh) ax) ->
  map (fun cx => tuple ls (merge (length sh) ax cx jx)) (col_major (pick ax 0%nat sh)) = blow_t (size (pick ax 0%nat sh)) (tuple (map (sub (axes_except (length sh) ax)) ls) jx).
Proof. intros G Sh Ct Lj. rewrite Forall_forall in G, Sh, Ct. unfold blow_t.
  assert (X : map (fun i => map (fun x => x + Z.of_nat i) (tuple (map (sub (axes_except (length sh) ax)) ls) jx)) (seq 0 (size (pick ax 0%nat sh))) =
    map (fun z => map (fun x => x + z) (tuple (map (sub (axes_except (length sh) ax)) ls) jx)) (map Z.of_nat (seq 0 (size (pick ax 0%nat sh))))) by (rewrite map_map; reflexivity).
  rewrite X, <- contig_ranks, map_map. apply map_ext_in. intros cx Hc. pose proof (proj1 (in_enum ColMajor _ cx) Hc) as V. apply valid_length in V. rewrite pick_length in V. unfold tuple. rewrite !map_map. apply map_ext_in. intros l Hl.
  destruct (Ct l Hl) as (ND & Lt & E). specialize (Sh l Hl). specialize (G l Hl). unfold ndim in *. rewrite Sh in *. rewrite <- E. pose proof (merge_addr l ax cx jx (good_wf _ G) ND) as M. unfold ndim in M. rewrite Sh in M. now apply M. Qed.
Lemma block_steps ls sh ax : ls <> [] -> Forall good ls -> Forall (fun l => l_shape l = sh) ls -> size sh <> 0%nat -> Forall (fun l => contig_axes l ax) ls ->
  exists full tasks ixs, translate_to_col_major RowMajor (map (sub (axes_except (length sh) ax)) ls) OK = Ok full /\ visited full = Ok tasks /\
    Permutation ixs (row_major sh) /\ flat_map (blow_t (size (pick ax 0%nat sh))) tasks = map (tuple ls) ixs.
Proof. intros NE G Sh S0 Ct. destruct ls as [|l0 ls0]; [congruence|]. set (ls := l0 :: ls0) in *. assert (C0 : contig_axes l0 ax) by (inversion Ct; auto). assert (S1 : l_shape l0 = sh) by (inversion Sh; auto).
  destruct C0 as (ND & Lt & _). unfold ndim in Lt. rewrite S1 in Lt.
  destruct (visited_joint (map (sub (axes_except (length sh) ax)) ls) (rest_of sh ax)) as (full & js & E & V & P).
  - discriminate.
  - rewrite Forall_forall in G, Sh |- *. intros l' Hl'. apply in_map_iff in Hl' as (l & <- & Hl). pose proof (rest_layout_ok l ax (G l Hl)) as X. unfold ndim in X. rewrite (Sh l Hl) in X. now apply X.
  - rewrite Forall_forall in Sh |- *. intros l' Hl'. apply in_map_iff in Hl' as (l & <- & Hl). cbn [sub l_shape]. rewrite (Sh l Hl). reflexivity.
  - exists full, (map (tuple (map (sub (axes_except (length sh) ax)) ls)) js), (blocks (length sh) ax sh js). split; auto. split; auto. split; [now apply blocks_perm|].
    unfold blocks. rewrite flat_map_map, map_flat_map. apply flat_map_ext_in. intros jx Hj. rewrite map_map. symmetry. apply block_tuple; auto.
    eapply Permutation_in in Hj; [|exact P]. apply (in_enum RowMajor) in Hj. apply valid_length in Hj. unfold rest_of in Hj. now rewrite pick_length in Hj. Qed.

(** ** storage *)
Lemma modify_known {I C} (pos : I -> Z) (h : I -> C -> res C) ixs : forall c, NoDup (map pos ixs) ->
  (forall i, In i ixs -> exists x y, peek c (pos i) = Some x /\ h i x = Ok y) ->
  exists c', fold_res (modify pos h) ixs c = Ok c' /\ length c' = length c /\ (forall i x, In i ixs -> peek c (pos i) = Some x -> exists y, h i x = Ok y /\ peek c' (pos i) = Some y) /\
    (forall p, ~ In p (map pos ixs) -> peek c' p = peek c p).
Proof. induction ixs as [|i ixs IH]; intros c ND R; cbn [fold_res].
  - exists c. split; auto. split; auto. split; auto. intros i x [].
  - inversion ND as [|? ? H1 H2]; subst. destruct (R i (or_introl eq_refl)) as (x & y & Hx & Hy). destruct (modify_ok pos h c i x y Hx Hy) as (c1 & E1 & L1 & P1 & Q1). rewrite E1. cbn [bind].
    assert (Ne : forall j, In j ixs -> pos j <> pos i). { intros j Hj X. apply H1. rewrite <- X. now apply in_map. }
    destruct (IH c1) as (c' & E' & L' & A' & B'); auto. { intros j Hj. destruct (R j (or_intror Hj)) as (u & w & Hu & Hw). exists u, w. rewrite Q1; auto. }
    exists c'. split; auto. split; [congruence|]. split.
    + intros j z [->|Hj] Hz.
      * rewrite B' by auto. rewrite P1. exists y. split; auto. congruence.
      * apply A'; auto. rewrite Q1; auto.
    + intros p Hp. cbn [map In] in Hp. rewrite B' by tauto. apply Q1. intro X. apply Hp. now left. Qed.
Lemma slice_get_within {T} (a : list T) p n : n <> 0%nat -> (forall k, (k < n)%nat -> 0 <= p + Z.of_nat k < Z.of_nat (length a)) -> slice_get a p n = Ok (vals a (consecutive p n)) /\ within a (consecutive p n).
Proof. intros Hn H. assert (W : within a (consecutive p n)). { unfold within, consecutive. apply Forall_forall. intros q Hq. apply in_map_iff in Hq as (k & <- & Hk). apply in_seq in Hk. apply H. lia. }
  split; auto. destruct (within_consecutive a p n Hn W). now apply slice_get_ok. Qed.

Lemma combine_fst_eq {A B} (l1 : list A) : forall l2 : list B, length l1 = length l2 -> map fst (combine l1 l2) = l1.
Proof. induction l1 as [|x l1 IH]; intros [|y l2] E; cbn; try discriminate E; auto. f_equal. apply IH. now injection E. Qed.

Section Sums.
  Context {A B C : Type} (zero : C) (add : C -> C -> C) (M : comm_monoid zero add) (cmul : A -> B -> C) (a : list A) (b : list B).
  Context (ssh : list nat) (ta tb : list Z) (offa offb : Z).
  Let las := mkLayout ssh ta offa.
  Let lbs := mkLayout ssh tb offb.
  Definition cm (p q : Z) : C := match peek a p, peek b q with Some x, Some y => cmul x y | _, _ => zero end.
  (** the sum that belongs to the remaining positions [ma] and [mb] *)
  Definition dot_value (ma mb : Z) : C := total zero add (map (fun sx => cm (ma + dot ta sx) (mb + dot tb sx)) (row_major ssh)).
  Definition reach {T} (l : list T) (t : list Z) (m : Z) : Prop := forall sx, valid ssh sx -> 0 <= m + dot t sx < Z.of_nat (length l).
  Lemma vals_pairs ps : forall qs, length ps = length qs -> within a ps -> within b qs -> map (fun p => cmul (fst p) (snd p)) (combine (vals a ps) (vals b qs)) = map (fun p => cm (fst p) (snd p)) (combine ps qs).
  Proof. induction ps as [|p ps IH]; intros [|q qs] L W1 W2; try discriminate L; [reflexivity|]. inversion W1 as [|? ? H1 W1']; inversion W2 as [|? ? H2 W2']; subst. apply peek_inside in H1 as (x & Hx). apply peek_inside in H2 as (y & Hy).
    cbn [vals flat_map]. rewrite Hx, Hy. cbn [app combine map fst snd]. f_equal; [unfold cm; now rewrite Hx, Hy|]. apply IH; auto. Qed.
  Lemma total_flat {X Y} (g : Y -> C) (c : X -> list Y) xs : total zero add (map g (flat_map c xs)) = total zero add (map (fun x => total zero add (map g (c x))) xs).
  Proof. induction xs as [|x xs IH]; cbn [flat_map map]; auto. rewrite map_app, (total_app zero add M), IH. reflexivity. Qed.
  Definition shifted (ma mb : Z) (t : list Z) : C := match t with [sa; sb] => cm (ma + sa - offa) (mb + sb - offb) | _ => zero end.
  Lemma shifted_total ma mb ixs : Permutation ixs (row_major ssh) -> total zero add (map (shifted ma mb) (map (tuple [las; lbs]) ixs)) = dot_value ma mb.
  Proof. intro P. unfold dot_value. rewrite map_map. rewrite (total_perm zero add M _ _ (Permutation_map (fun x => shifted ma mb (tuple [las; lbs] x)) P)). f_equal. apply map_ext. intro sx. unfold shifted, tuple, addr. cbn [map las lbs l_offset l_stride]. f_equal; lia. Qed.
  Lemma sum_slices_ok n sp ixs ma mb : n <> 0%nat -> Permutation ixs (row_major ssh) -> flat_map (blow_t n) sp = map (tuple [las; lbs]) ixs -> reach a ta ma -> reach b tb mb ->
    sum_slices zero add cmul a b offa offb n sp ma mb = Ok (dot_value ma mb).
  Proof. intros Hn P E Ra Rb. unfold sum_slices. rewrite (adds_fold zero add M _ (fun p => total zero add (map (shifted ma mb) (blow_t n p)))).
    - rewrite (m_id zero add M). f_equal. rewrite <- (total_flat (shifted ma mb) (blow_t n)), E. now apply shifted_total.
    - intros p s Hp. assert (In0 : forall k, (k < n)%nat -> exists sx, valid ssh sx /\ map (fun x => x + Z.of_nat k) p = tuple [las; lbs] sx).
      { intros k Hk. assert (X : In (map (fun x => x + Z.of_nat k) p) (flat_map (blow_t n) sp)). { apply in_flat_map. exists p. split; auto. unfold blow_t. apply in_map_iff. exists k. split; auto. apply in_seq. lia. }
        rewrite E in X. apply in_map_iff in X as (sx & Es & Hs). exists sx. split; [|congruence]. eapply Permutation_in in Hs; [|exact P]. now apply (in_enum RowMajor) in Hs. }
      destruct (In0 0%nat ltac:(lia)) as (sx0 & _ & E0). destruct p as [|sa [|sb [|? ?]]]; try discriminate E0.
      destruct (slice_get_within a (ma + sa - offa) n Hn) as [Ga Wa]. { intros k Hk. destruct (In0 k Hk) as (sx & V & Ek). unfold tuple, addr in Ek. cbn [map las lbs l_offset l_stride] in Ek. injection Ek as Ek1 _. specialize (Ra sx V). lia. }
      destruct (slice_get_within b (mb + sb - offb) n Hn) as [Gb Wb]. { intros k Hk. destruct (In0 k Hk) as (sx & V & Ek). unfold tuple, addr in Ek. cbn [map las lbs l_offset l_stride] in Ek. injection Ek as _ Ek1. specialize (Rb sx V). lia. }
      rewrite Ga. cbn [bind]. rewrite Gb. cbn [bind]. do 2 f_equal. rewrite (unrolled_ok zero add M (fun p => cmul (fst p) (snd p)) (add_pair add cmul) (fun _ _ => eq_refl) (fun s => s)). f_equal.
      rewrite vals_pairs; auto; [|unfold consecutive; now rewrite !map_length]. unfold consecutive, blow_t. rewrite combine_map, !map_map. apply map_ext. intro k. cbn [map fst snd shifted]. f_equal; lia. Qed.
  Lemma get_pair p q : 0 <= p < Z.of_nat (length a) -> 0 <= q < Z.of_nat (length b) -> exists x y, zget a p = Ok x /\ zget b q = Ok y /\ cm p q = cmul x y.
  Proof. intros H1 H2. apply peek_inside in H1 as (x & Hx). apply peek_inside in H2 as (y & Hy). exists x, y. unfold cm. rewrite Hx, Hy. split; [now apply zget_peek|]. split; [now apply zget_peek|auto]. Qed.
  Lemma sum_cells_ok ixs ma mb : Permutation ixs (row_major ssh) -> reach a ta ma -> reach b tb mb -> sum_cells zero add cmul a b offa offb (map (tuple [las; lbs]) ixs) ma mb = Ok (dot_value ma mb).
  Proof. intros P Ra Rb. unfold sum_cells. rewrite (adds_fold zero add M _ (shifted ma mb)).
    - rewrite (m_id zero add M). f_equal. now apply shifted_total.
    - intros p s Hp. apply in_map_iff in Hp as (sx & <- & Hs). eapply Permutation_in in Hs; [|exact P]. apply (in_enum RowMajor) in Hs. specialize (Ra sx Hs). specialize (Rb sx Hs).
      unfold tuple, addr, shifted, add_pair. cbn [map las lbs l_offset l_stride fst snd]. destruct (get_pair (ma + (offa + dot ta sx) - offa) (mb + (offb + dot tb sx) - offb)) as (x & y & Ex & Ey & ->); try lia. rewrite Ex. cbn [bind]. rewrite Ey. reflexivity. Qed.
  Lemma sum_strided_ok n t1 t2 ma mb : ssh = [n] -> ta = [t1] -> tb = [t2] -> reach a ta ma -> reach b tb mb -> sum_strided zero add cmul a b n t1 t2 ma mb = Ok (dot_value ma mb).
  Proof. intros E1 E2 E3 Ra Rb. unfold sum_strided. rewrite (adds_fold zero add M _ (fun i => cm (ma + Z.of_nat i * t1) (mb + Z.of_nat i * t2))).
    - rewrite (m_id zero add M). f_equal. unfold dot_value. rewrite E1, E2, E3. f_equal. cbn [row_major]. rewrite map_flat_map. cbn [map]. rewrite (flat_map_singleton (fun i : nat => _)). apply map_ext. intro i. cbn [dot]. f_equal; lia.
    - intros i s Hi. apply in_seq in Hi. assert (V : valid ssh [i]). { rewrite E1. constructor; [lia|constructor]. } specialize (Ra _ V). specialize (Rb _ V). rewrite E2 in Ra. rewrite E3 in Rb. cbn [dot] in Ra, Rb.
      destruct (get_pair (ma + Z.of_nat i * t1) (mb + Z.of_nat i * t2)) as (x & y & Ex & Ey & ->); try lia. rewrite Ex. cbn [bind]. rewrite Ey. reflexivity. Qed.

  (** the second branch *)
  Definition showing (c0 c : list (option C)) (ic : Z) (n : nat) (v : nat -> C) : Prop :=
    length c = length c0 /\ (forall k, (k < n)%nat -> peek c (ic + Z.of_nat k) = Some (Some (v k))) /\ (forall p, (forall k, (k < n)%nat -> p <> ic + Z.of_nat k) -> peek c p = peek c0 p).
  Lemma showing_unique c0 c1 c2 ic n v : showing c0 c1 ic n v -> showing c0 c2 ic n v -> c1 = c2.
  Proof. intros (L1 & I1 & O1) (L2 & I2 & O2). apply peek_ext; [congruence|]. intro p. destruct (in_dec Z.eq_dec p (map (fun k => ic + Z.of_nat k) (seq 0 n))) as [H|H].
    - apply in_map_iff in H as (k & <- & Hk). apply in_seq in Hk. rewrite I1, I2; auto; lia.
    - assert (N : forall k, (k < n)%nat -> p <> ic + Z.of_nat k). { intros k Hk ->. apply H. apply in_map_iff. exists k. split; auto. apply in_seq. lia. } now rewrite O1, O2. Qed.
  Lemma showing_ext c0 c ic n v w : (forall k, (k < n)%nat -> v k = w k) -> showing c0 c ic n v -> showing c0 c ic n w.
  Proof. intros E (L & I & O). split; auto. split; auto. intros k Hk. rewrite <- E by auto. auto. Qed.
  Lemma showing_put c ic n v : (forall k, (k < n)%nat -> 0 <= ic + Z.of_nat k < Z.of_nat (length c)) ->
    exists c', fold_res (fun c i => zset c (ic + Z.of_nat i) (Some (v i))) (seq 0 n) c = Ok c' /\ showing c c' ic n v.
  Proof. intro R. pose proof (put_fold (fun i => ic + Z.of_nat i) (fun i => Ok (Some (v i))) (seq 0 n) c) as PF. cbn [bind] in PF. rewrite PF by (intros i Hi; apply in_seq in Hi; apply R; lia). clear PF.
    destruct (write_fold (fun i => ic + Z.of_nat i) (fun i => Ok (Some (v i))) (seq 0 n) c) as (c' & E & L & I & O).
    - intros i Hi. apply in_seq in Hi. apply R. lia.
    - eauto.
    - intros i j _ _ X. assert (i = j) by lia. now subst.
    - exists c'. split; auto. split; auto. split.
      + intros k Hk. destruct (I k) as (y & Ey & Hy); [apply in_seq; lia|]. injection Ey as <-. exact Hy.
      + intros p Hp. apply O. intro H. apply in_map_iff in H as (k & <- & Hk). apply in_seq in Hk. apply (Hp k); lia. Qed.
  Lemma zero_slice_ok c ic n : n <> 0%nat -> (forall k, (k < n)%nat -> 0 <= ic + Z.of_nat k < Z.of_nat (length c)) -> exists c', zero_slice zero c ic n = Ok c' /\ showing c c' ic n (fun _ => zero).
  Proof. intros Hn R. unfold zero_slice. destruct (slice_get_within c ic n Hn R) as [-> _]. cbn [bind]. now apply (showing_put c ic n (fun _ => zero)). Qed.
  Lemma add_cells_ok c ic n v ps qs : length ps = n -> length qs = n -> within a ps -> within b qs -> (forall k, (k < n)%nat -> peek c (ic + Z.of_nat k) = Some (Some (v k))) ->
    exists c', fold_res (add_cell add cmul ic) (combine (seq 0 n) (combine (vals a ps) (vals b qs))) c = Ok c' /\ showing c c' ic n (fun k => add (v k) (cm (nth k ps 0) (nth k qs 0))).
  Proof. intros Lp Lq Wp Wq I. set (items := combine (seq 0 n) (combine (vals a ps) (vals b qs))).
    assert (Lc : length (combine (vals a ps) (vals b qs)) = n) by (rewrite combine_length, !vals_length by auto; lia).
    assert (Fst : map fst items = seq 0 n) by (apply combine_fst_eq; rewrite seq_length; auto).
    assert (It : forall k x y, In (k, (x, y)) items -> (k < n)%nat /\ cm (nth k ps 0) (nth k qs 0) = cmul x y).
    { intros k x y H. assert (Hk : (k < n)%nat). { assert (X : In k (map fst items)) by (change k with (fst (k, (x, y))); now apply in_map). rewrite Fst in X. apply in_seq in X. lia. } split; auto.
      apply In_nth_error in H as (j & Hj). unfold items in Hj. rewrite nth_error_combine in Hj. rewrite nth_error_combine in Hj.
      pose proof (vals_pairs ps qs ltac:(congruence) Wp Wq) as VP. destruct (nth_error (seq 0 n) j) as [k'|] eqn:Ek; [|discriminate]. destruct (nth_error (vals a ps) j) as [x'|] eqn:Ex; [|discriminate]. destruct (nth_error (vals b qs) j) as [y'|] eqn:Ey; [|discriminate].
      injection Hj as -> -> ->. assert (j = k). { assert (j < n)%nat. { rewrite <- (seq_length n 0). apply nth_error_Some. congruence. } rewrite nth_error_seq in Ek by auto. injection Ek as <-. lia. } subst j.
      apply (f_equal (fun l => nth_error l k)) in VP. rewrite !nth_error_map, !nth_error_combine, Ex, Ey in VP. cbn [option_map fst snd] in VP.
      rewrite (nth_error_nth' ps 0), (nth_error_nth' qs 0) in VP by lia. cbn [option_map fst snd] in VP. congruence. }
    destruct (modify_known (fun q => ic + Z.of_nat (fst q)) (fun q x => match x with Some x => Ok (Some (add_pair add cmul x (snd q))) | None => Panic end) items c) as (c' & E & L & I' & O').
    - rewrite <- (map_map fst (fun k => ic + Z.of_nat k)), Fst. apply NoDup_map_inj_in; [intros; lia|apply seq_NoDup].
    - intros [k [x y]] H. destruct (It k x y H) as [Hk _]. exists (Some (v k)). eexists. cbn [fst]. split; [now apply I|reflexivity].
    - exists c'. split.
      + rewrite <- E. apply fold_res_ext. intros [k p] s _. unfold add_cell, modify. cbn [fst snd]. apply bind_ext. intros [x|]; reflexivity.
      + split; auto. split.
        * intros k Hk. assert (X : exists x y, In (k, (x, y)) items).
          { assert (X : In k (map fst items)) by (rewrite Fst; apply in_seq; lia). apply in_map_iff in X as ([k' [x y]] & Ek & H). cbn in Ek. subst k'. eauto. } destruct X as (x & y & H).
          destruct (I' (k, (x, y)) (Some (v k)) H) as (z & Ez & Hz); [now apply I|]. cbn [fst snd] in *. injection Ez as <-. rewrite Hz. unfold add_pair. cbn [fst snd]. destruct (It k x y H) as [_ ->]. reflexivity.
        * intros p Hp. apply O'. rewrite <- (map_map fst (fun k => ic + Z.of_nat k)), Fst. intro H. apply in_map_iff in H as (k & <- & Hk). apply in_seq in Hk. apply (Hp k); lia. Qed.
  Lemma add_chunk_ok n ic ia ib ixs : n <> 0%nat -> (forall k, (k < n)%nat -> reach a ta (ia + Z.of_nat k)) -> (forall k, (k < n)%nat -> reach b tb (ib + Z.of_nat k)) -> (forall sx, In sx ixs -> valid ssh sx) ->
    forall c v, (forall k, (k < n)%nat -> peek c (ic + Z.of_nat k) = Some (Some (v k))) ->
    exists c', add_chunk add cmul a b offa offb (map (tuple [las; lbs]) ixs) n c ic ia ib = Ok c' /\
      showing c c' ic n (fun k => add (v k) (total zero add (map (fun sx => cm (ia + Z.of_nat k + dot ta sx) (ib + Z.of_nat k + dot tb sx)) ixs))).
  Proof. intros Hn Ra Rb. induction ixs as [|sx ixs IH]; intros Vx c v I; cbn [map].
    - exists c. split; [reflexivity|]. split; auto. split; auto. intros k Hk. rewrite (I k Hk). cbn [map total fold_right]. now rewrite (m_id_r zero add M).
    - assert (V : valid ssh sx) by (apply Vx; now left). unfold add_chunk. cbn [fold_res map tuple]. fold (tuple [las; lbs]).
      destruct (slice_get_within a (ia + addr las sx - offa) n Hn) as [Ga Wa]. { intros k Hk. specialize (Ra k Hk sx V). unfold addr, las. cbn [l_offset l_stride]. lia. }
      destruct (slice_get_within b (ib + addr lbs sx - offb) n Hn) as [Gb Wb]. { intros k Hk. specialize (Rb k Hk sx V). unfold addr, lbs. cbn [l_offset l_stride]. lia. }
      rewrite Ga. cbn [bind]. rewrite Gb. cbn [bind].
      destruct (add_cells_ok c ic n v (consecutive (ia + addr las sx - offa) n) (consecutive (ib + addr lbs sx - offb) n)) as (c1 & E1 & S1); auto; try (unfold consecutive; now rewrite map_length, seq_length). rewrite E1. cbn [bind].
      destruct (IH (fun y Hy => Vx y (or_intror Hy)) c1 _ (proj1 (proj2 S1))) as (c2 & E2 & S2). exists c2. split; [exact E2|].
      destruct S1 as (L1 & I1 & O1), S2 as (L2 & I2 & O2). split; [congruence|]. split.
      + intros k Hk. rewrite (I2 k Hk). do 2 f_equal. cbn [map total fold_right]. rewrite <- (m_assoc zero add M). f_equal. f_equal.
        unfold consecutive. rewrite !(nth_indep _ 0 (ia + addr las sx - offa + Z.of_nat 0)) by (rewrite map_length, seq_length; lia). rewrite (map_nth (fun i => ia + addr las sx - offa + Z.of_nat i)), seq_nth by auto.
        rewrite !(nth_indep _ (ia + addr las sx - offa + Z.of_nat 0) (ib + addr lbs sx - offb + Z.of_nat 0)) by (rewrite map_length, seq_length; lia). rewrite (map_nth (fun i => ib + addr lbs sx - offb + Z.of_nat i)), seq_nth by auto.
        unfold addr, las, lbs. cbn [l_offset l_stride]. f_equal; lia.
      + intros p Hp. rewrite O2, O1; auto. Qed.
End Sums.
