(** Proofs about vecdot: layouts and the whole kernel. *)
From Verif Require Import Base Spec P_Index P_List M_Layout P_Layout P_Bounds P_Contig P_Strides Q_Layout M_Indexer P_Indexer M_Broadcast P_Broadcast Q_Broadcast M_Rearr M_Iter P_Iter P_Rearr P_BinOp Q_Rearr M_Kernel P_Kernel Q_Kernel M_Tensor P_Tensor Q_Tensor
  M_Reduce P_Reduce P_Arg P_Axes Q_Reduce Q_Iter P_Manip P_Matmul2 Spec_Views Spec_Tensordot Spec_Vecdot M_Vecdot P_Vecdot P_Vecdot2.
Local Open Scope Z_scope.

(** ** broadcasting *)
Lemma ext_nth o s p : (p < length s)%nat -> exists k, (k < length s)%nat /\ ext o s k = nth p s 1%nat /\ match o with RowMajor => (p = length s - 1 - k)%nat | ColMajor => k = p end.
Proof. intro H. destruct o.
  - exists (length s - 1 - p)%nat. split; [lia|]. split; [|lia]. unfold ext. rewrite rev_nth by lia. f_equal. lia.
  - exists p. auto. Qed.
Lemma broadcasts_size o s1 s2 s : broadcasts o s1 s2 s -> size s1 <> 0%nat -> size s2 <> 0%nat -> size s <> 0%nat.
Proof. intros [L H] N1 N2. apply size_pos_forall. apply Forall_forall. intros d Hd. apply In_nth with (d := 1%nat) in Hd as (p & Hp & <-). destruct (ext_nth o s p Hp) as (k & Hk & <- & _).
  assert (P : forall t, size t <> 0%nat -> (0 < ext o t k)%nat). { intros t Ht. apply size_pos_forall in Ht. rewrite Forall_forall in Ht. unfold ext. destruct (Nat.lt_ge_cases k (length t)).
    - apply Ht. destruct o; [apply in_rev|]; apply nth_In; rewrite ?rev_length; auto.
    - rewrite nth_overflow; [lia|]. destruct o; rewrite ?rev_length; auto. }
  pose proof (P s1 N1). pose proof (P s2 N2). specialize (H k). cbv zeta in H. lia. Qed.
Lemma nth_clip s ix p : (p < length s)%nat -> length ix = length s -> nth p (clip s ix) 0%nat = if (nth p s 1 =? 1)%nat then 0%nat else nth p ix 0%nat.
Proof. intros H L. unfold clip. rewrite (P_Tensor.combine_seq s ix 1%nat 0%nat (length s)) by auto. rewrite map_map. cbn [fst snd]. rewrite (nth_indep _ 0%nat (if (nth 0 s 1 =? 1)%nat then 0%nat else nth 0 ix 0%nat)) by (now rewrite map_length, seq_length).
  pose proof (map_nth (fun k => if (nth k s 1 =? 1)%nat then 0%nat else nth k ix 0%nat) (seq 0 (length s)) 0%nat p) as X. cbv beta in X. rewrite X, seq_nth by auto. reflexivity. Qed.
(** the entry of a source index at the k-th axis counted from the aligned end *)
Lemma source_entry o t (s : list nat) p k : (length t <= length s)%nat -> (p < length s)%nat -> (k < length t)%nat -> match o with RowMajor => (p = length s - 1 - k)%nat | ColMajor => k = p end ->
  exists q, ext o t k = nth q t 1%nat /\ forall ix, length ix = length s -> nth q (source_index o t ix) 0%nat = if (nth q t 1 =? 1)%nat then 0%nat else nth p ix 0%nat.
Proof. intros L Hp Hk E. unfold source_index. destruct o.
  - exists (length t - 1 - k)%nat. split; [unfold ext; rewrite rev_nth by lia; f_equal; lia|]. intros ix Li. rewrite nth_clip; [|lia|rewrite skipn_length; lia]. destruct (_ =? _)%nat; auto. rewrite nth_skipn_gen. f_equal. lia.
  - subst p. exists k. split; auto. intros ix Li. rewrite nth_clip; [|lia|rewrite firstn_length; lia]. destruct (_ =? _)%nat; auto. now rewrite nth_firstn_lt by auto. Qed.
Lemma sources_determine o s1 s2 s i j : broadcasts o s1 s2 s -> valid s i -> valid s j -> source_index o s1 i = source_index o s1 j -> source_index o s2 i = source_index o s2 j -> i = j.
Proof. intros [L H] Vi Vj E1 E2. pose proof (valid_length _ _ Vi) as Li. pose proof (valid_length _ _ Vj) as Lj. apply nth_eq_ext with (d := 0%nat); [congruence|]. intros p Hp. rewrite Li in Hp.
  destruct (ext_nth o s p Hp) as (k & Hk & Ek & Mk).
  assert (X : forall t, (length t <= length s)%nat -> source_index o t i = source_index o t j -> ext o t k = ext o s k -> nth p i 0%nat = nth p j 0%nat).
  { intros t Lt Et Ex. destruct (Nat.eq_dec (ext o s k) 1) as [E0|E0].
    - apply valid_nth in Vi as [_ Vi], Vj as [_ Vj]. specialize (Vi p Hp). specialize (Vj p Hp). rewrite (nth_indep s 0%nat 1%nat) in Vi, Vj by auto. lia.
    - assert (Kt : (k < length t)%nat). { destruct (Nat.lt_ge_cases k (length t)); auto. rewrite (ext_beyond o t k) in Ex by auto. congruence. }
      destruct (source_entry o t s p k Lt Hp Kt Mk) as (q & Eq & Nq). pose proof (Nq i Li) as Ni. pose proof (Nq j Lj) as Nj. rewrite Et in Ni. rewrite <- Eq, Ex in Ni, Nj. destruct (Nat.eqb_spec (ext o s k) 1); [congruence|]. congruence. }
  specialize (H k). cbv zeta in H. destruct H as [[A B]|[[A B]|[A B]]].
  - apply (X s1); auto; lia.
  - apply (X s2); auto; lia.
  - apply (X s1); auto; lia. Qed.

(** ** splitting off the contracted axes *)
Lemma denotes_nats n ax : (forall k, In k ax -> (k < n)%nat) -> Forall2 (axis_denotes n) (map Z.of_nat ax) ax.
Proof. induction ax as [|x ax IH]; intro H; cbn [map]; constructor; [|apply IH; intros; apply H; now right]. pose proof (H x (or_introl eq_refl)). unfold axis_denotes. lia. Qed.
Lemma split_nat l ax : good l -> size (l_shape l) <> 0%nat -> NoDup ax -> (forall k, In k ax -> (k < ndim l)%nat) ->
  dim_split_axes l (map Z.of_nat ax) = Ok (sub ax l, sub (axes_except (ndim l) ax) l) /\ good (sub ax l) /\ good (sub (axes_except (ndim l) ax) l).
Proof. intros G S0 ND Lt. pose proof (denotes_nats (ndim l) ax Lt) as D. destruct (split_axes_total l _ ax G S0 D ND) as (la & lr & E & Ga & Gr).
  destruct (split_axes_ok l _ la lr (good_wf _ G) E) as (ax' & D' & _ & Ea & Er & _). rewrite (denotes_unique _ _ _ _ D D') in *. subst la lr. auto. Qed.
Lemma layouts_ok o lc la lb pa pb s : good lc -> good la -> good lb -> size (l_shape la) <> 0%nat -> size (l_shape lb) <> 0%nat -> NoDup pa -> NoDup pb -> (forall k, In k pa -> (k < ndim la)%nat) -> (forall k, In k pb -> (k < ndim lb)%nat) ->
  pick pa 0%nat (l_shape la) = pick pb 0%nat (l_shape lb) -> l_shape lc = s -> broadcasts o (rest_of (l_shape la) pa) (rest_of (l_shape lb) pb) s ->
  exists lam lbm, vecdot_layouts o lc la lb (map Z.of_nat pa) (map Z.of_nat pb) = Ok (sub pa la, sub pb lb, lam, lbm) /\ good lam /\ good lbm /\ l_shape lam = s /\ l_shape lbm = s /\
    (forall ix, valid s ix -> valid (rest_of (l_shape la) pa) (source_index o (rest_of (l_shape la) pa) ix) /\ addr lam ix = addr (sub (axes_except (ndim la) pa) la) (source_index o (rest_of (l_shape la) pa) ix)) /\
    (forall ix, valid s ix -> valid (rest_of (l_shape lb) pb) (source_index o (rest_of (l_shape lb) pb) ix) /\ addr lbm ix = addr (sub (axes_except (ndim lb) pb) lb) (source_index o (rest_of (l_shape lb) pb) ix)).
Proof. intros Gc Ga Gb Sa Sb Na Nb La Lb Ep Sc Bs. unfold vecdot_layouts.
  destruct (split_nat la pa Ga Sa Na La) as (-> & G1 & G2). cbn [bind]. destruct (split_nat lb pb Gb Sb Nb Lb) as (-> & G3 & G4). cbn [bind]. cbn [sub l_shape]. fold (sub pa la). fold (sub pb lb).
  destruct (list_eq_dec Nat.eq_dec (pick pa 0%nat (l_shape la)) (pick pb 0%nat (l_shape lb))) as [_|N]; [|congruence]. cbn [check bind].
  pose proof (to_first_cases Dyn lc (sub (axes_except (ndim la) pa) la) o Gc G2) as H. fold (rest_of (l_shape la) pa) in H. assert (B1 : broadcasts o s (rest_of (l_shape la) pa) s) by (eapply broadcasts_into; eauto). assert (B2 : broadcasts o s (rest_of (l_shape lb) pb) s) by (eapply broadcasts_into, broadcasts_comm; eauto).
  change (l_shape (sub (axes_except (ndim la) pa) la)) with (rest_of (l_shape la) pa) in H. rewrite Sc in H. destruct (broadcast_layout_to_first Dyn lc (sub (axes_except (ndim la) pa) la) o) as [[r1 lam]|e|]; [|exfalso; auto|contradiction]. cbn [fst snd bind] in *.
  destruct H as (s' & B' & H1 & H2 & H3 & H4 & H5 & _ & H7). pose proof (broadcasts_fun _ _ _ _ _ B' B1) as Q1. rewrite Q1 in H3, H4, H5, H7. rewrite (H5 eq_refl).
  pose proof (to_first_cases Dyn lc (sub (axes_except (ndim lb) pb) lb) o Gc G4) as K.
  change (l_shape (sub (axes_except (ndim lb) pb) lb)) with (rest_of (l_shape lb) pb) in K. rewrite Sc in K. destruct (broadcast_layout_to_first Dyn lc (sub (axes_except (ndim lb) pb) lb) o) as [[r2 lbm]|e|]; [|exfalso; auto|contradiction]. cbn [fst snd bind] in *.
  destruct K as (s'' & B'' & K1 & K2 & K3 & K4 & K5 & _ & K7). pose proof (broadcasts_fun _ _ _ _ _ B'' B2) as Q2. rewrite Q2 in K3, K4, K5, K7. rewrite (K5 eq_refl). rewrite layout_eqb_refl by (now apply good_wf). cbn [check bind].
  exists lam, lbm. split; auto 12. Qed.

(** ** values *)
Lemma elements_pairs {A B C} (zero : C) (cmul : A -> B -> C) (a : list A) la (b : list B) lb (f g : list nat -> list nat) ixs : forall xs ys, elements a la (map f ixs) xs -> elements b lb (map g ixs) ys ->
  map (fun p => cmul (fst p) (snd p)) (combine xs ys) = map (fun sx => cm zero cmul a b (addr la (f sx)) (addr lb (g sx))) ixs.
Proof. induction ixs as [|ix ixs IH]; intros xs ys Hx Hy; cbn [map] in *; inversion Hx as [|? x ? xs' H1 H2]; inversion Hy as [|? y ? ys' K1 K2]; subst; [reflexivity|]. cbn [combine map fst snd]. f_equal; [|now apply IH].
  unfold cm. unfold elem in H1, K1. now rewrite H1, K1. Qed.
Lemma fibre_valid s ax mx ix : NoDup ax -> (forall k, In k ax -> (k < length s)%nat) -> valid (rest_of s ax) mx -> In ix (fibre s ax mx) -> valid s ix.
Proof. intros ND Lt V H. unfold fibre in H. apply in_map_iff in H as (sx & <- & Hs). apply (in_enum RowMajor) in Hs. now apply merge_valid. Qed.
Lemma fibre_addr l ax mx sx : wf l -> NoDup ax -> (forall k, In k ax -> (k < ndim l)%nat) -> valid (rest_of (l_shape l) ax) mx -> valid (pick ax 0%nat (l_shape l)) sx ->
  addr l (merge (length (l_shape l)) ax sx mx) = addr (sub (axes_except (ndim l) ax) l) mx + dot (pick ax 0 (l_stride l)) sx.
Proof. intros W ND Lt Vm Vs. apply (merge_addr l ax sx mx W ND Lt).
  - apply valid_length in Vs. now rewrite pick_length in Vs.
  - apply valid_length in Vm. unfold rest_of in Vm. now rewrite pick_length in Vm. Qed.
Lemma reach_fibre {T} (d : list T) l ax mx : wf l -> inside l (length d) -> NoDup ax -> (forall k, In k ax -> (k < ndim l)%nat) -> valid (rest_of (l_shape l) ax) mx ->
  reach (pick ax 0%nat (l_shape l)) d (pick ax 0 (l_stride l)) (addr (sub (axes_except (ndim l) ax) l) mx).
Proof. intros W I ND Lt Vm sx Vs. rewrite <- fibre_addr by auto. apply I. now apply merge_valid. Qed.

Section Kernel.
  Context {A B C : Type} (zero : C) (add : C -> C -> C) (M : comm_monoid zero add) (cmul : A -> B -> C) (a : tensor A) (b : tensor B) (o : order) (pa pb s : list nat).
  Let la := t_layout a.
  Let lb := t_layout b.
  Let ra := rest_of (l_shape la) pa.
  Let rb := rest_of (l_shape lb) pb.
  Context (Ga : good la) (Gb : good lb) (Ia : inside la (length (t_data a))) (Ib : inside lb (length (t_data b))) (Sa : size (l_shape la) <> 0%nat) (Sb : size (l_shape lb) <> 0%nat).
  Context (Na : NoDup pa) (Nb : NoDup pb) (La : forall k, In k pa -> (k < ndim la)%nat) (Lb : forall k, In k pb -> (k < ndim lb)%nat) (Ep : pick pa 0%nat (l_shape la) = pick pb 0%nat (l_shape lb)) (Bs : broadcasts o ra rb s).
  Definition value_at (mx : list nat) : C := dot_value zero add cmul (t_data a) (t_data b) (pick pa 0%nat (l_shape la)) (pick pa 0 (l_stride la)) (pick pb 0 (l_stride lb))
    (addr (sub (axes_except (ndim la) pa) la) (source_index o ra mx)) (addr (sub (axes_except (ndim lb) pb) lb) (source_index o rb mx)).
  Lemma value_is_dot mx : valid ra (source_index o ra mx) -> valid rb (source_index o rb mx) -> is_dot zero add cmul o a b pa pb mx (value_at mx).
  Proof. intros Va Vb. unfold is_dot, t_shape. fold la lb. fold ra rb.
    destruct (elements_exist (t_data a) la Ia (fibre (l_shape la) pa (source_index o ra mx))) as (xs & Hx). { intros ix H. now apply (fibre_valid _ pa _ ix) in H. }
    destruct (elements_exist (t_data b) lb Ib (fibre (l_shape lb) pb (source_index o rb mx))) as (ys & Hy). { intros ix H. now apply (fibre_valid _ pb _ ix) in H. }
    exists xs, ys. split; auto. split; auto. unfold fibre in Hx, Hy. rewrite <- Ep in Hy. rewrite (elements_pairs zero cmul _ _ _ _ _ _ _ xs ys Hx Hy). unfold value_at, dot_value. f_equal. apply map_ext_in. intros sx Hs. apply (in_enum RowMajor) in Hs.
    f_equal; symmetry; apply fibre_addr; auto; try now apply good_wf. now rewrite <- Ep. Qed.
  Lemma dot_unique mx v w : is_dot zero add cmul o a b pa pb mx v -> is_dot zero add cmul o a b pa pb mx w -> v = w.
  Proof. intros (xs & ys & Hx & Hy & ->) (xs' & ys' & Hx' & Hy' & ->). unfold fibre in *. unfold t_shape in *. fold la lb in Hx, Hy, Hx', Hy'. rewrite <- Ep in Hy, Hy'. rewrite (elements_pairs zero cmul _ _ _ _ _ _ _ xs ys Hx Hy), (elements_pairs zero cmul _ _ _ _ _ _ _ xs' ys' Hx' Hy'). reflexivity. Qed.
  Definition consistent (lc : layout) : Prop := forall i j, valid s i -> valid s j -> addr lc i = addr lc j -> value_at i = value_at j.
  Lemma kernel_ok lc c : good lc -> l_shape lc = s -> consistent lc -> inside lc (length c) ->
    exists c', vecdot_serial zero add cmul o c lc (t_data a) la (t_data b) lb (map Z.of_nat pa) (map Z.of_nat pb) = Ok c' /\ untouched_outside lc c c' /\
      (forall mx, valid s mx -> exists v, elem c' lc mx = Some (Some v) /\ is_dot zero add cmul o a b pa pb mx v) /\
      forall switch pool r, vecdot_rayon zero add cmul switch pool o c lc (t_data a) la (t_data b) lb (map Z.of_nat pa) (map Z.of_nat pb) r -> r = Ok c'.
  Proof. intros Gc Sc K Ic. destruct (layouts_ok o lc la lb pa pb s Gc Ga Gb Sa Sb Na Nb La Lb Ep Sc Bs) as (lam & lbm & El & Gam & Gbm & Sam & Sbm & Fa & Fb). fold ra in Fa. fold rb in Fb.
    destruct (split_nat la pa Ga Sa Na La) as (_ & Gas & _). destruct (split_nat lb pb Gb Sb Nb Lb) as (_ & Gbs & _). unfold sub in El at 1 2. unfold sub in Gas, Gbs. rewrite <- Ep in El, Gbs.
    assert (Ss0 : size (pick pa 0%nat (l_shape la)) <> 0%nat) by (apply size_pick_pos; auto).
    assert (S0 : size s <> 0%nat). { eapply broadcasts_size; [exact Bs| |]; apply size_pick_pos; auto; intros k Hk; unfold axes_except in Hk; apply filter_In in Hk as [Hk _]; apply in_seq in Hk; lia. }
    destruct (plan_ok zero add M cmul (t_data a) (t_data b) (pick pa 0%nat (l_shape la)) s (pick pa 0 (l_stride la)) (pick pb 0 (l_stride lb)) (l_offset la) (l_offset lb) lc lam lbm) as (p & Epl & D); auto.
    { intros mx V. destruct (Fa mx V) as [V1 ->]. apply reach_fibre; auto. now apply good_wf. }
    { intros mx V. destruct (Fb mx V) as [V1 ->]. rewrite Ep. apply reach_fibre; auto. now apply good_wf. }
    destruct (D c Ic) as [(ixs & P & E) Par].
    assert (Wr : forall ixs, Permutation ixs (row_major s) -> exists c', fold_res (put zero add cmul (t_data a) (t_data b) (pick pa 0%nat (l_shape la)) (pick pa 0 (l_stride la)) (pick pb 0 (l_stride lb))) (map (tuple [lc; lam; lbm]) ixs) c = Ok c' /\
      untouched_outside lc c c' /\ forall mx, valid s mx -> elem c' lc mx = Some (Some (value_at mx))).
    { intros js Pj. rewrite fold_res_map.
      assert (Vj : forall j, In j js -> valid s j). { intros j Hj. eapply Permutation_in in Hj; [|exact Pj]. now apply (in_enum RowMajor) in Hj. }
      rewrite (fold_res_ext _ (fun c ix => let* y := Ok (Some (value_at ix)) in zset c (addr lc ix) y)).
      2:{ intros ix d Hi. destruct (Fa ix (Vj ix Hi)) as [_ F1]. destruct (Fb ix (Vj ix Hi)) as [_ F2]. unfold tuple. cbn [map put bind]. unfold value_at. now rewrite F1, F2. }
      rewrite (put_fold (addr lc) (fun ix => Ok (Some (value_at ix)))) by (intros i Hi; apply Ic; rewrite Sc; auto).
      destruct (steps_write c lc (fun ix => Ok (Some (value_at ix))) js Ic) as (c' & E' & U & H'); [now rewrite Sc|eauto| |].
      - intros i j Vi Vj' Eij. rewrite Sc in Vi, Vj'. now rewrite (K i j Vi Vj' Eij).
      - exists c'. split; auto. split; auto. intros mx V. destruct (H' mx) as (y & Ey & Hy); [now rewrite Sc|]. injection Ey as <-. exact Hy. }
    destruct (Wr ixs P) as (c' & Ew & U & H). exists c'.
    assert (Es : vecdot_serial zero add cmul o c lc (t_data a) la (t_data b) lb (map Z.of_nat pa) (map Z.of_nat pb) = Ok c').
    { unfold vecdot_serial. rewrite El. cbn [bind]. rewrite Epl. cbn [bind]. unfold run_plan in E. rewrite E. exact Ew. }
    split; auto. split; auto. split.
    - intros mx V. exists (value_at mx). split; auto. apply value_is_dot; [now apply Fa|now apply Fb].
    - intros switch pool r R. unfold vecdot_rayon in R. destruct (_ || _).
      + congruence.
      + rewrite El in R. cbn [bind] in R. rewrite Epl in R. destruct (Par r) as (js & Pj & ->). { unfold par_plan. destruct p; exact R. }
        destruct (Wr js Pj) as (c2 & E2 & U2 & H2). rewrite E2. f_equal. eapply untouched_unique; [exact U2|exact U|]. intros ix V. rewrite Sc in V. now rewrite H2, H. Qed.
End Kernel.
