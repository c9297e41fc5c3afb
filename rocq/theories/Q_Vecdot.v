(** vecdot: the statements. *)
From Verif Require Import Base Spec P_Index P_List M_Layout P_Layout P_Bounds P_Contig P_Strides Q_Layout M_Indexer P_Indexer M_Broadcast P_Broadcast Q_Broadcast M_Rearr M_Iter P_Iter P_Rearr P_BinOp Q_Rearr M_Kernel P_Kernel Q_Kernel M_Tensor P_Tensor Q_Tensor
  M_Reduce P_Reduce P_Arg P_Axes Q_Reduce Q_Iter P_Manip P_Matmul2 Spec_Views Spec_Tensordot Spec_Vecdot M_Vecdot P_Vecdot P_Vecdot2 P_Vecdot3 Q_Tensordot.
Local Open Scope Z_scope.

Lemma normalized x d p : normalize_axes_index x d false false = Ok p -> exists v, lists_axes x v /\ Forall2 (axis_denotes d) v p /\ NoDup p.
Proof. intro E. assert (exists v, lists_axes x v) as (v & Lv) by (destruct x; [discriminate|eexists; constructor|eexists; constructor]). exists v. split; auto. rewrite (normalize_list _ _ _ _ _ Lv) in E. apply normalize_spec in E as (p0 & D & [Y|Y] & ->); [discriminate|]. auto. Qed.
Lemma axes_ok da db axes pa pb : dot_axes da db axes pa pb -> vecdot_axes da db axes = Ok (map Z.of_nat pa, map Z.of_nat pb) /\ NoDup pa /\ NoDup pb /\ (forall k, In k pa -> (k < da)%nat) /\ (forall k, In k pb -> (k < db)%nat).
Proof. assert (One : forall d n : nat, (n < d)%nat -> NoDup [n] /\ forall k, In k [n] -> (k < d)%nat). { intros d n H. split; [repeat constructor; auto|]. intros k [<-|[]]; auto. }
  intro H. destruct H as [H1 H2|n H1 H2|n H0 H1 H2|x y va vb pa pb H1 H2 H3 H4 H5 H6 H7].
  - destruct (One da (da - 1)%nat) as [? ?]; [lia|]. destruct (One db (db - 1)%nat) as [? ?]; [lia|]. split; [|auto]. unfold vecdot_axes. cbn [Z.ltb Z.compare]. destruct (_ && _) eqn:E; [|lia]. cbn [check bind map]. do 3 f_equal; lia.
  - destruct (One da n H1) as [? ?]. destruct (One db n H2) as [? ?]. split; [|auto]. unfold vecdot_axes. destruct (Z.of_nat n <? 0) eqn:E0; [lia|]. destruct (_ && _) eqn:E; [|lia]. reflexivity.
  - destruct (One da (da - n)%nat) as [? ?]; [lia|]. destruct (One db (db - n)%nat) as [? ?]; [lia|]. split; [|auto]. unfold vecdot_axes. destruct (- Z.of_nat n <? 0) eqn:E0; [|lia]. destruct (_ && _) eqn:E; [|lia]. cbn [check bind map]. do 3 f_equal; lia.
  - split; [|pose proof (denotes_bound _ _ _ H3); pose proof (denotes_bound _ _ _ H4); auto]. unfold vecdot_axes. rewrite (normalize_ok x va da false false pa H1 H3 H5). cbn [bind]. rewrite (normalize_ok y vb db false false pb H2 H4 H6). cbn [bind]. rewrite H7, Nat.eqb_refl. reflexivity. Qed.
Lemma axes_cases da db axes : (exists pa pb, dot_axes da db axes pa pb) \/ (exists e, vecdot_axes da db axes = Err e).
Proof. destruct axes as [|n|x y].
  - destruct (le_lt_dec 1 da) as [H1|H1]; [destruct (le_lt_dec 1 db) as [H2|H2]|].
    + left. do 2 eexists. now apply dot_last.
    + right. unfold vecdot_axes. cbn [Z.ltb Z.compare]. destruct (_ && _) eqn:E; [lia|]. cbn. eauto.
    + right. unfold vecdot_axes. cbn [Z.ltb Z.compare]. destruct (_ && _) eqn:E; [lia|]. cbn. eauto.
  - unfold vecdot_axes. destruct (n <? 0) eqn:E0.
    + destruct (_ && _) eqn:E; [|right; cbn; eauto]. left. exists [(da - Z.to_nat (- n))%nat], [(db - Z.to_nat (- n))%nat]. replace n with (- Z.of_nat (Z.to_nat (- n))) at 1 by lia. apply dot_back; lia.
    + destruct (_ && _) eqn:E; [|right; cbn; eauto]. left. exists [Z.to_nat n], [Z.to_nat n]. replace n with (Z.of_nat (Z.to_nat n)) at 1 by lia. apply dot_front; lia.
  - unfold vecdot_axes. destruct (normalize_axes_index x da false false) as [pa|e|] eqn:Ex; cbn [bind]; [|eauto|now apply normalize_nopanic in Ex]. destruct (normalize_axes_index y db false false) as [pb|e|] eqn:Ey; cbn [bind]; [|eauto|now apply normalize_nopanic in Ey].
    destruct (Nat.eqb_spec (length pa) (length pb)) as [El|El]; [|right; cbn; eauto]. left. apply normalized in Ex as (va & ? & ? & ?), Ey as (vb & ? & ? & ?). exists pa, pb. now apply (dot_lists da db x y va vb). Qed.
Lemma of_nat_inj l1 : forall l2, map Z.of_nat l1 = map Z.of_nat l2 -> l1 = l2.
Proof. induction l1 as [|x l1 IH]; intros [|y l2] E; try discriminate E; auto. cbn [map] in E. injection E as E1 E2. f_equal; [lia|auto]. Qed.
Lemma axes_fun da db axes pa pb pa' pb' : dot_axes da db axes pa pb -> dot_axes da db axes pa' pb' -> pa' = pa /\ pb' = pb.
Proof. intros H H'. apply axes_ok in H as [E _], H' as [E' _]. rewrite E in E'. injection E' as E1 E2. split; symmetry; now apply of_nat_inj. Qed.

Lemma l_axes : forall da db axes,
  match vecdot_axes da db axes with
  | Ok (xa, xb) => exists pa pb, dot_axes da db axes pa pb /\ xa = map Z.of_nat pa /\ xb = map Z.of_nat pb
  | Err _ => ~ exists pa pb, dot_axes da db axes pa pb
  | Panic => False
  end.
Proof. intros da db axes. destruct (axes_cases da db axes) as [(pa & pb & H)|(e & E)].
  - destruct (axes_ok _ _ _ _ _ H) as [-> _]. eauto.
  - rewrite E. intros (pa & pb & H). destruct (axes_ok _ _ _ _ _ H) as [E' _]. congruence. Qed.

Section Prepare.
  Context {A B C : Type} (zero : C) (add : C -> C -> C) (M : comm_monoid zero add) (cmul : A -> B -> C) (a : tensor A) (b : tensor B) (o : order) (axes : axes_pair).
  Context (Ha : tensor_ok a) (Hb : tensor_ok b) (Sa : size (t_shape a) <> 0%nat) (Sb : size (t_shape b) <> 0%nat).
  Let rla pa := sub (axes_except (ndim (t_layout a)) pa) (t_layout a).
  Let rlb pb := sub (axes_except (ndim (t_layout b)) pb) (t_layout b).
  Definition aligned (lo : layout) (pa pb s : list nat) : Prop := forall i j, valid s i -> valid s j -> addr lo i = addr lo j ->
    addr (rla pa) (source_index o (rest_of (t_shape a) pa) i) = addr (rla pa) (source_index o (rest_of (t_shape a) pa) j) /\ addr (rlb pb) (source_index o (rest_of (t_shape b) pb) i) = addr (rlb pb) (source_index o (rest_of (t_shape b) pb) j).
  Lemma prepare_cases : (exists pa pb s lo n, contractible o (t_shape a) (t_shape b) axes pa pb s /\ @vecdot_prepare A B C o a b axes = Ok (map Z.of_nat pa, map Z.of_nat pb, lo, uninit C (Z.of_nat n)) /\
      good lo /\ l_offset lo = 0 /\ covers lo n /\ l_shape lo = s /\ aligned lo pa pb s) \/
    (exists e, @vecdot_prepare A B C o a b axes = Err e /\ ~ exists pa pb s, contractible o (t_shape a) (t_shape b) axes pa pb s).
  Proof. unfold vecdot_prepare, contractible. apply tensor_ok_good in Ha as [Ga Ia], Hb as [Gb Ib]. unfold t_shape, ndim in *. destruct (axes_cases (length (l_shape (t_layout a))) (length (l_shape (t_layout b))) axes) as [(pa & pb & Hd)|(e & E)].
    2:{ right. rewrite E. cbn [bind]. exists e. split; auto. intros (pa & pb & s & Hd & _). apply axes_ok in Hd as [E' _]. congruence. }
    destruct (axes_ok _ _ _ _ _ Hd) as (-> & Na & Nb & La & Lb). cbn [bind].
    destruct (split_nat _ pa Ga Sa Na La) as (-> & G1 & G2). cbn [bind]. destruct (split_nat _ pb Gb Sb Nb Lb) as (-> & G3 & G4). cbn [bind fst snd sub l_shape].
    assert (Uq : forall pa' pb' s, (dot_axes (length (l_shape (t_layout a))) (length (l_shape (t_layout b))) axes pa' pb' /\ pick pa' 0%nat (l_shape (t_layout a)) = pick pb' 0%nat (l_shape (t_layout b)) /\
        broadcasts o (rest_of (l_shape (t_layout a)) pa') (rest_of (l_shape (t_layout b)) pb') s) -> pick pa 0%nat (l_shape (t_layout a)) = pick pb 0%nat (l_shape (t_layout b)) /\ broadcasts o (rest_of (l_shape (t_layout a)) pa) (rest_of (l_shape (t_layout b)) pb) s).
    { intros pa' pb' s (Hd' & E1 & E2). destruct (axes_fun _ _ _ _ _ _ _ Hd Hd') as [-> ->]. auto. }
    destruct (list_eq_dec Nat.eq_dec (pick pa 0%nat (l_shape (t_layout a))) (pick pb 0%nat (l_shape (t_layout b)))) as [Ep|Np]; cbn [check bind].
    2:{ right. exists InvalidLayout. split; auto. intros (pa' & pb' & s & X). apply Uq in X as [X _]. auto. }
    fold (sub (axes_except (ndim (t_layout a)) pa) (t_layout a)). fold (sub (axes_except (ndim (t_layout b)) pb) (t_layout b)). change (sub (axes_except (ndim (t_layout a)) pa) (t_layout a)) with (rla pa). change (sub (axes_except (ndim (t_layout b)) pb) (t_layout b)) with (rlb pb). change (good (rla pa)) in G2. change (good (rlb pb)) in G4.
    pose proof (l_broadcast_layout o (rla pa) (rlb pb) (good_wf _ G2) (good_wf _ G4)) as BL.
    change (l_shape (rla pa)) with (rest_of (l_shape (t_layout a)) pa) in BL. change (l_shape (rlb pb)) with (rest_of (l_shape (t_layout b)) pb) in BL.
    destruct (broadcast_layout (rla pa) (rlb pb) o) as [[r1 r2]|e|] eqn:Eb; cbn [bind fst snd]; [|right; exists e; split; auto; intros (pa' & pb' & s & X); apply Uq in X as [_ X]; now apply (BL s)|contradiction]. clear BL. left.
    destruct (broadcast_good (rla pa) (rlb pb) o r1 r2 G2 G4 Eb) as (s & Bs & H1 & H2 & S1 & S2 & _ & _ & F1 & F2).
    change (l_shape (rla pa)) with (rest_of (l_shape (t_layout a)) pa) in *. change (l_shape (rlb pb)) with (rest_of (l_shape (t_layout b)) pb) in *.
    destruct (binop_good r1 r2 o (good_wf _ H1) (good_wf _ H2)) as (lo & n & E1 & So & Oo & Go & Cv & K); [congruence|]. rewrite E1. cbn [bind]. destruct (bounds_covers lo n (good_wf _ Go) Oo Cv) as (b0 & E2). rewrite E2. cbn [bind snd].
    exists pa, pb, s, lo, n. split; auto. split; auto. split; auto. split; auto. split; auto. split; [congruence|]. intros i j Vi Vj Eij. rewrite S1 in K. destruct (K i j Vi Vj Eij) as [K1 K2]. destruct (F1 i Vi) as [_ Q1]. destruct (F1 j Vj) as [_ Q2]. destruct (F2 i Vi) as [_ Q3]. destruct (F2 j Vj) as [_ Q4]. unfold t_shape. split; congruence. Qed.
  Lemma aligned_consistent lo pa pb s : aligned lo pa pb s -> consistent zero add cmul a b o pa pb s lo.
  Proof. intros H i j Vi Vj E. destruct (H i j Vi Vj E) as [E1 E2]. unfold rla, rlb, t_shape in E1, E2. unfold value_at. now rewrite E1, E2. Qed.
End Prepare.

Lemma vecdot_both {A B C} (zero : C) add (cmul : A -> B -> C) o (a : tensor A) (b : tensor B) axes : comm_monoid zero add -> tensor_ok a -> tensor_ok b -> size (t_shape a) <> 0%nat -> size (t_shape b) <> 0%nat ->
  match vecdot zero add cmul o a b axes with
  | Ok c => tensor_ok c /\ exists pa pb, contractible o (t_shape a) (t_shape b) axes pa pb (t_shape c) /\ aligned a b o (t_layout c) pa pb (t_shape c) /\
      forall mx, valid (t_shape c) mx -> exists v, at_ c mx = Some v /\ is_dot zero add cmul o a b pa pb mx v
  | Err _ => ~ exists pa pb s, contractible o (t_shape a) (t_shape b) axes pa pb s
  | Panic => False
  end /\ forall switch pool r, vecdot_on_rayon zero add cmul switch pool o a b axes r -> r = vecdot zero add cmul o a b axes.
Proof. intros M Ha Hb Sa Sb. unfold vecdot, vecdot_on_rayon. destruct (@prepare_cases A B C a b o axes Ha Hb Sa Sb) as [(pa & pb & s & lo & n & Ct & -> & Go & Oo & Cv & So & Al)|(e & -> & N)]; cbn [bind]; [|auto].
  destruct (Ct) as (Hd & Ep & Bs). destruct (axes_ok _ _ _ _ _ Hd) as (_ & Na & Nb & La & Lb). pose proof (proj1 (tensor_ok_good a) Ha) as [Ga Ia]. pose proof (proj1 (tensor_ok_good b) Hb) as [Gb Ib].
  assert (Ln : length (uninit C (Z.of_nat n)) = n) by (rewrite uninit_length; lia).
  destruct (kernel_ok zero add M cmul a b o pa pb s Ga Gb Ia Ib Sa Sb Na Nb La Lb Ep Bs lo (uninit C (Z.of_nat n)) Go So) as (c' & -> & [U _] & H & R).
  { now apply aligned_consistent. } { rewrite Ln. now apply covers_inside. }
  cbn [bind]. destruct (fresh_result lo c' (fun mx v => is_dot zero add cmul o a b pa pb mx v)) as (d & E1 & E2 & Ld & Id & Hv); auto.
  { now rewrite U, Ln. } { rewrite So. auto. }
  rewrite E1. cbn [bind]. rewrite E2. split.
  - split; [apply tensor_ok_good; auto|]. exists pa, pb. unfold t_shape in *. cbn [t_layout t_data]. rewrite So. split; auto. split; auto. intros mx V. rewrite So in Hv. unfold at_. cbn [t_layout t_data]. auto.
  - intros switch pool r (c2 & Hr & ->). apply R in Hr. subst c2. cbn [bind]. now rewrite E1. Qed.

Lemma l_vecdot : forall (A B C : Type) (zero : C) (add : C -> C -> C) (cmul : A -> B -> C) (o : order) (a : tensor A) (b : tensor B) (axes : axes_pair),
  comm_monoid zero add -> tensor_ok a -> tensor_ok b -> size (t_shape a) <> 0%nat -> size (t_shape b) <> 0%nat ->
  match vecdot zero add cmul o a b axes with
  | Ok c => tensor_ok c /\ exists pa pb, contractible o (t_shape a) (t_shape b) axes pa pb (t_shape c) /\
      forall mx, valid (t_shape c) mx -> exists v, at_ c mx = Some v /\ is_dot zero add cmul o a b pa pb mx v
  | Err _ => ~ exists pa pb s, contractible o (t_shape a) (t_shape b) axes pa pb s
  | Panic => False
  end.
Proof. intros A B C zero add cmul o a b axes M Ha Hb Sa Sb. pose proof (proj1 (vecdot_both zero add cmul o a b axes M Ha Hb Sa Sb)) as H. destruct (vecdot _ _ _ _ _ _ _); auto. destruct H as (H1 & pa & pb & H2 & _ & H3). eauto. Qed.

Lemma l_vecdot_rayon : forall (A B C : Type) (zero : C) (add : C -> C -> C) (cmul : A -> B -> C) (switch : nat) (pool : bool) (o : order) (a : tensor A) (b : tensor B) (axes : axes_pair) (r : res (tensor C)),
  comm_monoid zero add -> tensor_ok a -> tensor_ok b -> size (t_shape a) <> 0%nat -> size (t_shape b) <> 0%nat -> injective (t_layout a) -> injective (t_layout b) ->
  vecdot_on_rayon zero add cmul switch pool o a b axes r -> r = vecdot zero add cmul o a b axes /\ forall c, r = Ok c -> injective (t_layout c).
Proof. intros A B C zero add cmul switch pool o a b axes r M Ha Hb Sa Sb Ja Jb H. destruct (vecdot_both zero add cmul o a b axes M Ha Hb Sa Sb) as [H1 H2]. specialize (H2 switch pool r H). split; auto. intros c E. rewrite <- H2, E in H1. clear H H2 E.
  destruct H1 as (Hc & pa & pb & (Hd & Ep & Bs) & Al & _). destruct (axes_ok _ _ _ _ _ Hd) as (_ & Na & Nb & La & Lb). apply tensor_ok_good in Ha as [Ga _], Hb as [Gb _].
  assert (X : forall T (t : tensor T) p i j, good (t_layout t) -> injective (t_layout t) -> size (t_shape t) <> 0%nat -> NoDup p -> (forall k, In k p -> (k < length (t_shape t))%nat) -> valid (rest_of (t_shape t) p) i -> valid (rest_of (t_shape t) p) j ->
    addr (sub (axes_except (ndim (t_layout t)) p) (t_layout t)) i = addr (sub (axes_except (ndim (t_layout t)) p) (t_layout t)) j -> i = j).
  { intros T t p i j G J S N L Vi Vj E. assert (Vz : valid (pick p 0%nat (l_shape (t_layout t))) (repeat 0%nat (length (pick p 0%nat (l_shape (t_layout t)))))) by (apply valid_zeros, size_pick_pos; auto).
    set (z := repeat 0%nat (length (pick p 0%nat (l_shape (t_layout t))))) in *. unfold t_shape in *.
    assert (Em : merge (length (l_shape (t_layout t))) p z i = merge (length (l_shape (t_layout t))) p z j). { apply J; try (apply merge_valid; auto). rewrite !fibre_addr; auto; try (now apply good_wf). lia. }
    assert (Lz : length z = length p). { apply valid_length in Vz. now rewrite pick_length in Vz. }
    apply valid_length in Vi, Vj. unfold rest_of in Vi, Vj. rewrite pick_length in Vi, Vj.
    destruct (merge_spec (length (l_shape (t_layout t))) p z i N L Lz Vi) as (_ & _ & <-). destruct (merge_spec (length (l_shape (t_layout t))) p z j N L Lz Vj) as (_ & _ & <-). now rewrite Em. }
  assert (Src : forall t i (B0 : exists t2, broadcasts o t t2 (t_shape c)), valid (t_shape c) i -> valid t (source_index o t i)).
  { intros t i (t2 & B0) V. destruct (broadcast_shape_complete o t t2 _ B0) as (u1 & u2 & E0). destruct (broadcast_operand (new_contig Dyn t 0 RowMajor) t2 (t_shape c) o) with (t1 := u1) (t2 := u2) as (r' & _ & _ & _ & _ & F); auto. { apply good_wf, contig_good; lia. } apply (F i V). }
  intros i j Vi Vj Eij. destruct (Al i j Vi Vj Eij) as [E1 E2]. eapply (sources_determine o _ _ _ i j Bs Vi Vj).
  - apply (X A a pa); auto; apply Src; eauto.
  - apply (X B b pb); auto; apply Src; auto; exists (rest_of (t_shape a) pa); now apply broadcasts_comm. Qed.

Lemma broadcast_shapes_two o s1 s2 : match broadcast_shapes [s1; s2] o with Ok s => broadcasts o s1 s2 s | Err _ => forall s, ~ broadcasts o s1 s2 s | Panic => False end.
Proof. cbn [broadcast_shapes fold_res]. destruct (broadcast_shape s2 s1 o) as [[[s t1] t2]|e|] eqn:E; cbn [bind fst].
  - apply broadcast_shape_ok in E. now apply broadcasts_comm.
  - intros s H. apply broadcasts_comm in H. apply broadcast_shape_complete in H as (t1 & t2 & E'). congruence.
  - now apply broadcast_shape_nopanic in E. Qed.
Lemma l_vecdot_from : forall (A B C : Type) (zero : C) (add : C -> C -> C) (cmul : A -> B -> C) (o : order) (c : tensor C) (a : tensor A) (b : tensor B) (axes : axes_pair),
  comm_monoid zero add -> tensor_ok c -> tensor_ok a -> tensor_ok b -> size (t_shape a) <> 0%nat -> size (t_shape b) <> 0%nat -> injective (t_layout c) ->
  match vecdot_from zero add cmul o c a b axes with
  | Ok c' => t_layout c' = t_layout c /\ untouched_outside (t_layout c) (t_data c) (t_data c') /\
      exists pa pb, contractible o (t_shape a) (t_shape b) axes pa pb (t_shape c) /\
        forall mx, valid (t_shape c) mx -> exists v, at_ c' mx = Some v /\ is_dot zero add cmul o a b pa pb mx v
  | Err _ => ~ exists pa pb, contractible o (t_shape a) (t_shape b) axes pa pb (t_shape c)
  | Panic => False
  end.
Proof. intros A B C zero add cmul o c a b axes M Hc Ha Hb Sa Sb J. unfold vecdot_from. pose proof (proj1 (tensor_ok_good a) Ha) as [Ga Ia]. pose proof (proj1 (tensor_ok_good b) Hb) as [Gb Ib]. pose proof (proj1 (tensor_ok_good c) Hc) as [Gc Ic].
  change (ndim (t_layout a)) with (length (t_shape a)). change (ndim (t_layout b)) with (length (t_shape b)).
  destruct (axes_cases (length (t_shape a)) (length (t_shape b)) axes) as [(pa & pb & Hd)|(e & E)].
  2:{ rewrite E. cbn [bind]. intros (pa & pb & Hd & _). apply axes_ok in Hd as [E' _]. congruence. }
  destruct (axes_ok _ _ _ _ _ Hd) as (-> & Na & Nb & La & Lb). cbn [bind].
  destruct (split_nat _ pa Ga Sa Na La) as (-> & G1 & G2). cbn [bind]. destruct (split_nat _ pb Gb Sb Nb Lb) as (-> & G3 & G4). cbn [bind fst snd sub l_shape].
  assert (Uq : forall pa' pb' s, contractible o (t_shape a) (t_shape b) axes pa' pb' s -> pick pa 0%nat (t_shape a) = pick pb 0%nat (t_shape b) /\ broadcasts o (rest_of (t_shape a) pa) (rest_of (t_shape b) pb) s).
  { intros pa' pb' s (Hd' & E1 & E2). destruct (axes_fun _ _ _ _ _ _ _ Hd Hd') as [-> ->]. auto. }
  change (l_shape (t_layout a)) with (t_shape a). change (l_shape (t_layout b)) with (t_shape b). change (ndim (t_layout a)) with (length (t_shape a)). change (ndim (t_layout b)) with (length (t_shape b)).
  destruct (list_eq_dec Nat.eq_dec (pick pa 0%nat (t_shape a)) (pick pb 0%nat (t_shape b))) as [Ep|Np]; cbn [check bind].
  2:{ intros (pa' & pb' & X). apply Uq in X as [X _]. auto. }
  fold (rest_of (t_shape a) pa). fold (rest_of (t_shape b) pb). pose proof (broadcast_shapes_two o (rest_of (t_shape a) pa) (rest_of (t_shape b) pb)) as BS.
  destruct (broadcast_shapes [rest_of (t_shape a) pa; rest_of (t_shape b) pb] o) as [s|e|]; cbn [bind]; [|intros (pa' & pb' & X); apply Uq in X as [_ X]; now apply BS in X|contradiction].
  destruct (list_eq_dec Nat.eq_dec s (t_shape c)) as [->|Ns]; cbn [check bind]; [|intros (pa' & pb' & X); apply Uq in X as [_ X]; apply Ns; eapply broadcasts_fun; eauto].
  destruct (kernel_ok zero add M cmul a b o pa pb (t_shape c) Ga Gb Ia Ib Sa Sb Na Nb La Lb Ep BS (t_layout c) (map Some (t_data c)) Gc eq_refl) as (c' & -> & [U1 U2] & H & _).
  { intros i j Vi Vj E. now rewrite (J i j Vi Vj E). } { now rewrite map_length. }
  cbn [bind]. rewrite map_length in U1. destruct (all_some c') as (d & ->).
  { intros p Hp. destruct (in_dec Z.eq_dec p (addrs RowMajor (t_layout c))) as [I|I].
    - unfold addrs in I. apply in_map_iff in I as (ix & <- & Hi). apply in_enum in Hi. destruct (H ix Hi) as (v & Hv & _). exists v. exact Hv.
    - rewrite U2. 2:{ intros ix V E. apply I. unfold addrs. apply in_map_iff. exists ix. split; auto. now apply in_enum. }
      rewrite U1 in Hp. apply peek_inside in Hp as (x & Hx). exists x. rewrite peek_map, Hx. reflexivity. }
  rewrite assume_some. cbn [bind t_layout t_data]. rewrite map_length in U1. split; auto. split.
  - split; auto. intros p Hp. specialize (U2 p Hp). rewrite !peek_map in U2. destruct (peek d p), (peek (t_data c) p); cbn in U2; congruence.
  - exists pa, pb. split; [split; auto|]. intros mx V. destruct (H mx V) as (v & Hv & D). exists v. split; auto. unfold at_, elem in *. cbn [t_layout t_data]. rewrite peek_map in Hv. destruct (peek d _); cbn in Hv; congruence. Qed.

(** a 3 by 0 matrix, as a fixed-rank tensor has it *)
Definition empty_matrix : tensor Z := mkTensor [] (new_contig Fixed [3; 0]%nat 0 RowMajor).
Lemma l_empty_refuted : tensor_ok empty_matrix /\ contractible RowMajor [3; 0]%nat [3; 0]%nat (PairVal (-1)) [1]%nat [1]%nat [3]%nat /\
  (forall mx, valid [3]%nat mx -> is_dot 0 Z.add Z.mul RowMajor empty_matrix empty_matrix [1]%nat [1]%nat mx 0) /\
  vecdot 0 Z.add Z.mul RowMajor empty_matrix empty_matrix (PairVal (-1)) = Panic.
Proof. split.
  - apply tensor_ok_good. cbn [empty_matrix t_layout t_data]. split; [apply contig_good; lia|]. intros ix V. exfalso. apply valid_nth in V as [_ V]. specialize (V 1%nat). cbn in V. lia.
  - split.
    + split; [exact (dot_back 2 2 1 ltac:(lia) ltac:(lia) ltac:(lia))|]. split; [reflexivity|]. split; [reflexivity|]. intro k. left. auto.
    + split; [|vm_compute; reflexivity]. intros mx V. exists [], []. split; [constructor|]. split; [constructor|reflexivity]. Qed.
