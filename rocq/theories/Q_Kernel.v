(** What the elementwise kernels do to the storage, serial and parallel (C26, C27, C28, C53, C55). *)
From Verif Require Import Base Spec P_Index P_List M_Layout P_Layout P_Bounds P_Contig P_Strides M_Broadcast P_Indexer P_Broadcast M_Rearr M_Iter P_Iter P_Rearr P_BinOp Q_Rearr M_Kernel P_Kernel.
Local Open Scope Z_scope.

Lemma writes3_total {A B C} (a : list A) la (b : list B) lb (f : C -> A -> B -> C) : inside la (length a) -> inside lb (length b) -> l_shape la = l_shape lb ->
  forall ix, valid (l_shape la) ix -> exists y z, elem a la ix = Some y /\ elem b lb ix = Some z /\ forall x, writes3 a la b lb f ix x = Ok (f x y z).
Proof. intros Ia Ib E ix V. destruct (elem_inside a la ix Ia V) as (y & Hy). rewrite E in V. destruct (elem_inside b lb ix Ib V) as (z & Hz). exists y, z. split; auto. split; auto. intro x. unfold writes3.
  apply zget_peek in Hy, Hz. rewrite Hy. cbn [bind]. rewrite Hz. reflexivity. Qed.
Lemma writes2_total {A C} (a : list A) la (f : C -> A -> C) : inside la (length a) ->
  forall ix, valid (l_shape la) ix -> exists y, elem a la ix = Some y /\ forall x, writes2 a la f ix x = Ok (f x y).
Proof. intros Ia ix V. destruct (elem_inside a la ix Ia V) as (y & Hy). exists y. split; auto. intro x. unfold writes2. apply zget_peek in Hy. rewrite Hy. reflexivity. Qed.

(** the outcome of updating every element once *)
Definition updated3 {A B C} (c : list C) lc (a : list A) la (b : list B) lb (f : C -> A -> B -> C) (c' : list C) : Prop :=
  untouched_outside lc c c' /\ forall ix, valid (l_shape lc) ix ->
    exists x y z, elem c lc ix = Some x /\ elem a la ix = Some y /\ elem b lb ix = Some z /\ elem c' lc ix = Some (f x y z).
Definition updated2 {A C} (c : list C) lc (a : list A) la (f : C -> A -> C) (c' : list C) : Prop :=
  untouched_outside lc c c' /\ forall ix, valid (l_shape lc) ix ->
    exists x y, elem c lc ix = Some x /\ elem a la ix = Some y /\ elem c' lc ix = Some (f x y).
Definition updated1 {C} (c : list C) lc (f : C -> C) (c' : list C) : Prop :=
  untouched_outside lc c c' /\ forall ix, valid (l_shape lc) ix -> exists x, elem c lc ix = Some x /\ elem c' lc ix = Some (f x).
Lemma updated3_unique {A B C} (c : list C) lc (a : list A) la (b : list B) lb (f : C -> A -> B -> C) c1 c2 : updated3 c lc a la b lb f c1 -> updated3 c lc a la b lb f c2 -> c1 = c2.
Proof. intros [U1 H1] [U2 H2]. eapply untouched_unique; eauto. intros ix V. destruct (H1 ix V) as (x & y & z & E1 & E2 & E3 & ->). destruct (H2 ix V) as (x' & y' & z' & E1' & E2' & E3' & ->). congruence. Qed.
Lemma updated2_unique {A C} (c : list C) lc (a : list A) la (f : C -> A -> C) c1 c2 : updated2 c lc a la f c1 -> updated2 c lc a la f c2 -> c1 = c2.
Proof. intros [U1 H1] [U2 H2]. eapply untouched_unique; eauto. intros ix V. destruct (H1 ix V) as (x & y & E1 & E2 & ->). destruct (H2 ix V) as (x' & y' & E1' & E2' & ->). congruence. Qed.
Lemma updated1_unique {C} (c : list C) lc (f : C -> C) c1 c2 : updated1 c lc f c1 -> updated1 c lc f c2 -> c1 = c2.
Proof. intros [U1 H1] [U2 H2]. eapply untouched_unique; eauto. intros ix V. destruct (H1 ix V) as (x & E1 & ->). destruct (H2 ix V) as (x' & E1' & ->). congruence. Qed.

Section Joint.
  Context {A B C : Type} (k : dimty) (c : list C) (lc : layout) (a : list A) (la : layout) (b : list B) (lb : layout) (sh : list nat).
  Context (Gc : good lc) (Ga : good la) (Gb : good lb) (Sc : l_shape lc = sh) (Sa : l_shape la = sh) (Sb : l_shape lb = sh)
    (Ic : inside lc (length c)) (Ia : inside la (length a)) (Ib : inside lb (length b)).
  Lemma steps3_modify (f : C -> A -> B -> C) ixs : injective lc -> Permutation ixs (row_major sh) ->
    exists c', fold_res (fun s ix => cell3 a b f s (tuple [lc; la; lb] ix)) ixs c = Ok c' /\ updated3 c lc a la b lb f c'.
  Proof. intros J P. rewrite (fold_res_ext' _ (modify (addr lc) (writes3 a la b lb f))) by (intros; apply cell3_modify).
    destruct (steps_modify c lc (writes3 a la b lb f) ixs Ic J) as (c' & E & U & H).
    - now rewrite Sc.
    - intros ix x V. rewrite Sc, <- Sa in V. destruct (writes3_total a la b lb f Ia Ib) with (ix := ix) as (y & z & _ & _ & X); [congruence|auto|]. eauto.
    - exists c'. split; auto. split; auto. intros ix V. destruct (H ix V) as (x & y & E1 & E2 & E3). rewrite Sc, <- Sa in V.
      destruct (writes3_total a la b lb f Ia Ib) with (ix := ix) as (y' & z' & F1 & F2 & X); [congruence|auto|]. rewrite X in E2. injection E2 as <-. exists x, y', z'. auto. Qed.
  Lemma steps3_write (f : C -> A -> B -> C) (w : A -> B -> C) ixs : (forall x y z, f x y z = w y z) ->
    (forall i j, valid sh i -> valid sh j -> addr lc i = addr lc j -> addr la i = addr la j /\ addr lb i = addr lb j) -> Permutation ixs (row_major sh) ->
    exists c', fold_res (fun s ix => cell3 a b f s (tuple [lc; la; lb] ix)) ixs c = Ok c' /\ updated3 c lc a la b lb f c'.
  Proof. intros Hw K P. set (wr := fun ix => let* y := zget a (addr la ix) in let* z := zget b (addr lb ix) in Ok (w y z)).
    rewrite (fold_res_ext' _ (modify (addr lc) (fun ix _ => wr ix))).
    2:{ intros s ix. rewrite cell3_modify. unfold modify. apply bind_ext. intro x. f_equal. unfold writes3, wr. apply bind_ext. intro y. apply bind_ext. intro z. now rewrite Hw. }
    assert (T : forall ix, valid sh ix -> exists y z, elem a la ix = Some y /\ elem b lb ix = Some z /\ wr ix = Ok (w y z)).
    { intros ix V. assert (V' := V). rewrite <- Sc in V'. destruct (elem_inside c lc ix Ic V') as (x & _). rewrite <- Sa in V. destruct (writes3_total a la b lb (fun (_ : C) y z => w y z) Ia Ib) with (ix := ix) as (y & z & E1 & E2 & X); [congruence|auto|]. exists y, z. split; auto. split; auto. apply (X x). }
    destruct (steps_write c lc wr ixs Ic) as (c' & E & U & H).
    - now rewrite Sc.
    - intros ix V. rewrite Sc in V. destruct (T ix V) as (y & z & _ & _ & X). eauto.
    - rewrite Sc. intros i j Vi Vj Eij. destruct (K i j Vi Vj Eij) as [K1 K2]. unfold wr. now rewrite K1, K2.
    - exists c'. split; auto. split; auto. intros ix V. destruct (H ix V) as (v & E1 & E2). destruct (elem_inside c lc ix Ic V) as (x & Hx). rewrite Sc in V. destruct (T ix V) as (y & z & F1 & F2 & X). exists x, y, z. rewrite Hw. split; auto. split; auto. split; auto. congruence. Qed.
  Lemma steps2_modify (f : C -> A -> C) ixs : injective lc -> Permutation ixs (row_major sh) ->
    exists c', fold_res (fun s ix => cell2 a f s (tuple [lc; la] ix)) ixs c = Ok c' /\ updated2 c lc a la f c'.
  Proof. intros J P. rewrite (fold_res_ext' _ (modify (addr lc) (writes2 a la f))) by (intros; apply cell2_modify).
    destruct (steps_modify c lc (writes2 a la f) ixs Ic J) as (c' & E & U & H).
    - now rewrite Sc.
    - intros ix x V. rewrite Sc, <- Sa in V. destruct (writes2_total a la f Ia ix V) as (y & _ & X). eauto.
    - exists c'. split; auto. split; auto. intros ix V. destruct (H ix V) as (x & y & E1 & E2 & E3). rewrite Sc, <- Sa in V. destruct (writes2_total a la f Ia ix V) as (y' & F1 & X). rewrite X in E2. injection E2 as <-. exists x, y'. auto. Qed.
End Joint.

(** every distinct element position once *)
Lemma steps1 {C} (c : list C) lc (f : C -> C) ps : inside lc (length c) -> NoDup ps -> (forall z, In z ps <-> exists ix, valid (l_shape lc) ix /\ addr lc ix = z) ->
  exists c', fold_res (fun s z => cell1 f s [z]) ps c = Ok c' /\ updated1 c lc f c'.
Proof. intros I ND Q. destruct (modify_fold (fun p => p) (fun _ x => Ok (f x)) ps c) as (c' & E & L & H & U).
  - now rewrite map_id.
  - intros z Hz. apply Q in Hz as (ix & V & <-). now apply I.
  - eauto.
  - exists c'. split; auto. split.
    + split; auto. intros p Hp. apply U. rewrite map_id, Q. intros (ix & V & X). now apply (Hp ix).
    + intros ix V. destruct (elem_inside c lc ix I V) as (x & Hx). exists x. split; auto. destruct (H (addr lc ix) x) as (y & Ey & Py); auto; [rewrite Q; eauto|]. injection Ey as <-. exact Py. Qed.

(** ** the serial kernels *)
Lemma op3_kernel {A B C} k (c : list C) lc (a : list A) la (b : list B) lb (f : C -> A -> B -> C) sh : good lc -> good la -> good lb ->
  l_shape lc = sh -> l_shape la = sh -> l_shape lb = sh -> inside lc (length c) -> inside la (length a) -> inside lb (length b) -> injective lc ->
  exists c', op_mutc_refa_refb k c lc a la b lb f = Ok c' /\ updated3 c lc a la b lb f c'.
Proof. intros Gc Ga Gb Sc Sa Sb Ic Ia Ib J. unfold op_mutc_refa_refb. destruct (joint_kernel_ok k [lc; la; lb] sh (cell3 a b f) c) as (ixs & P & ->); [discriminate|auto|auto|]. now apply steps3_modify with (sh := sh). Qed.
Lemma op3_kernel_write {A B C} k (c : list C) lc (a : list A) la (b : list B) lb (f : C -> A -> B -> C) (w : A -> B -> C) sh : good lc -> good la -> good lb ->
  l_shape lc = sh -> l_shape la = sh -> l_shape lb = sh -> inside lc (length c) -> inside la (length a) -> inside lb (length b) -> (forall x y z, f x y z = w y z) ->
  (forall i j, valid sh i -> valid sh j -> addr lc i = addr lc j -> addr la i = addr la j /\ addr lb i = addr lb j) ->
  exists c', op_mutc_refa_refb k c lc a la b lb f = Ok c' /\ updated3 c lc a la b lb f c'.
Proof. intros Gc Ga Gb Sc Sa Sb Ic Ia Ib Hw K. unfold op_mutc_refa_refb. destruct (joint_kernel_ok k [lc; la; lb] sh (cell3 a b f) c) as (ixs & P & ->); [discriminate|auto|auto|]. now apply steps3_write with (sh := sh) (w := w). Qed.
Lemma op2_kernel {A C} k (c : list C) lc (a : list A) la (f : C -> A -> C) sh : good lc -> good la -> l_shape lc = sh -> l_shape la = sh -> inside lc (length c) -> inside la (length a) -> injective lc ->
  exists c', joint_kernel k [lc; la] (cell2 a f) c = Ok c' /\ updated2 c lc a la f c'.
Proof. intros Gc Ga Sc Sa Ic Ia J. destruct (joint_kernel_ok k [lc; la] sh (cell2 a f) c) as (ixs & P & ->); [discriminate|auto|auto|]. now apply steps2_modify with (sh := sh). Qed.
Lemma op1_kernel {C} k sw (c : list C) lc (f : C -> C) : (1 <= sw)%nat -> wf lc -> nonneg lc -> distinct lc -> inside lc (length c) ->
  exists c', single_kernel k sw lc (cell1 f) c = Ok c' /\ updated1 c lc f c'.
Proof. intros S W N D I. destruct (single_kernel_ok k sw lc (cell1 f) c S W N D) as (ps & ND & Q & ->). now apply steps1. Qed.

(** ** the parallel kernels *)
Lemma op3_par {A B C} k (c : list C) lc (a : list A) la (b : list B) lb (f : C -> A -> B -> C) sh r : good lc -> good la -> good lb ->
  l_shape lc = sh -> l_shape la = sh -> l_shape lb = sh -> inside lc (length c) -> inside la (length a) -> inside lb (length b) -> injective lc ->
  joint_par k [lc; la; lb] (cell3 a b f) c r -> exists c', r = Ok c' /\ updated3 c lc a la b lb f c'.
Proof. intros Gc Ga Gb Sc Sa Sb Ic Ia Ib J H. destruct (joint_par_ok k [lc; la; lb] sh (cell3 a b f) c r) as (ixs & P & ->); [discriminate|auto|auto|auto|]. now apply steps3_modify with (sh := sh). Qed.
Lemma op2_par {A C} k (c : list C) lc (a : list A) la (f : C -> A -> C) sh r : good lc -> good la -> l_shape lc = sh -> l_shape la = sh -> inside lc (length c) -> inside la (length a) -> injective lc ->
  joint_par k [lc; la] (cell2 a f) c r -> exists c', r = Ok c' /\ updated2 c lc a la f c'.
Proof. intros Gc Ga Sc Sa Ic Ia J H. destruct (joint_par_ok k [lc; la] sh (cell2 a f) c r) as (ixs & P & ->); [discriminate|auto|auto|auto|]. now apply steps2_modify with (sh := sh). Qed.
Lemma op1_par {C} k (c : list C) lc (f : C -> C) r : wf lc -> nonneg lc -> distinct lc -> inside lc (length c) ->
  single_par k lc (cell1 f) c r -> exists c', r = Ok c' /\ updated1 c lc f c'.
Proof. intros W N D I H. destruct (single_par_ok k lc (cell1 f) c r W N D H) as (ps & ND & Q & ->). now apply steps1. Qed.

(** ** C53 *)
Lemma l_rayon_binary : forall (A B C : Type) pool k (c : list C) lc (a : list A) la (b : list B) lb (f : C -> A -> B -> C) r,
  accepted lc -> accepted la -> accepted lb -> l_shape la = l_shape lc -> l_shape lb = l_shape lc ->
  inside lc (length c) -> inside la (length a) -> inside lb (length b) -> injective lc ->
  op_mutc_refa_refb_rayon pool k c lc a la b lb f r -> r = op_mutc_refa_refb k c lc a la b lb f.
Proof. intros A B C pool k c lc a la b lb f r Gc Ga Gb Sa Sb Ic Ia Ib J. apply good_accepted in Gc, Ga, Gb. unfold op_mutc_refa_refb_rayon. destruct (_ || _); auto. intro H.
  destruct (op3_par k c lc a la b lb f (l_shape lc) r) as (c1 & -> & U1); auto. destruct (op3_kernel k c lc a la b lb f (l_shape lc)) as (c2 & -> & U2); auto. f_equal. eapply updated3_unique; eauto. Qed.
Lemma l_rayon_inplace : forall (A B : Type) pool k (a : list A) la (b : list B) lb (f : A -> B -> A) r,
  accepted la -> accepted lb -> l_shape lb = l_shape la -> inside la (length a) -> inside lb (length b) -> injective la ->
  op_muta_refb_rayon pool k a la b lb f r -> r = op_muta_refb k a la b lb f.
Proof. intros A B pool k a la b lb f r Ga Gb Sb Ia Ib J. apply good_accepted in Ga, Gb. unfold op_muta_refb_rayon. destruct (_ || _); auto. intro H.
  destruct (op2_par k a la b lb f (l_shape la) r) as (c1 & -> & U1); auto. unfold op_muta_refb. destruct (op2_kernel k a la b lb f (l_shape la)) as (c2 & -> & U2); auto. f_equal. eapply updated2_unique; eauto. Qed.
Lemma l_rayon_assign : forall (A C : Type) pool k (cast : A -> C) (c : list C) lc (a : list A) la r,
  accepted lc -> accepted la -> l_shape la = l_shape lc -> inside lc (length c) -> inside la (length a) -> injective lc ->
  assign_rayon pool k cast c lc a la r -> r = assign k cast c lc a la.
Proof. intros A C pool k cast c lc a la r Gc Ga Sa Ic Ia J. apply good_accepted in Gc, Ga. unfold assign_rayon. destruct (_ || _); auto. intro H.
  destruct (op2_par k c lc a la (fun _ y => cast y) (l_shape lc) r) as (c1 & -> & U1); auto. unfold assign. destruct (op2_kernel k c lc a la (fun _ y => cast y) (l_shape lc)) as (c2 & -> & U2); auto. f_equal. eapply updated2_unique; eauto. Qed.
Lemma l_rayon_map : forall (A : Type) pool k (a : list A) la (f : A -> A) r, accepted la -> inside la (length a) ->
  op_muta_rayon pool k a la f r -> r = op_muta k a la f.
Proof. intros A pool k a la f r Ga Ia. apply good_accepted in Ga. pose proof (accepted_distinct la Ga) as D. destruct Ga as (W & N & _). unfold op_muta_rayon. destruct (_ || _); auto. intro H.
  destruct (op1_par k a la f r) as (c1 & -> & U1); auto. unfold op_muta. destruct (op1_kernel k contig_switch a la f) as (c2 & -> & U2); auto; [unfold contig_switch; lia|]. f_equal. eapply updated1_unique; eauto. Qed.
Lemma l_rayon_fill : forall (A C : Type) pool k (cast : A -> C) (c : list C) lc v r, accepted lc -> inside lc (length c) ->
  fill_rayon pool k cast c lc v r -> r = fill k cast c lc v.
Proof. intros A C pool k cast c lc v r Gc Ic. apply good_accepted in Gc. pose proof (accepted_distinct lc Gc) as D. destruct Gc as (W & N & _). unfold fill_rayon. destruct (_ || _); auto. intro H.
  destruct (op1_par k c lc (fun _ => cast v) r) as (c1 & -> & U1); auto. unfold fill. destruct (op1_kernel k (S contig_switch) c lc (fun _ => cast v)) as (c2 & -> & U2); auto; [lia|]. f_equal. eapply updated1_unique; eauto. Qed.
