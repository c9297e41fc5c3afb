(** Property lemmas about tensor-level elementwise operations (C26, C27, C28, C55). *)
From Verif Require Import Base Spec P_Index P_List M_Layout P_Layout P_Bounds P_Contig P_Strides M_Indexer P_Indexer M_Broadcast P_Broadcast Q_Broadcast M_Rearr M_Iter P_Iter P_Rearr P_BinOp Q_Rearr M_Kernel P_Kernel Q_Kernel M_Tensor P_Tensor.
Local Open Scope Z_scope.

Lemma inside_source {T} (d : list T) l l' f : inside l (length d) -> (forall ix, valid (l_shape l') ix -> valid (l_shape l) (f ix) /\ addr l' ix = addr l (f ix)) -> inside l' (length d).
Proof. intros I H ix V. destruct (H ix V) as [V' ->]. now apply I. Qed.
Lemma elem_source {T} (d : list T) l l' f ix : (forall ix, valid (l_shape l') ix -> valid (l_shape l) (f ix) /\ addr l' ix = addr l (f ix)) -> valid (l_shape l') ix -> elem d l' ix = elem d l (f ix).
Proof. intros H V. unfold elem. now destruct (H ix V) as [_ ->]. Qed.
Lemma not_broadcasted l : good l -> is_broadcasted l = false -> injective l.
Proof. intros G B i j Vi Vj E. pose proof (accepted_distinct l G i j Vi Vj E) as D. apply (nth_eq_ext 0%nat); [now rewrite (valid_length _ _ Vi), (valid_length _ _ Vj)|].
  intros k Hk. apply D; [unfold ndim; now rewrite <- (valid_length _ _ Vi)|]. intro Z0. assert (X : is_broadcasted l = true); [|congruence]. unfold is_broadcasted. apply existsb_exists. exists (nth k (l_stride l) 0). rewrite Z0. split; auto. rewrite <- Z0. apply nth_In. destruct G as ([L _] & _). rewrite L, <- (valid_length _ _ Vi). exact Hk. Qed.
Lemma is_broadcasted_in l : is_broadcasted l = true <-> In 0 (l_stride l).
Proof. unfold is_broadcasted. rewrite existsb_exists. split; [intros (x & H & E); apply Z.eqb_eq in E; now subst|intro H; exists 0; auto]. Qed.
Lemma tensor_ok_good {T} (t : tensor T) : tensor_ok t <-> good (t_layout t) /\ inside (t_layout t) (length (t_data t)).
Proof. unfold tensor_ok. now rewrite good_accepted. Qed.

(** ** binary operations producing a fresh tensor *)
Lemma fresh_binary {A B C} k la lb lc (g : A -> B -> C) (da : list A) (db : list B) n hi : good la -> good lb -> good lc -> l_shape la = l_shape lc -> l_shape lb = l_shape lc -> l_offset lc = 0 -> covers lc n ->
  inside la (length da) -> inside lb (length db) -> (forall i j, valid (l_shape lc) i -> valid (l_shape lc) j -> addr lc i = addr lc j -> addr la i = addr la j /\ addr lb i = addr lb j) -> hi = Z.of_nat n ->
  exists d, (let* c := op_mutc_refa_refb k (uninit C hi) lc da la db lb (fun _ x y => Some (g x y)) in let* c := assume_init c in tensor_new c lc) = Ok (mkTensor d lc) /\
    inside lc (length d) /\ forall ix, valid (l_shape lc) ix -> exists x y, elem da la ix = Some x /\ elem db lb ix = Some y /\ elem d lc ix = Some (g x y).
Proof. intros Ga Gb Gc Sa Sb O Cv Ia Ib K ->. assert (Ln : length (uninit C (Z.of_nat n)) = n) by (rewrite uninit_length; lia).
  assert (Ic : inside lc (length (uninit C (Z.of_nat n)))) by (rewrite Ln; now apply covers_inside).
  destruct (op3_kernel_write k (uninit C (Z.of_nat n)) lc da la db lb (fun _ x y => Some (g x y)) (fun x y => Some (g x y)) (l_shape lc) Gc Ga Gb eq_refl Sa Sb Ic Ia Ib (fun _ _ _ => eq_refl) K) as (c' & E & [U _] & H). rewrite E. cbn [bind].
  destruct (fresh_result lc c' (fun ix v => exists x y, elem da la ix = Some x /\ elem db lb ix = Some y /\ v = g x y)) as (d & E1 & E2 & Ld & Id & Hd); auto.
  - now rewrite U, Ln.
  - intros ix V. destruct (H ix V) as (_ & x & y & _ & Hx & Hy & Hz). exists (g x y). split; eauto.
  - rewrite E1. cbn [bind]. rewrite E2. exists d. split; auto. split; auto. intros ix V. destruct (Hd ix V) as (v & Hv & x & y & Hx & Hy & ->). eauto. Qed.

Lemma l_binary : forall (A B C : Type) k o (g : A -> B -> C) (a : tensor A) (b : tensor B), tensor_ok a -> tensor_ok b ->
  match op_refa_refb_func k o g a b with
  | Ok c => tensor_ok c /\ broadcasts o (t_shape a) (t_shape b) (t_shape c) /\
      forall ix, valid (t_shape c) ix -> exists x y,
        at_ a (source_index o (t_shape a) ix) = Some x /\ at_ b (source_index o (t_shape b) ix) = Some y /\ at_ c ix = Some (g x y)
  | Err _ => forall s, ~ broadcasts o (t_shape a) (t_shape b) s
  | Panic => False
  end.
Proof. intros A B C k o g [da la] [db lb] Ha Hb. apply tensor_ok_good in Ha as [Ga Ia], Hb as [Gb Ib]. cbn [t_data t_layout] in *. unfold op_refa_refb_func, t_shape, at_. cbn [t_data t_layout].
  pose proof (l_broadcast_layout o la lb (good_wf _ Ga) (good_wf _ Gb)) as BL. destruct (broadcast_layout la lb o) as [[r1 r2]|e|] eqn:E; cbn [bind]; auto. clear BL.
  destruct (broadcast_good la lb o r1 r2 Ga Gb E) as (s & Bs & G1 & G2 & S1 & S2 & _ & _ & F1 & F2). rewrite <- S1 in F1. rewrite <- S2 in F2.
  destruct (binop_good r1 r2 o (good_wf _ G1) (good_wf _ G2)) as (lo & n & E1 & So & Oo & Go & Cv & K); [congruence|]. rewrite E1. cbn [bind]. destruct (bounds_covers lo n (good_wf _ Go) Oo Cv) as (b0 & E2). rewrite E2. cbn [bind snd].
  destruct (fresh_binary k r1 r2 lo g da db n (Z.of_nat n)) as (d & E3 & Id & Hd); auto; try congruence; try (eapply inside_source; eauto). { rewrite So. auto. }
  rewrite E3. cbn [t_layout t_data]. split; [apply tensor_ok_good; auto|]. split; [congruence|]. intros ix V. destruct (Hd ix V) as (x & y & Hx & Hy & Hz). exists x, y. split; [|split; auto].
  - rewrite <- Hx. symmetry. apply (elem_source da la r1 (source_index o (l_shape la))); auto. congruence.
  - rewrite <- Hy. symmetry. apply (elem_source db lb r2 (source_index o (l_shape lb))); auto. congruence. Qed.

Lemma l_common : forall (A B C : Type) k dflt o (g : A -> B -> C) (a : tensor A) (b : tensor B), tensor_ok a -> tensor_ok b ->
  match op_common k dflt o g a b with
  | Ok c => tensor_ok c /\ broadcasts o (t_shape a) (t_shape b) (t_shape c) /\
      forall ix, valid (t_shape c) ix -> exists x y,
        at_ a (source_index o (t_shape a) ix) = Some x /\ at_ b (source_index o (t_shape b) ix) = Some y /\ at_ c ix = Some (g x y)
  | Err _ => forall s, ~ broadcasts o (t_shape a) (t_shape b) s
  | Panic => False
  end.
Proof. intros A B C k dflt o g [da la] [db lb] Ha Hb. apply tensor_ok_good in Ha as [Ga Ia], Hb as [Gb Ib]. cbn [t_data t_layout] in *. unfold op_common, t_shape, at_. cbn [t_data t_layout].
  pose proof (l_broadcast_layout o la lb (good_wf _ Ga) (good_wf _ Gb)) as BL. destruct (broadcast_layout la lb o) as [[r1 r2]|e|] eqn:E; cbn [bind]; auto. clear BL.
  destruct (broadcast_good la lb o r1 r2 Ga Gb E) as (s & Bs & G1 & G2 & S1 & S2 & _ & _ & F1 & F2). rewrite <- S1 in F1. rewrite <- S2 in F2.
  destruct (copy_layout_good k dflt r1 OK G1) as (c1 & Ec1 & Gc1 & Oc1 & Sc1 & Jc1 & Cv1); auto. destruct (copy_layout_good k dflt r2 OK G2) as (c2 & Ec2 & Gc2 & Oc2 & Sc2 & Jc2 & Cv2); auto.
  rewrite Ec1. cbn [bind]. rewrite Ec2. cbn [bind]. set (lo := if layout_eqb c1 c2 then c1 else new_contig k (l_shape r1) 0 o).
  assert (X : good lo /\ l_offset lo = 0 /\ l_shape lo = s /\ injective lo /\ covers lo (size s)).
  { unfold lo. destruct (layout_eqb c1 c2); [rewrite <- S1; auto|]. rewrite S1. split; [apply contig_good; lia|]. split; [now destruct o|]. split; [now destruct o|]. split; [eapply perm_injective, contig_perm|apply perm_covers, contig_perm]. }
  destruct X as (Go & Oo & So & Jo & Cv). clearbody lo. destruct (bounds_covers lo (size s) (good_wf _ Go) Oo Cv) as (b0 & E2). rewrite E2. cbn [bind snd].
  destruct (fresh_binary k r1 r2 lo g da db (size s) (Z.of_nat (size s))) as (d & E3 & Id & Hd); auto; try congruence; try (eapply inside_source; eauto). { intros i j Vi Vj Eij. apply Jo in Eij; auto. now subst. }
  rewrite E3. cbn [t_layout t_data]. split; [apply tensor_ok_good; auto|]. split; [congruence|]. intros ix V. destruct (Hd ix V) as (x & y & Hx & Hy & Hz). exists x, y. split; [|split; auto].
  - rewrite <- Hx. symmetry. apply (elem_source da la r1 (source_index o (l_shape la))); auto. congruence.
  - rewrite <- Hy. symmetry. apply (elem_source db lb r2 (source_index o (l_shape lb))); auto. congruence. Qed.

(** ** maps and operations with a scalar *)
Lemma fresh_unary {A C} k la lc (g : A -> C) (da : list A) n hi : good la -> good lc -> l_shape la = l_shape lc -> l_offset lc = 0 -> injective lc -> covers lc n -> inside la (length da) -> hi = Z.of_nat n ->
  exists d, (let* c := joint_kernel k [lc; la] (cell2 da (fun _ x => Some (g x))) (uninit C hi) in let* c := assume_init c in tensor_new c lc) = Ok (mkTensor d lc) /\
    inside lc (length d) /\ length d = n /\ forall ix, valid (l_shape lc) ix -> exists x, elem da la ix = Some x /\ elem d lc ix = Some (g x).
Proof. intros Ga Gc Sa O J Cv Ia ->. assert (Ln : length (uninit C (Z.of_nat n)) = n) by (rewrite uninit_length; lia).
  assert (Ic : inside lc (length (uninit C (Z.of_nat n)))) by (rewrite Ln; now apply covers_inside).
  destruct (op2_kernel k (uninit C (Z.of_nat n)) lc da la (fun _ x => Some (g x)) (l_shape lc) Gc Ga eq_refl Sa Ic Ia J) as (c' & E & [U _] & H). rewrite E. cbn [bind].
  destruct (fresh_result lc c' (fun ix v => exists x, elem da la ix = Some x /\ v = g x)) as (d & E1 & E2 & Ld & Id & Hd); auto.
  - now rewrite U, Ln.
  - intros ix V. destruct (H ix V) as (_ & x & _ & Hx & Hz). exists (g x). split; eauto.
  - rewrite E1. cbn [bind]. rewrite E2. exists d. split; auto. split; auto. split; [now rewrite Ld, U|]. intros ix V. destruct (Hd ix V) as (v & Hv & x & Hx & ->). eauto. Qed.
Lemma fresh_copy {A C} k dflt (a : tensor A) (g : A -> C) ord : tensor_ok a -> ord = OC \/ ord = OF \/ ord = OA \/ ord = OK -> exists lc d, layout_for_array_copy k dflt (t_layout a) ord = Ok lc /\ (exists b0, bounds_index lc = Ok (b0, Z.of_nat (l_size lc))) /\
  (let* c := joint_kernel k [lc; t_layout a] (cell2 (t_data a) (fun _ x => Some (g x))) (uninit C (Z.of_nat (l_size lc))) in let* c := assume_init c in tensor_new c lc) = Ok (mkTensor d lc) /\
  tensor_ok (mkTensor d lc) /\ l_shape lc = t_shape a /\ length d = size (t_shape a) /\ forall ix, valid (t_shape a) ix -> exists x, at_ a ix = Some x /\ elem d lc ix = Some (g x).
Proof. intros Ha Ho. apply tensor_ok_good in Ha as [Ga Ia]. destruct a as [da la]. cbn [t_data t_layout] in *. unfold t_shape, at_. cbn [t_data t_layout].
  destruct (copy_layout_good k dflt la ord Ga Ho) as (lc & E & G & O & S & J & Cv). exists lc. pose proof (bounds_covers lc _ (good_wf _ G) O Cv) as Eb. rewrite <- S in Eb.
  destruct (fresh_unary k la lc g da (size (l_shape la)) (Z.of_nat (l_size lc))) as (d & E1 & Id & Ld & Hd); auto. { unfold l_size. now rewrite S. }
  exists d. split; auto. split; auto. split; auto. split; [now apply tensor_ok_good|]. split; auto. split; auto. rewrite <- S. auto. Qed.
Lemma l_map : forall (A C : Type) k dflt (g : A -> C) (a : tensor A), tensor_ok a ->
  exists c, map_f k dflt g a = Ok c /\ tensor_ok c /\ t_shape c = t_shape a /\ forall ix, valid (t_shape a) ix -> exists x, at_ a ix = Some x /\ at_ c ix = Some (g x).
Proof. intros A C k dflt g a Ha. destruct (fresh_copy k dflt a g OK Ha) as (lc & d & E & (b0 & Eb) & Ek & T & S & Ld & H); auto. exists (mkTensor d lc). unfold map_f, op_muta_refb. rewrite E. cbn [bind]. rewrite Eb. cbn [bind snd]. rewrite Ek. auto. Qed.
Lemma l_scalar_rhs : forall (A B C : Type) k dflt (g : A -> B -> C) (a : tensor A) (b : B), tensor_ok a ->
  exists c, op_refa_numb k dflt g a b = Ok c /\ tensor_ok c /\ t_shape c = t_shape a /\ forall ix, valid (t_shape a) ix -> exists x, at_ a ix = Some x /\ at_ c ix = Some (g x b).
Proof. intros A B C k dflt g a b Ha. destruct (fresh_copy k dflt a (fun x => g x b) OK Ha) as (lc & d & E & (b0 & Eb) & Ek & T & S & Ld & H); auto. exists (mkTensor d lc). unfold op_refa_numb, op_mutc_refa_numb. rewrite E. cbn [bind]. rewrite Eb. cbn [bind snd]. rewrite Ek. auto. Qed.
Lemma l_scalar_lhs : forall (A B C : Type) k dflt (g : A -> B -> C) (a : A) (b : tensor B), tensor_ok b ->
  exists c, op_numa_refb k dflt g a b = Ok c /\ tensor_ok c /\ t_shape c = t_shape b /\ forall ix, valid (t_shape b) ix -> exists x, at_ b ix = Some x /\ at_ c ix = Some (g a x).
Proof. intros A B C k dflt g a b Ha. destruct (fresh_copy k dflt b (fun x => g a x) OK Ha) as (lc & d & E & (b0 & Eb) & Ek & T & S & Ld & H); auto. exists (mkTensor d lc). unfold op_numa_refb, op_mutc_numa_refb. rewrite E. cbn [bind]. rewrite Eb. cbn [bind snd]. rewrite Ek. auto. Qed.

(** ** in place, one operand *)
Lemma l_inplace_scalar : forall (A B : Type) k (g : A -> B -> A) (a : tensor A) (b : B), tensor_ok a ->
  exists a', op_muta_numb_f k g a b = Ok a' /\ t_layout a' = t_layout a /\ untouched_outside (t_layout a) (t_data a) (t_data a') /\
    forall ix, valid (t_shape a) ix -> exists x, at_ a ix = Some x /\ at_ a' ix = Some (g x b).
Proof. intros A B k g a b Ha. apply tensor_ok_good in Ha as [Ga Ia]. unfold op_muta_numb_f, op_muta_numb. pose proof (accepted_distinct _ Ga) as D. destruct Ga as (W & N & _).
  destruct (op1_kernel k contig_switch (t_data a) (t_layout a) (fun x => g x b)) as (c' & -> & U & H); auto; [unfold contig_switch; lia|]. cbn [bind]. eexists. split; [reflexivity|]. cbn [t_layout t_data]. auto. Qed.
Lemma l_inplace_unary : forall (A : Type) k (g : A -> A) (a : tensor A), tensor_ok a ->
  exists a', op_muta_func k g a = Ok a' /\ t_layout a' = t_layout a /\ untouched_outside (t_layout a) (t_data a) (t_data a') /\
    forall ix, valid (t_shape a) ix -> exists x, at_ a ix = Some x /\ at_ a' ix = Some (g x).
Proof. intros A k g a Ha. apply tensor_ok_good in Ha as [Ga Ia]. unfold op_muta_func, op_muta. pose proof (accepted_distinct _ Ga) as D. destruct Ga as (W & N & _).
  destruct (op1_kernel k contig_switch (t_data a) (t_layout a) g) as (c' & -> & U & H); auto; [unfold contig_switch; lia|]. cbn [bind]. eexists. split; [reflexivity|]. cbn [t_layout t_data]. auto. Qed.
Lemma l_mapi : forall (A : Type) k (g : A -> A) (a : tensor A), tensor_ok a ->
  exists a', mapi_f k g a = Ok a' /\ t_layout a' = t_layout a /\ untouched_outside (t_layout a) (t_data a) (t_data a') /\
    forall ix, valid (t_shape a) ix -> exists x, at_ a ix = Some x /\ at_ a' ix = Some (g x).
Proof. intros A k g [da la] Ha. apply tensor_ok_good in Ha as [Ga Ia]. cbn [t_data t_layout] in *. unfold mapi_f, op_muta, t_shape, at_. cbn [t_data t_layout].
  destruct (Nat.eq_dec (size (l_shape la)) 0) as [Z0|Z0].
  - unfold greedy_layout, l_size. rewrite Z0. cbn [Nat.eqb bind fst]. pose proof (accepted_distinct _ Ga) as D. destruct Ga as (W & N & _).
    destruct (op1_kernel k contig_switch da la g) as (c' & -> & U & H); auto; [unfold contig_switch; lia|]. cbn [bind]. eexists. split; [reflexivity|]. cbn [t_layout t_data]. auto.
  - destruct (translate_g_ok RowMajor la Ga Z0) as (l' & E & W & N & J & P). unfold translate_unary in E. apply bind_ok in E as ([l0 ax] & E & X). cbn [fst] in X. injection X as ->. rewrite E. cbn [bind fst].
    destruct (op1_kernel k contig_switch da l' g) as (c' & -> & U & H); auto; [unfold contig_switch; lia| | |].
    + intros i j Vi Vj Eij k0 _ _. now rewrite (J i j Vi Vj Eij).
    + intros j V. destruct (proj1 (P (addr l' j))) as (i & Vi & <-); eauto.
    + cbn [bind]. eexists. split; [reflexivity|]. cbn [t_layout t_data]. split; auto. split.
      * destruct U as [U1 U2]. split; auto. intros p Hp. apply U2. intros j V X. destruct (proj1 (P p)) as (i & Vi & Ei); eauto. now apply (Hp i).
      * intros ix V. destruct (proj2 (P (addr la ix))) as (j & Vj & Ej); eauto. destruct (H j Vj) as (x & H1 & H2). unfold elem in *. rewrite Ej in *. eauto. Qed.
Lemma l_fill : forall (A B : Type) k (cast : B -> A) (a : tensor A) (v : B), tensor_ok a ->
  match fill_f k cast a v with
  | Ok a' => t_layout a' = t_layout a /\ untouched_outside (t_layout a) (t_data a) (t_data a') /\ (forall ix, valid (t_shape a) ix -> at_ a' ix = Some (cast v))
  | Err _ => In 0 (l_stride (t_layout a))
  | Panic => False
  end.
Proof. intros A B k cast a v Ha. apply tensor_ok_good in Ha as [Ga Ia]. unfold fill_f. destruct (is_broadcasted (t_layout a)) eqn:Br; cbn [negb check bind]; [now apply is_broadcasted_in|]. unfold fill. pose proof (accepted_distinct _ Ga) as D. destruct Ga as (W & N & _).
  destruct (op1_kernel k (S contig_switch) (t_data a) (t_layout a) (fun _ => cast v)) as (c' & -> & U & H); auto; [lia|]. cbn [bind]. cbn [t_layout t_data]. split; auto. split; auto. intros ix V. destruct (H ix V) as (_ & _ & E). exact E. Qed.
Lemma l_fill_empty_refuted : exists (a : tensor Z), tensor_ok a /\ t_layout a = new_contig Dyn [2; 0]%nat 0 RowMajor /\ injective (t_layout a) /\ exists e, fill_f Dyn (fun x : Z => x) a 7 = Err e.
Proof. exists (mkTensor [] (mkLayout [2; 0]%nat [0; 1] 0)). split; [|split; [reflexivity|split; [|eexists; reflexivity]]].
  - split; [repeat split; cbn; lia|]. intros ix V. exfalso. now apply valid_size_pos in V.
  - intros i j V. exfalso. now apply valid_size_pos in V. Qed.

(** ** in place, two operands *)
Lemma to_first_cases k l1 l2 o : good l1 -> good l2 ->
  match broadcast_layout_to_first k l1 l2 o with
  | Ok p => exists s, broadcasts o (l_shape l1) (l_shape l2) s /\ good (fst p) /\ good (snd p) /\ l_shape (fst p) = s /\ l_shape (snd p) = s /\ (s = l_shape l1 -> fst p = l1) /\
      (forall ix, valid s ix -> valid (l_shape l1) (source_index o (l_shape l1) ix) /\ addr (fst p) ix = addr l1 (source_index o (l_shape l1) ix)) /\
      (forall ix, valid s ix -> valid (l_shape l2) (source_index o (l_shape l2) ix) /\ addr (snd p) ix = addr l2 (source_index o (l_shape l2) ix))
  | Err _ => ~ broadcasts o (l_shape l1) (l_shape l2) (l_shape l1)
  | Panic => False
  end.
Proof. intros G1 G2. unfold broadcast_layout_to_first. pose proof (l_broadcast_layout o l1 l2 (good_wf _ G1) (good_wf _ G2)) as BL. destruct (broadcast_layout l1 l2 o) as [[r1 r2]|e|] eqn:E; cbn [bind]; auto. clear BL.
  destruct (broadcast_good l1 l2 o r1 r2 G1 G2 E) as (s & Bs & H1 & H2 & S1 & S2 & K1 & _ & F1 & F2). cbn [fst snd]. destruct k.
  - destruct (Nat.eqb_spec (ndim r1) (ndim l1)) as [En|En].
    + exists s. cbn [fst snd]. auto 12.
    + intro B. apply En. unfold ndim. rewrite S1. now rewrite (broadcasts_fun _ _ _ _ _ Bs B).
  - exists s. auto 12. Qed.
Lemma eqb_self_shape o l1 l2 r s : wf l1 -> wf r -> broadcasts o (l_shape l1) (l_shape l2) s -> l_shape r = s -> (s = l_shape l1 -> r = l1) ->
  (layout_eqb r l1 = true /\ s = l_shape l1 /\ r = l1) \/ (layout_eqb r l1 = false /\ ~ broadcasts o (l_shape l1) (l_shape l2) (l_shape l1)).
Proof. intros W Wr B S K. destruct (layout_eqb r l1) eqn:E.
  - left. apply layout_eqb_same_addr in E as [E _]; auto. split; auto. assert (s = l_shape l1) by congruence. auto.
  - right. split; auto. intro B'. rewrite (K (broadcasts_fun _ _ _ _ _ B B')) in E. rewrite layout_eqb_refl in E; auto. discriminate. Qed.

Lemma inplace_core {A B} k k' o (g : A -> B -> A) (a : tensor A) (b : tensor B) : tensor_ok a -> tensor_ok b -> injective (t_layout a) ->
  match (let* p := broadcast_layout_to_first k' (t_layout a) (t_layout b) o in let* _ := check (layout_eqb (fst p) (t_layout a)) InvalidLayout in
         let* d := op_muta_refb k (t_data a) (fst p) (t_data b) (snd p) g in Ok (mkTensor d (t_layout a))) with
  | Ok a' => broadcasts o (t_shape a) (t_shape b) (t_shape a) /\ t_layout a' = t_layout a /\ untouched_outside (t_layout a) (t_data a) (t_data a') /\
      forall ix, valid (t_shape a) ix -> exists x y, at_ a ix = Some x /\ at_ b (source_index o (t_shape b) ix) = Some y /\ at_ a' ix = Some (g x y)
  | Err _ => ~ broadcasts o (t_shape a) (t_shape b) (t_shape a)
  | Panic => False
  end.
Proof. intros Ha Hb J. apply tensor_ok_good in Ha as [Ga Ia], Hb as [Gb Ib]. destruct a as [da la], b as [db lb]. cbn [t_data t_layout] in *. unfold t_shape, at_. cbn [t_data t_layout].
  pose proof (to_first_cases k' la lb o Ga Gb) as H. destruct (broadcast_layout_to_first k' la lb o) as [[r1 r2]|e|]; cbn [bind fst snd] in *; auto.
  destruct H as (s & Bs & G1 & G2 & S1 & S2 & K & F1 & F2). destruct (eqb_self_shape o la lb r1 s (good_wf _ Ga) (good_wf _ G1) Bs S1 K) as [(-> & -> & ->)|(-> & Nb)]; cbn [check bind]; auto.
  unfold op_muta_refb. rewrite <- S2 in F2. destruct (op2_kernel k da la db r2 g (l_shape la)) as (c' & -> & U & H); auto; [eapply inside_source; eauto|]. cbn [bind t_layout t_data]. split; auto. split; auto. split; auto.
  intros ix V. destruct (H ix V) as (x & y & Hx & Hy & Hz). exists x, y. split; auto. split; auto. rewrite <- Hy. symmetry. apply (elem_source db lb r2 (source_index o (l_shape lb))); auto. congruence. Qed.
Lemma l_inplace_binary : forall (A B : Type) k o (g : A -> B -> A) (a : tensor A) (b : tensor B), tensor_ok a -> tensor_ok b -> injective (t_layout a) ->
  match op_muta_refb_func k o g a b with
  | Ok a' => broadcasts o (t_shape a) (t_shape b) (t_shape a) /\ t_layout a' = t_layout a /\ untouched_outside (t_layout a) (t_data a) (t_data a') /\
      forall ix, valid (t_shape a) ix -> exists x y, at_ a ix = Some x /\ at_ b (source_index o (t_shape b) ix) = Some y /\ at_ a' ix = Some (g x y)
  | Err _ => ~ broadcasts o (t_shape a) (t_shape b) (t_shape a)
  | Panic => False
  end.
Proof. intros A B k o g a b Ha Hb J. exact (inplace_core k k o g a b Ha Hb J). Qed.
Lemma l_op_assign : forall (A B : Type) k o (g : A -> B -> A) (a : tensor A) (b : tensor B), tensor_ok a -> tensor_ok b -> injective (t_layout a) ->
  match op_assign k o g a b with
  | Ok a' => broadcasts o (t_shape a) (t_shape b) (t_shape a) /\ t_layout a' = t_layout a /\ untouched_outside (t_layout a) (t_data a) (t_data a') /\
      forall ix, valid (t_shape a) ix -> exists x y, at_ a ix = Some x /\ at_ b (source_index o (t_shape b) ix) = Some y /\ at_ a' ix = Some (g x y)
  | Err _ => ~ broadcasts o (t_shape a) (t_shape b) (t_shape a)
  | Panic => False
  end.
Proof. intros A B k o g a b Ha Hb J. exact (inplace_core k Dyn o g a b Ha Hb J). Qed.
Lemma l_op_assign_alias_refuted : exists (a b a' : tensor Z), tensor_ok a /\ tensor_ok b /\ t_shape a = t_shape b /\ op_assign Fixed RowMajor Z.add a b = Ok a' /\
  exists ix x y, valid (t_shape a) ix /\ at_ a ix = Some x /\ at_ b ix = Some y /\ at_ a' ix <> Some (x + y).
Proof. exists (mkTensor [1] (mkLayout [3]%nat [0] 0)), (mkTensor [1; 1; 1] (mkLayout [3]%nat [1] 0)), (mkTensor [4] (mkLayout [3]%nat [0] 0)).
  assert (Ok3 : forall i, valid [3%nat] i -> exists k, i = [k] /\ (k < 3)%nat). { intros i V. apply valid_cons_inv in V as (k & r & -> & Hk & V). apply valid_nil in V. subst. eauto. }
  split; [split; [repeat split; cbn; lia|]|]. { intros ix V. apply Ok3 in V as (k & -> & Hk). cbn. lia. }
  split; [split; [repeat split; cbn; lia|]|]. { intros ix V. apply Ok3 in V as (k & -> & Hk). unfold addr. cbn [l_offset l_stride dot t_layout t_data length]. lia. }
  split; [reflexivity|]. split; [reflexivity|]. exists [0%nat], 1, 1. split; [repeat constructor|]. split; [reflexivity|]. split; [reflexivity|]. discriminate. Qed.

Lemma l_with_output : forall (A B C : Type) k o (g : C -> A -> B -> C) (c : tensor C) (a : tensor A) (b : tensor B), tensor_ok c -> tensor_ok a -> tensor_ok b -> injective (t_layout c) ->
  match op_mutc_refa_refb_func k o g c a b with
  | Ok c' => broadcasts o (t_shape c) (t_shape a) (t_shape c) /\ broadcasts o (t_shape c) (t_shape b) (t_shape c) /\
      t_layout c' = t_layout c /\ untouched_outside (t_layout c) (t_data c) (t_data c') /\
      forall ix, valid (t_shape c) ix -> exists x y z, at_ c ix = Some x /\
        at_ a (source_index o (t_shape a) ix) = Some y /\ at_ b (source_index o (t_shape b) ix) = Some z /\ at_ c' ix = Some (g x y z)
  | Err _ => ~ (broadcasts o (t_shape c) (t_shape a) (t_shape c) /\ broadcasts o (t_shape c) (t_shape b) (t_shape c))
  | Panic => False
  end.
Proof. intros A B C k o g [dc lc] [da la] [db lb] Hc Ha Hb J. apply tensor_ok_good in Hc as [Gc Ic], Ha as [Ga Ia], Hb as [Gb Ib]. unfold op_mutc_refa_refb_func, t_shape, at_ in *. cbn [t_data t_layout] in *.
  pose proof (to_first_cases k lc la o Gc Ga) as H. destruct (broadcast_layout_to_first k lc la o) as [[r1 r2]|e|]; cbn [bind fst snd] in *; try tauto.
  destruct H as (s & Bs & G1 & G2 & S1 & S2 & K & F1 & F2). destruct (eqb_self_shape o lc la r1 s (good_wf _ Gc) (good_wf _ G1) Bs S1 K) as [(-> & -> & ->)|(-> & Nb)]; cbn [check bind]; try tauto.
  pose proof (to_first_cases k lc lb o Gc Gb) as H. destruct (broadcast_layout_to_first k lc lb o) as [[q1 q2]|e|]; cbn [bind fst snd] in *; try tauto.
  destruct H as (s' & Bs' & G1' & G2' & S1' & S2' & K' & F1' & F2'). destruct (eqb_self_shape o lc lb q1 s' (good_wf _ Gc) (good_wf _ G1') Bs' S1' K') as [(-> & -> & ->)|(-> & Nb)]; cbn [check bind]; try tauto.
  rewrite <- S2 in F2. rewrite <- S2' in F2'. destruct (op3_kernel k dc lc da r2 db q2 g (l_shape lc)) as (c' & -> & U & H); auto; try (eapply inside_source; eauto). cbn [bind t_layout t_data]. split; auto. split; auto. split; auto. split; auto.
  intros ix V. destruct (H ix V) as (x & y & z & Hx & Hy & Hz & Hr). exists x, y, z. split; auto. split; [|split; auto].
  - rewrite <- Hy. symmetry. apply (elem_source da la r2 (source_index o (l_shape la))); auto. congruence.
  - rewrite <- Hz. symmetry. apply (elem_source db lb q2 (source_index o (l_shape lb))); auto. congruence. Qed.

(** ** operators that reuse an owned operand *)
Lemma clip_self s : forall ix, valid s ix -> clip s ix = ix.
Proof. induction s as [|d s IH]; intros ix V; [apply valid_nil in V; now subst|]. apply valid_cons_inv in V as (i & r & -> & Hi & V). unfold clip in *. cbn [combine map fst snd]. rewrite IH by auto. f_equal. destruct (Nat.eqb_spec d 1); lia. Qed.
Lemma source_index_self o s ix : valid s ix -> source_index o s ix = ix.
Proof. intro V. unfold source_index. rewrite (valid_length _ _ V), Nat.sub_diag. cbn [skipn]. destruct o; [now apply clip_self|]. rewrite <- (valid_length _ _ V), firstn_all. now apply clip_self. Qed.
Lemma untouched_ok {T} l (d d' : list T) : good l -> inside l (length d) -> untouched_outside l d d' -> tensor_ok (mkTensor d' l).
Proof. intros G I [L _]. apply tensor_ok_good. cbn [t_layout t_data]. split; auto. now rewrite L. Qed.

Lemma l_consume_l : forall (A B : Type) k o (g : A -> B -> A) (a : tensor A) (b : tensor B), tensor_ok a -> tensor_ok b ->
  match op_consume_l k o g a b with
  | Ok c => tensor_ok c /\ broadcasts o (t_shape a) (t_shape b) (t_shape c) /\
      forall ix, valid (t_shape c) ix -> exists x y,
        at_ a (source_index o (t_shape a) ix) = Some x /\ at_ b (source_index o (t_shape b) ix) = Some y /\ at_ c ix = Some (g x y)
  | Err _ => forall s, ~ broadcasts o (t_shape a) (t_shape b) s
  | Panic => False
  end.
Proof. intros A B k o g a b Ha Hb. pose proof (l_binary A B A k o g a b Ha Hb) as Ref. unfold op_consume_l. pose proof Ha as Ha'. pose proof Hb as Hb'. apply tensor_ok_good in Ha' as [Ga Ia], Hb' as [Gb Ib].
  pose proof (to_first_cases k (t_layout a) (t_layout b) o Ga Gb) as H. destruct (broadcast_layout_to_first k (t_layout a) (t_layout b) o) as [[r1 r2]|e|]; cbn [bind fst snd] in *; auto.
  destruct H as (s & Bs & G1 & G2 & S1 & S2 & K & F1 & F2). destruct (is_broadcasted (t_layout a)) eqn:Br; auto.
  destruct (eqb_self_shape o (t_layout a) (t_layout b) r1 s (good_wf _ Ga) (good_wf _ G1) Bs S1 K) as [(-> & -> & ->)|(-> & Nb)]; cbn [negb]; auto. clear Ref.
  rewrite <- S2 in F2. pose proof (not_broadcasted _ Ga Br) as J. unfold op_muta_refb. destruct (op2_kernel k (t_data a) (t_layout a) (t_data b) r2 g (l_shape (t_layout a))) as (c' & -> & U & H); auto; [eapply inside_source; eauto|]. cbn [bind].
  split; [now apply (untouched_ok _ (t_data a))|]. split; auto. unfold t_shape, at_. cbn [t_layout t_data]. intros ix V. destruct (H ix V) as (x & y & Hx & Hy & Hz). exists x, y. rewrite source_index_self by auto. split; auto. split; auto.
  rewrite <- Hy. symmetry. apply (elem_source (t_data b) (t_layout b) r2 (source_index o (l_shape (t_layout b)))); auto. now rewrite S2. Qed.
Lemma l_consume_r : forall (A B : Type) k o (g : A -> B -> B) (a : tensor A) (b : tensor B), tensor_ok a -> tensor_ok b ->
  match op_consume_r k o g a b with
  | Ok c => tensor_ok c /\ broadcasts o (t_shape a) (t_shape b) (t_shape c) /\
      forall ix, valid (t_shape c) ix -> exists x y,
        at_ a (source_index o (t_shape a) ix) = Some x /\ at_ b (source_index o (t_shape b) ix) = Some y /\ at_ c ix = Some (g x y)
  | Err _ => forall s, ~ broadcasts o (t_shape a) (t_shape b) s
  | Panic => False
  end.
Proof. intros A B k o g a b Ha Hb. pose proof (l_binary A B B k o g a b Ha Hb) as Ref. unfold op_consume_r. pose proof Ha as Ha'. pose proof Hb as Hb'. apply tensor_ok_good in Ha' as [Ga Ia], Hb' as [Gb Ib].
  pose proof (to_first_cases k (t_layout b) (t_layout a) o Gb Ga) as H. destruct (broadcast_layout_to_first k (t_layout b) (t_layout a) o) as [[r1 r2]|e|]; cbn [bind fst snd] in *; auto.
  destruct H as (s & Bs & G1 & G2 & S1 & S2 & K & F1 & F2). destruct (is_broadcasted (t_layout b)) eqn:Br; auto.
  destruct (eqb_self_shape o (t_layout b) (t_layout a) r1 s (good_wf _ Gb) (good_wf _ G1) Bs S1 K) as [(-> & -> & ->)|(-> & Nb)]; cbn [negb]; auto. clear Ref.
  rewrite <- S2 in F2. pose proof (not_broadcasted _ Gb Br) as J. unfold op_muta_refb. destruct (op2_kernel k (t_data b) (t_layout b) (t_data a) r2 (fun y x => g x y) (l_shape (t_layout b))) as (c' & -> & U & H); auto; [eapply inside_source; eauto|]. cbn [bind].
  split; [now apply (untouched_ok _ (t_data b))|]. split; [now apply broadcasts_comm|]. unfold t_shape, at_. cbn [t_layout t_data]. intros ix V. destruct (H ix V) as (x & y & Hx & Hy & Hz). exists y, x. rewrite (source_index_self o (l_shape (t_layout b))) by auto. split; auto.
  rewrite <- Hy. symmetry. apply (elem_source (t_data a) (t_layout a) r2 (source_index o (l_shape (t_layout a)))); auto. now rewrite S2. Qed.
Lemma l_consume_lr : forall (A : Type) k o (g : A -> A -> A) (a b : tensor A), tensor_ok a -> tensor_ok b ->
  match op_consume_lr k o g a b with
  | Ok c => tensor_ok c /\ broadcasts o (t_shape a) (t_shape b) (t_shape c) /\
      forall ix, valid (t_shape c) ix -> exists x y,
        at_ a (source_index o (t_shape a) ix) = Some x /\ at_ b (source_index o (t_shape b) ix) = Some y /\ at_ c ix = Some (g x y)
  | Err _ => forall s, ~ broadcasts o (t_shape a) (t_shape b) s
  | Panic => False
  end.
Proof. intros A k o g a b Ha Hb. unfold op_consume_lr. destruct (match broadcast_layout_to_first k (t_layout a) (t_layout b) o with Ok _ => _ | _ => _ end); [now apply l_consume_l|].
  destruct (match broadcast_layout_to_first k (t_layout b) (t_layout a) o with Ok _ => _ | _ => _ end); [now apply l_consume_r|now apply l_binary]. Qed.

(** ** assignment *)
Lemma modify_total {I C} (pos : I -> Z) (h : I -> C -> res C) ixs : forall c, (forall i, In i ixs -> 0 <= pos i < Z.of_nat (length c)) -> (forall i x, In i ixs -> exists y, h i x = Ok y) ->
  exists c', fold_res (modify pos h) ixs c = Ok c'.
Proof. induction ixs as [|i ixs IH]; intros c B T; cbn [fold_res]; eauto. unfold modify at 1. destruct (proj1 (peek_inside c (pos i))) as (x & Hx); [apply B; now left|]. apply zget_peek in Hx. rewrite Hx. cbn [bind].
  destruct (T i x) as (y & ->); [now left|]. cbn [bind]. destruct (zset_ok c (pos i) y) as (c' & -> & L & _); [apply B; now left|]. cbn [bind]. apply IH; [rewrite L|]; intros; [apply B|apply T]; now right. Qed.
Lemma l_assign : forall (A B : Type) k o (cast : B -> A) (a : tensor A) (b : tensor B), tensor_ok a -> tensor_ok b ->
  match assign_f k o cast a b with
  | Ok a' => ~ In 0 (l_stride (t_layout a)) /\ (exists s, broadcasts o (t_shape a) (t_shape b) s) /\ t_layout a' = t_layout a /\
      (broadcasts o (t_shape a) (t_shape b) (t_shape a) ->
        untouched_outside (t_layout a) (t_data a) (t_data a') /\
        forall ix, valid (t_shape a) ix -> exists y, at_ b (source_index o (t_shape b) ix) = Some y /\ at_ a' ix = Some (cast y))
  | Err _ => In 0 (l_stride (t_layout a)) \/ ~ broadcasts o (t_shape a) (t_shape b) (t_shape a)
  | Panic => False
  end.
Proof. intros A B k o cast [da la] [db lb] Ha Hb. apply tensor_ok_good in Ha as [Ga Ia], Hb as [Gb Ib]. unfold assign_f, t_shape, at_ in *. cbn [t_data t_layout] in *.
  destruct (is_broadcasted la) eqn:Br; cbn [negb check bind]; [left; now apply is_broadcasted_in|]. pose proof (not_broadcasted _ Ga Br) as J.
  assert (NI : ~ In 0 (l_stride la)) by (rewrite <- is_broadcasted_in; congruence).
  pose proof (to_first_cases Dyn la lb o Ga Gb) as H. destruct (broadcast_layout_to_first Dyn la lb o) as [[r1 r2]|e|]; cbn [bind fst snd] in *; auto.
  destruct H as (s & Bs & G1 & G2 & S1 & S2 & K & F1 & F2).
  destruct (match k with Fixed => check (ndim r1 =? ndim la)%nat InvalidLayout | Dyn => Ok tt end) as [u|e|] eqn:Ck.
  - cbn [bind]. rewrite <- S2 in F2. rewrite <- S1 in F1. assert (I1 : inside r1 (length da)) by (eapply inside_source; eauto). assert (I2 : inside r2 (length db)) by (eapply inside_source; eauto).
    assert (T : exists c', assign k cast da r1 db r2 = Ok c').
    { unfold assign. destruct (joint_kernel_ok k [r1; r2] s (cell2 db (fun _ y => cast y)) da) as (ixs & P & ->); [discriminate|auto|auto|]. rewrite (fold_res_ext' _ (modify (addr r1) (writes2 db r2 (fun _ y => cast y)))) by (intros; apply cell2_modify).
      assert (V : forall i, In i ixs -> valid s i) by (intros i Hi; apply in_row_major; eapply Permutation_in; eauto). apply modify_total.
      - intros i Hi. apply I1. rewrite S1. auto. - intros i x Hi. destruct (writes2_total db r2 (fun (_ : A) y => cast y) I2 i) as (y & _ & X); [rewrite S2; auto|eauto]. }
    destruct T as (c' & Ec). rewrite Ec. cbn [bind t_layout t_data]. split; auto. split; [eauto|]. split; auto. intro B'. pose proof (broadcasts_fun _ _ _ _ _ Bs B') as ->. rewrite (K eq_refl) in *.
    unfold assign in Ec. destruct (op2_kernel k da la db r2 (fun _ y => cast y) (l_shape la)) as (c2 & E2 & U & H); auto. rewrite Ec in E2. injection E2 as <-. split; auto.
    intros ix V. destruct (H ix V) as (x & y & Hx & Hy & Hz). exists y. split; auto. rewrite <- Hy. symmetry. apply (elem_source db lb r2 (source_index o (l_shape lb))); auto. congruence.
  - cbn [bind]. right. intro B'. pose proof (broadcasts_fun _ _ _ _ _ Bs B') as ->. rewrite (K eq_refl) in Ck. destruct k; [|discriminate]. rewrite Nat.eqb_refl in Ck. discriminate.
  - destruct k; [|discriminate]. unfold check in Ck. destruct (_ =? _)%nat; discriminate. Qed.
Lemma l_assign_grow_refuted : exists (a b a' : tensor Z), tensor_ok a /\ tensor_ok b /\ ~ broadcasts RowMajor (t_shape a) (t_shape b) (t_shape a) /\ assign_f Fixed RowMajor (fun x : Z => x) a b = Ok a' /\ t_data a' <> t_data a.
Proof. exists (mkTensor [1] (mkLayout [1]%nat [1] 0)), (mkTensor [5; 6; 7] (mkLayout [3]%nat [1] 0)), (mkTensor [7] (mkLayout [1]%nat [1] 0)).
  split; [split; [repeat split; cbn; lia|]|]. { intros i V. apply valid_cons_inv in V as (k & r & -> & Hk & V). apply valid_nil in V. subst. unfold addr. cbn [l_offset l_stride dot t_layout t_data length]. lia. }
  split; [split; [repeat split; cbn; lia|]|]. { intros i V. apply valid_cons_inv in V as (k & r & -> & Hk & V). apply valid_nil in V. subst. unfold addr. cbn [l_offset l_stride dot t_layout t_data length]. lia. }
  split; [intros [_ B]; specialize (B 0%nat); cbn in B; lia|]. split; [reflexivity|]. discriminate. Qed.
