(** Property lemmas about maps with closures that keep a state (C116). *)
From Verif Require Import Base Spec P_Index P_List M_Layout P_Layout P_Bounds P_Contig P_Strides M_Indexer P_Indexer M_Broadcast P_Broadcast Q_Broadcast M_Rearr M_Iter P_Iter P_Rearr P_BinOp Q_Rearr M_Kernel P_Kernel Q_Kernel M_Tensor P_Tensor Q_Tensor P_Vecdot3 P_KOrder M_MapMut Spec_MapMut P_MapMut.
Local Open Scope Z_scope.

Lemma perm_valid sh ixs ix : Permutation ixs (row_major sh) -> In ix ixs <-> valid sh ix.
Proof. intro P. split; intro H. - apply (in_enum RowMajor). cbn [enum]. eapply Permutation_in; eauto. - eapply Permutation_in; [symmetry; exact P|]. now apply (in_enum RowMajor). Qed.
Lemma perm_positions l ixs : injective l -> Permutation ixs (row_major (l_shape l)) -> NoDup (map (addr l) ixs).
Proof. intros J P. apply NoDup_map_inj_in; [intros x y Hx Hy; apply J; eapply perm_valid; eauto|]. eapply Permutation_NoDup; [symmetry; exact P|]. apply (enum_nodup RowMajor). Qed.
Lemma Forall2_map_some {A B} (f : A -> option B) l r : Forall2 (fun x y => f x = Some y) l r -> map f l = map Some r.
Proof. induction 1; cbn; congruence. Qed.
Lemma Forall2_impl_in {A B} (R R' : A -> B -> Prop) l r : (forall x y, In x l -> R x y -> R' x y) -> Forall2 R l r -> Forall2 R' l r.
Proof. intros H F. induction F; constructor; [apply H; auto; now left|]. apply IHF. intros; apply H; auto; now right. Qed.
Lemma Forall2_map_l {A A' B} (f : A -> A') (R : A' -> B -> Prop) l r : Forall2 (fun x y => R (f x) y) l r -> Forall2 R (map f l) r.
Proof. induction 1; cbn; constructor; auto. Qed.
Lemma F2_len {A B} (R : A -> B -> Prop) l r : Forall2 R l r -> length l = length r.
Proof. induction 1; cbn; congruence. Qed.
Lemma called_length {St A B} (g : St -> A -> St * B) s xs s' ys : called g s xs s' ys -> length ys = length xs.
Proof. induction 1; cbn; congruence. Qed.

Lemma l_map_fnmut : forall (St A B : Type) k dflt (g : St -> A -> St * B) (s : St) (a : tensor A), tensor_ok a ->
  exists s' c ixs xs ys, map_fnmut k dflt g s a = Ok (s', c) /\ tensor_ok c /\ t_shape c = t_shape a /\
    Permutation ixs (row_major (t_shape a)) /\ map (at_ a) ixs = map Some xs /\ called g s xs s' ys /\ map (at_ c) ixs = map Some ys /\ t_data c = ys.
Proof. intros St A B k dflt g s [da la] Ha. apply tensor_ok_good in Ha as [Ga Ia]. cbn [t_data t_layout] in *. unfold map_fnmut, t_shape, at_. cbn [t_data t_layout].
  destruct (copy_layout_good k dflt la OK Ga) as (lc & E & G & O & S & J & Cv); auto. rewrite E. cbn [bind]. destruct (bounds_covers lc _ (good_wf _ G) O Cv) as (b0 & Eb). rewrite Eb. cbn [bind snd]. set (n := size (l_shape la)) in *.
  assert (Pr : pick_reference (map size_non_broadcast [lc; la]) = 0%nat). { cbn [map pick_reference forallb last_max]. rewrite (non_broadcast_eq lc (good_wf _ G) J). pose proof (non_broadcast_le la (good_wf _ Ga)) as Le. rewrite S. fold n. fold n in Le. destruct (Nat.eqb_spec (size_non_broadcast la) n); cbn [andb]; auto. replace (n <=? size_non_broadcast la)%nat with false by lia. reflexivity. }
  destruct (kernel_leading k [lc; la] lc [la] (l_shape la) (call2 da g) (s, uninit B (Z.of_nat n)) eq_refl) as (ixs & P & So & ->); [repeat (apply Forall_cons; [assumption|]); apply Forall_nil|repeat (apply Forall_cons; [auto|]); apply Forall_nil|exact (copy_nonneg k dflt la lc Ga E)|exact Pr|].
  assert (Lu : length (uninit B (Z.of_nat n)) = n) by (rewrite uninit_length; lia). pose proof P as Pc. rewrite <- S in Pc. pose proof (perm_positions lc ixs J Pc) as ND.
  set (rd := fun ix (_ : option B) => zget da (addr la ix)).
  rewrite (fold_res_ext _ (step (addr lc) rd Some g)). 2:{ intros [s0 c0] ix. unfold step, rd, call2, tuple. cbn [map fst snd]. destruct (zget c0 (addr lc ix)); cbn [bind]; auto. }
  destruct (step_total (addr lc) rd Some g ixs (fun ix _ x => elem da la ix = Some x) s (uninit B (Z.of_nat n)) ND) as (s' & c' & xs & ys & -> & Cl & L & Fx & Fy & _).
  { intros ix Hi. apply (perm_valid _ _ ix P) in Hi. pose proof (Ia ix Hi) as R. apply peek_inside in R as (x & Hx). assert (R : 0 <= addr lc ix < Z.of_nat (length (uninit B (Z.of_nat n)))). { rewrite Lu. apply Cv. exists ix. rewrite S. auto. } apply peek_inside in R as (v & Hv). exists v, x. split; auto. split; [now apply zget_peek|]. auto. }
  cbn [bind snd fst]. assert (Pm : map (addr lc) ixs = consecutive 0 n). { apply sorted_le_unique; auto; [|apply consecutive_sorted]. apply NoDup_Permutation; auto. { unfold consecutive. apply FinFun.Injective_map_NoDup; [intros x y; lia|apply seq_NoDup]. } intro p. unfold consecutive. rewrite !in_map_iff. split.
    - intros (ix & <- & Hi). assert (X : 0 <= addr lc ix < Z.of_nat n) by (apply Cv; exists ix; split; auto; eapply perm_valid; eauto). exists (Z.to_nat (addr lc ix)). rewrite in_seq. lia.
    - intros (q & <- & Hq). apply in_seq in Hq. assert (X : 0 <= 0 + Z.of_nat q < Z.of_nat n) by lia. apply Cv in X as (ix & V & Ex). exists ix. split; auto. eapply perm_valid; eauto. }
  assert (Ln : length ys = n). { rewrite (called_length _ _ _ _ _ Cl). rewrite <- (F2_len _ _ _ Fx). rewrite <- (map_length (addr lc)), Pm. unfold consecutive. now rewrite map_length, seq_length. }
  assert (Ec : c' = map Some ys). { apply peek_consecutive; [rewrite map_length; congruence|]. rewrite L, Lu, <- Pm. apply Forall2_map_l. clear - Fy. induction Fy; cbn; constructor; auto. }
  subst c'. rewrite assume_some. cbn [bind]. assert (Ic : inside lc (length ys)) by (rewrite Ln; now apply covers_inside). rewrite tensor_new_ok by auto. cbn [bind]. exists s', (mkTensor ys lc), ixs, xs, ys. split; auto. cbn [t_layout t_data]. split; [apply tensor_ok_good; auto|]. split; auto. split; auto. split; [|split; [auto|split; [|auto]]].
  - apply Forall2_map_some. eapply Forall2_impl_in; [|exact Fx]. cbn beta. intros ix x _ (v & _ & H). exact H.
  - apply Forall2_map_some. eapply Forall2_impl_in; [|exact Fy]. cbn beta. intros ix y _ H. unfold elem. rewrite peek_map in H. destruct (peek ys (addr lc ix)); [cbn in H; congruence|discriminate]. Qed.

Lemma l_mapi_fnmut : forall (St A : Type) k (g : St -> A -> St * A) (s : St) (a : tensor A), tensor_ok a ->
  exists s' a' ps xs ys, mapi_fnmut k g s a = Ok (s', a') /\ t_layout a' = t_layout a /\ length (t_data a') = length (t_data a) /\
    NoDup ps /\ (forall p, In p ps <-> exists ix, valid (t_shape a) ix /\ addr (t_layout a) ix = p) /\
    map (peek (t_data a)) ps = map Some xs /\ called g s xs s' ys /\ map (peek (t_data a')) ps = map Some ys /\
    (forall p, ~ In p ps -> peek (t_data a') p = peek (t_data a) p).
Proof. intros St A k g s [da la] Ha. apply tensor_ok_good in Ha as [Ga Ia]. cbn [t_data t_layout] in *. unfold mapi_fnmut, t_shape. cbn [t_data t_layout].
  assert (X : exists l' ax, greedy_layout la false = Ok (l', ax) /\ wf l' /\ nonneg l' /\ distinct l' /\ forall p, (exists j, valid (l_shape l') j /\ addr l' j = p) <-> exists i, valid (l_shape la) i /\ addr la i = p).
  { destruct (Nat.eq_dec (size (l_shape la)) 0) as [Z0|Z0].
    - unfold greedy_layout, l_size. rewrite Z0. cbn [Nat.eqb]. pose proof (accepted_distinct _ Ga) as D. destruct Ga as (W & N & _). do 2 eexists. split; [reflexivity|]. repeat split; auto; apply W.
    - destruct (translate_g_ok RowMajor la Ga Z0) as (l' & E & W & N & J & P). unfold translate_unary in E. apply bind_ok in E as ([l0 ax] & E & X). cbn [fst] in X. injection X as ->. exists l', ax. split; auto. split; auto. split; auto. split; [|apply P]. intros i j Vi Vj Eij k0 _ _. now rewrite (J i j Vi Vj Eij). }
  destruct X as (l' & ax & E & W & N & D & P). rewrite E. cbn [bind fst].
  destruct (single_kernel_ok k contig_switch l' (call1 g) (s, da)) as (ps & ND & Q & ->); auto; [unfold contig_switch; lia|].
  rewrite (fold_res_ext _ (step (fun z => z) (fun _ v => Ok v) (fun y => y) g)). 2:{ intros [s0 c0] z. unfold step, call1. cbn [fst snd]. destruct (zget c0 z); cbn [bind]; auto. }
  destruct (step_total (fun z : Z => z) (fun _ (v : A) => Ok v) (fun y : A => y) g ps (fun _ v x => v = x) s da) as (s' & c' & xs & ys & -> & Cl & L & Fx & Fy & U).
  { now rewrite map_id. } { intros z Hz. apply Q, P in Hz as (ix & V & <-). pose proof (Ia ix V) as R. apply peek_inside in R as (v & Hv). exists v, v. auto. }
  cbn [bind fst snd]. exists s', (mkTensor c' la), ps, xs, ys. split; auto. cbn [t_layout t_data]. split; auto. split; auto. split; auto. split; [intro p; rewrite Q; apply P|]. split; [|split; [auto|split]].
  - apply Forall2_map_some. eapply Forall2_impl_in; [|exact Fx]. cbn beta. intros p x _ (v & Hv & ->). exact Hv.
  - now apply Forall2_map_some.
  - intros p Hp. apply U. now rewrite map_id. Qed.

Lemma l_mapb_fnmut : forall (St A B C : Type) k o (g : St -> A -> B -> St * C) (s : St) (a : tensor A) (b : tensor B), tensor_ok a -> tensor_ok b -> injective (t_layout a) -> injective (t_layout b) ->
  match mapb_fnmut k o g s a b with
  | Ok (s', c) => tensor_ok c /\ broadcasts o (t_shape a) (t_shape b) (t_shape c) /\
      exists ixs xs zs ys, Permutation ixs (row_major (t_shape c)) /\
        map (fun ix => at_ a (source_index o (t_shape a) ix)) ixs = map Some xs /\ map (fun ix => at_ b (source_index o (t_shape b) ix)) ixs = map Some zs /\
        called (fun st p => g st (fst p) (snd p)) s (combine xs zs) s' ys /\ map (at_ c) ixs = map Some ys
  | Err _ => forall sh, ~ broadcasts o (t_shape a) (t_shape b) sh
  | Panic => False
  end.
Proof. intros St A B C k o g s [da la] [db lb] Ha Hb Ja Jb. apply tensor_ok_good in Ha as [Ga Ia], Hb as [Gb Ib]. cbn [t_data t_layout] in *. unfold mapb_fnmut, t_shape, at_. cbn [t_data t_layout].
  pose proof (l_broadcast_layout o la lb (good_wf _ Ga) (good_wf _ Gb)) as BL. destruct (broadcast_layout la lb o) as [[r1 r2]|e|] eqn:E; cbn [bind]; auto. clear BL.
  destruct (broadcast_good la lb o r1 r2 Ga Gb E) as (sh & Bs & G1 & G2 & S1 & S2 & _ & _ & F1 & F2).
  destruct (binop_good r1 r2 o (good_wf _ G1) (good_wf _ G2)) as (lo & n & E1 & So & Oo & Go & Cv & K); [congruence|]. rewrite E1. cbn [bind]. destruct (bounds_covers lo n (good_wf _ Go) Oo Cv) as (b0 & E2). rewrite E2. cbn [bind snd]. rewrite S1 in So, K.
  assert (Jo : injective lo). { intros i j Vi Vj Eij. rewrite So in Vi, Vj. destruct (K i j Vi Vj Eij) as [K1 K2]. destruct (F1 i Vi) as [V1 A1], (F1 j Vj) as [V1' A1'], (F2 i Vi) as [V2 A2], (F2 j Vj) as [V2' A2']. rewrite A1, A1' in K1. rewrite A2, A2' in K2. eapply sources_determine; eauto. }
  destruct (joint_kernel_ok k [lo; r1; r2] sh (call3 da db g) (s, uninit C (Z.of_nat n))) as (ixs & P & ->); [discriminate|repeat (apply Forall_cons; [assumption|]); apply Forall_nil|repeat (apply Forall_cons; [assumption|]); apply Forall_nil|].
  assert (Lu : length (uninit C (Z.of_nat n)) = n) by (rewrite uninit_length; lia). pose proof P as Pc. rewrite <- So in Pc. pose proof (perm_positions lo ixs Jo Pc) as ND.
  set (rd := fun ix (_ : option C) => let* x := zget da (addr r1 ix) in let* z := zget db (addr r2 ix) in Ok (x, z)). set (g2 := fun st (p : A * B) => g st (fst p) (snd p)).
  rewrite (fold_res_ext _ (step (addr lo) rd Some g2)). 2:{ intros [s0 c0] ix. unfold step, rd, call3, g2, tuple. cbn [map fst snd]. destruct (zget c0 (addr lo ix)); cbn [bind]; auto. destruct (zget da (addr r1 ix)); cbn [bind]; auto. destruct (zget db (addr r2 ix)); cbn [bind fst snd]; auto. }
  destruct (step_total (addr lo) rd Some g2 ixs (fun ix _ x => elem da la (source_index o (l_shape la) ix) = Some (fst x) /\ elem db lb (source_index o (l_shape lb) ix) = Some (snd x)) s (uninit C (Z.of_nat n)) ND) as (s' & c' & xz & ys & -> & Cl & L & Fx & Fy & _).
  { intros ix Hi. apply (perm_valid _ _ ix P) in Hi. destruct (F1 ix Hi) as [V1 A1], (F2 ix Hi) as [V2 A2]. pose proof (Ia _ V1) as R1. apply peek_inside in R1 as (x & Hx). pose proof (Ib _ V2) as R2. apply peek_inside in R2 as (z & Hz).
    assert (R : 0 <= addr lo ix < Z.of_nat (length (uninit C (Z.of_nat n)))). { rewrite Lu. apply Cv. exists ix. rewrite So. auto. } apply peek_inside in R as (v & Hv). exists v, (x, z). split; auto. split; [|auto]. unfold rd. rewrite A1, A2. apply zget_peek in Hx, Hz. rewrite Hx. cbn [bind]. now rewrite Hz. }
  cbn [bind snd fst]. destruct (fresh_result lo c' (fun ix v => elem c' lo ix = Some (Some v))) as (d & E3 & E4 & Ld & Id & Hd); auto.
  { now rewrite L, Lu. } { intros ix V. assert (Hi : In ix ixs) by (eapply perm_valid; eauto). clear - Fy Hi. induction Fy as [|i y ixs ys H F IH]; [destruct Hi|]. destruct Hi as [->|Hi]; eauto. }
  rewrite E3. cbn [bind]. rewrite E4. cbn [bind t_layout t_data]. split; [apply tensor_ok_good; auto|]. split; [congruence|]. exists ixs, (map fst xz), (map snd xz), ys. split; [now rewrite So|].
  replace (combine (map fst xz) (map snd xz)) with xz by (clear; induction xz as [|[x z] xz IH]; cbn; congruence). split; [|split; [|split; [exact Cl|]]].
  - apply Forall2_map_some. clear - Fx. induction Fx as [|i x ixs xz (v & _ & H & _) F IH]; cbn [map]; constructor; auto.
  - apply Forall2_map_some. clear - Fx. induction Fx as [|i x ixs xz (v & _ & _ & H) F IH]; cbn [map]; constructor; auto.
  - apply Forall2_map_some. eapply Forall2_impl_in; [|exact Fy]. cbn beta. intros ix y Hi H. apply (perm_valid _ _ ix Pc) in Hi. destruct (Hd ix Hi) as (v & Hv & Hv'). unfold elem in Hv'. rewrite H in Hv'. injection Hv' as ->. exact Hv. Qed.

(** two views that repeat along the same axis: both calls write into one cell *)
Definition repeated : tensor Z := mkTensor [10] (mkLayout [2]%nat [0] 0).
Lemma repeated_ok : tensor_ok repeated.
Proof. concrete_tensor. Qed.
Lemma l_mapb_repeated_refuted : exists (a b : tensor Z) (g : Z -> Z -> Z -> Z * Z) (s s' : Z) (c : tensor Z), tensor_ok a /\ tensor_ok b /\ t_shape a = [2]%nat /\ t_shape b = [2]%nat /\
  mapb_fnmut Dyn RowMajor g s a b = Ok (s', c) /\
  ~ exists ixs xs zs ys, Permutation ixs (row_major (t_shape c)) /\ called (fun st p => g st (fst p) (snd p)) s (combine xs zs) s' ys /\ map (at_ c) ixs = map Some ys.
Proof. exists repeated, repeated, (fun (n x y : Z) => (n + 1, n)), 0, 2, (mkTensor [1] (mkLayout [2]%nat [0] 0)). split; [apply repeated_ok|]. split; [apply repeated_ok|]. split; [reflexivity|]. split; [reflexivity|]. split; [reflexivity|].
  intros (ixs & xs & zs & ys & P & Cl & M). assert (L : length ixs = 2%nat) by (rewrite (Permutation_length P); reflexivity).
  assert (A : forall ix, In ix ixs -> at_ (mkTensor [1] (mkLayout [2]%nat [0] 0)) ix = Some 1). { intros ix Hi. apply (Permutation_in ix P) in Hi. cbn in Hi. destruct Hi as [<-|[<-|[]]]; reflexivity. }
  destruct ixs as [|i [|j [|]]]; try discriminate L. cbn [map] in M. rewrite !A in M by (cbn; auto). destruct ys as [|y [|y' [|]]]; try discriminate M. cbn [map] in M. injection M as <- <-.
  inversion Cl as [|? x ? ? ? ? ? H1 C1]; subst. injection H1 as _ H1. lia. Qed.
