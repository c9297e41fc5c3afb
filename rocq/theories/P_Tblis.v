(** Facts about einsum and tensordot with TBLIS. *)
From Coq Require Import Ascii Permutation.
From Verif Require Import Base Spec P_Index P_List M_Layout P_Layout P_Bounds P_Contig P_Strides P_Indexer P_Rearr P_Tensor P_Tri3 P_Arg M_Tensor M_Faer Q_Faer Spec_Tensordot M_Tensordot Q_Tensordot M_Tblis Spec_Tblis.
Local Open Scope nat_scope.

Lemma Forall2_weaken {A B} (P Q : A -> B -> Prop) : (forall a b, P a b -> Q a b) -> forall l m, Forall2 P l m -> Forall2 Q l m.
Proof. intros H l m F. induction F; constructor; auto. Qed.
(** ** sums in any order *)
Lemma fold_app {T} (u : T) f : commutative_monoid u f -> forall l1 l2, fold_right f u (l1 ++ l2) = f (fold_right f u l1) (fold_right f u l2).
Proof. intros (C & A & U) l1 l2. induction l1 as [|x l IH]; cbn [fold_right app]; [now rewrite U|]. now rewrite IH, A. Qed.
Lemma fold_perm {T} (u : T) f : commutative_monoid u f -> forall l1 l2, Permutation l1 l2 -> fold_right f u l1 = fold_right f u l2.
Proof. intros (C & A & U) l1 l2 P. induction P; cbn [fold_right]; [auto|now rewrite IHP| |congruence]. now rewrite !A, (C x y). Qed.
Lemma combined_fold {T} (u : T) f : commutative_monoid u f -> forall l x, combined u f l x -> x = fold_right f u l.
Proof. intros M l x H. induction H as [|x|l l1 l2 x1 x2 N1 N2 P H1 IH1 H2 IH2]; auto.
  - cbn. destruct M as (C & A & U). now rewrite C, U.
  - rewrite (fold_perm _ _ M _ _ P), fold_app by auto. congruence. Qed.
Lemma combined_pair {T} (u : T) f : forall y z x, combined u f [y; z] x -> x = f y z \/ x = f z y.
Proof. intros y z x H. inversion H as [| |l l1 l2 x1 x2 N1 N2 P H1 H2]; subst.
  assert (S : forall l v w, length l = 1 -> combined u f l v -> In w l -> v = w). { intros [|a [|]] v w L C I; cbn in L; try lia. destruct I as [<-|[]]. inversion C as [|v'|l0 k1 k2 a1 a2 M1 M2 Q]; subst; auto.
    apply Permutation_length in Q. rewrite app_length in Q. destruct k1, k2; cbn in Q; try congruence; lia. }
  pose proof (Permutation_length P) as L. rewrite app_length in L. cbn in L.
  destruct l1 as [|p [|]]; try congruence; [|destruct l2; [congruence|cbn in L; lia]]. destruct l2 as [|q [|]]; [congruence| |cbn in L; lia]. cbn [app] in P.
  rewrite (S [p] x1 p), (S [q] x2 q); auto; [|now left|now left]. apply Permutation_length_2_inv in P as [P|P]; injection P as -> ->; auto. Qed.

(** ** values of names *)
Lemma value_map : forall names ix, NoDup names -> length names = length ix -> map (value_of names ix) names = ix.
Proof. induction names as [|n names IH]; intros [|i ix] N L; cbn in L; try lia; auto. inversion N; subst. cbn [map value_of]. rewrite Ascii.eqb_refl. f_equal. transitivity (map (value_of names ix) names); [|apply IH; auto; lia].
  apply map_ext_in. intros c I. destruct (Ascii.eqb_spec n c) as [->|]; [contradiction|auto]. Qed.

(** ** contiguous layouts *)
Lemma cum_snoc s d : forall c, cum_strides (fun n => n) (s ++ [d]) c = cum_strides (fun n => n) s c ++ [(c * Z.of_nat (size s))%Z].
Proof. induction s as [|e s IH]; intro c; cbn [app cum_strides]; [cbn; f_equal; lia|]. rewrite IH. cbn [app]. do 3 f_equal. cbn [size fold_right]. change (fold_right Nat.mul 1 s) with (size s). rewrite Nat2Z.inj_mul. lia. Qed.
Lemma row_strides_cum s : row_strides s = rev (cum_strides (fun n => n) (rev s) 1%Z).
Proof. induction s as [|d s IH]; auto. cbn [rev row_strides]. rewrite cum_snoc, rev_app_distr, IH. cbn [rev app]. now rewrite size_rev, Z.mul_1_l. Qed.
Lemma contiguous_new o s : contiguous o s = new_contig Dyn s 0%Z o.
Proof. destruct o; unfold contiguous, new_contig, new_c_contig, new_f_contig; cbn [stride_c_contig stride_f_contig]; unfold stride_c_dyn, stride_f_dyn.
  - now rewrite row_strides_cum.
  - now rewrite row_strides_cum, !rev_involutive. Qed.
Lemma nat_shape s : map Z.to_nat (map Z.of_nat s) = s.
Proof. rewrite map_map. rewrite <- (map_id s) at 2. apply map_ext. intro. apply Nat2Z.id. Qed.
Lemma from_tblis_ok {T} (v : list T) o s dev : length v = size s ->
  from_tblis_tensor v (map Z.of_nat (l_shape (contiguous o s))) (l_stride (contiguous o s)) dev = Ok (mkPlaced (mkTensor v (contiguous o s)) dev) /\ tensor_ok (mkTensor v (contiguous o s)).
Proof. intro L. destruct (contig_facts Dyn s o) as (G & _ & C & _). rewrite <- (contiguous_new o s) in G, C. apply covers_inside in C. rewrite <- L in C. split.
  - unfold from_tblis_tensor. rewrite nat_shape. assert (E : layout_new (l_shape (contiguous o s)) (l_stride (contiguous o s)) 0%Z = Ok (contiguous o s)) by (apply good_accepted in G; apply G).
    rewrite E. cbn [bind]. rewrite tensor_new_ok; auto.
  - split; [now apply good_accepted|exact C]. Qed.

(** ** the tensors TBLIS is given *)
Lemma tblis_layout_to {T} (t : tensor T) : tblis_layout (to_tblis_tensor t) = t_layout t.
Proof. unfold tblis_layout, to_tblis_tensor. cbn. rewrite nat_shape. now destruct (t_layout t). Qed.
Lemma readable_to {T} (t : tensor T) s : tensor_ok t -> t_shape t = s -> readable (to_tblis_tensor t) s.
Proof. intros [A I] <-. split; [reflexivity|]. split; [apply A|]. rewrite tblis_layout_to. exact I. Qed.
Lemma read_to {T} (ts : list (tensor T)) k ix : tblis_read (map to_tblis_tensor ts) k ix = read_tensors ts k ix.
Proof. unfold tblis_read, read_tensors. rewrite nth_error_map. destruct (nth_error ts k); cbn [option_map]; reflexivity. Qed.
Lemma einsum_ext {T} (zero one : T) add mul ext ins out r r' ix x : (forall k jx, r k jx = r' k jx) -> is_einsum zero one add mul ext ins out r ix x -> is_einsum zero one add mul ext ins out r' ix x.
Proof. intros E H summed N S. destruct (H summed N S) as (terms & C & F). exists terms. split; auto. eapply Forall2_weaken; [|exact F]. cbv beta. intros kx t (fs & Cf & L & R). exists fs. split; auto. split; auto. intros. rewrite <- E. auto. Qed.

Section L.
  Context {T : Type} (zero one : T) (add mul : T -> T -> T).
  Context (lib : nat -> list ascii -> list (tblis_tensor T) -> bool -> option (tblis_tensor T) -> option (answer T)).
  Lemma same_all dev (ops : list (placed T)) : (forall t, In t ops -> p_device t = dev) -> forallb (fun t => same_device (p_device t) dev) ops = true.
  Proof. intro H. apply forallb_forall. intros t I. apply device_same. auto. Qed.
  Lemma ops_readable (ext : ascii -> nat) ins (ops : list (placed T)) : Forall2 (fun names t => tensor_ok (p_tensor t) /\ t_shape (p_tensor t) = map ext names) ins ops ->
    Forall2 (fun names t => readable t (map ext names)) ins (map (fun t => to_tblis_tensor (T:=T) (p_tensor t)) ops).
  Proof. induction 1 as [|n t ins ops [H1 H2]]; constructor; auto. now apply readable_to. Qed.
  Lemma order_if o : (if order_eqb o RowMajor then RowMajor else ColMajor) = o.
  Proof. now destruct o. Qed.
  Lemma einsum_ok : einsum_library zero one add mul lib -> forall worker sub ins out ext ops dev g,
    spells sub ins out -> well_named ins out -> ops <> [] -> (forall t, In t ops -> p_device t = dev) -> 0 < d_threads dev ->
    Forall2 (fun names t => tensor_ok (p_tensor t) /\ t_shape (p_tensor t) = map ext names) ins ops ->
    exists c, einsum_with_option_output lib worker sub ops None g = (Ok (Some (mkPlaced c dev), None), g) /\ tensor_ok c /\ t_layout c = contiguous (d_order dev) (map ext out) /\ length (t_data c) = size (map ext out) /\
      forall ix, valid (map ext out) ix -> exists x, at_ c ix = Some x /\ is_einsum zero one add mul ext ins out (read_tensors (map p_tensor ops)) ix x.
  Proof. intros H worker sub ins out ext ops dev g Sp W N D Th F. destruct ops as [|first rest]; [congruence|]. unfold einsum_with_option_output.
    assert (D1 : p_device first = dev) by (apply D; now left). rewrite D1, same_all by (intros t I; apply D; now right). cbn [negb].
    set (n := if worker then 1 else d_threads dev). assert (Hn : 0 < n) by (unfold n; destruct worker; lia).
    assert (Ni : ins <> []) by (intros ->; inversion F).
    destruct (H n sub ins out ext _ (order_eqb (d_order dev) RowMajor) Hn Sp W Ni (ops_readable _ _ _ F)) as [(v & E & L & R) _].
    rewrite order_if in E, R. rewrite E. destruct (from_tblis_ok v (d_order dev) (map ext out) dev L) as [E2 K]. rewrite E2. cbn [bind]. exists (mkTensor v (contiguous (d_order dev) (map ext out))).
    split; [reflexivity|]. split; auto. split; [reflexivity|]. split; auto. intros ix V. destruct (R ix V) as (x & X & I). exists x. split; auto. eapply einsum_ext; [|exact I]. intros k jx. cbv beta. rewrite <- (map_map p_tensor to_tblis_tensor). apply read_to. Qed.
  Lemma einsum_output_ok : einsum_library zero one add mul lib -> forall worker sub ins out ext ops o dev g,
    spells sub ins out -> well_named ins out -> ops <> [] -> (forall t, In t ops -> p_device t = dev) -> 0 < d_threads dev ->
    Forall2 (fun names t => tensor_ok (p_tensor t) /\ t_shape (p_tensor t) = map ext names) ins ops ->
    p_device o = dev -> tensor_ok (p_tensor o) -> injective (t_layout (p_tensor o)) -> t_shape (p_tensor o) = map ext out ->
    exists v, einsum_with_option_output lib worker sub ops (Some o) g = (Ok (None, Some (mkPlaced (mkTensor v (t_layout (p_tensor o))) dev)), g) /\
      untouched_outside (t_layout (p_tensor o)) (t_data (p_tensor o)) v /\
      forall ix, valid (map ext out) ix -> exists x, elem v (t_layout (p_tensor o)) ix = Some x /\ is_einsum zero one add mul ext ins out (read_tensors (map p_tensor ops)) ix x.
  Proof. intros H worker sub ins out ext ops o dev g Sp W N D Th F Do Ko Io So. destruct ops as [|first rest]; [congruence|]. unfold einsum_with_option_output.
    assert (D1 : p_device first = dev) by (apply D; now left). rewrite D1, same_all by (intros t I; apply D; now right). cbn [negb]. rewrite device_same by auto. cbn [negb].
    set (n := if worker then 1 else d_threads dev). assert (Hn : 0 < n) by (unfold n; destruct worker; lia).
    assert (Ni : ins <> []) by (intros ->; inversion F).
    destruct (H n sub ins out ext _ (order_eqb (d_order dev) RowMajor) Hn Sp W Ni (ops_readable _ _ _ F)) as [_ R].
    destruct (R (to_tblis_tensor (p_tensor o))) as (v & E & U & X); [now apply readable_to|now rewrite tblis_layout_to|]. rewrite E, Do. exists v. split; [reflexivity|]. rewrite tblis_layout_to in *. split; auto.
    intros ix V. destruct (X ix V) as (x & Y & I). exists x. split; auto. eapply einsum_ext; [|exact I]. intros k jx. cbv beta. rewrite <- (map_map p_tensor to_tblis_tensor). apply read_to. Qed.
End L.

(** ** labels of tensordot *)
Lemma pick_map {A B} (f : A -> B) p d l d' : (forall i, In i p -> i < length l) -> pick p d' (map f l) = map f (pick p d l).
Proof. intro H. unfold pick. rewrite map_map. apply map_ext_in. intros i I. rewrite (nth_indep _ d' (f d)), map_nth; auto. rewrite map_length. auto. Qed.
Lemma except_in n p i : In i (axes_except n p) <-> i < n /\ ~ In i p.
Proof. unfold axes_except. rewrite filter_In, in_seq. split.
  - intros [H E]. split; [lia|]. intro I. apply Bool.negb_true_iff in E. rewrite <- Bool.not_true_iff_false in E. apply E. apply existsb_exists. exists i. split; auto. apply Nat.eqb_refl.
  - intros [H N]. split; [lia|]. apply Bool.negb_true_iff, Bool.not_true_iff_false. intro E. apply existsb_exists in E as (j & I & E). apply Nat.eqb_eq in E. subst. auto. Qed.
Lemma in_pick {A} p (d : A) l x : (forall i, In i p -> i < length l) -> (In x (pick p d l) <-> exists i, In i p /\ nth_error l i = Some x).
Proof. intro H. unfold pick. rewrite in_map_iff. split.
  - intros (i & E & I). exists i. split; auto. rewrite <- E. apply nth_error_nth'. auto.
  - intros (i & I & E). exists i. split; auto. now apply nth_error_nth. Qed.
Lemma pick_NoDup {A} p (d : A) l : NoDup p -> NoDup l -> (forall i, In i p -> i < length l) -> NoDup (pick p d l).
Proof. intros Np Nl H. unfold pick. induction Np as [|i p N Np IH]; cbn [map]; constructor.
  - intro I. apply in_map_iff in I as (j & E & I). apply N. assert (i = j); [|congruence]. apply (proj1 (NoDup_nth l d) Nl); [apply H; now left|apply H; now right|auto].
  - apply IH. intros. apply H. now right. Qed.
Lemma split_eq n p (u v : list nat) : NoDup p -> (forall a, In a p -> a < n) -> length u = n -> length v = n -> pick p 0 u = pick p 0 v -> pick (axes_except n p) 0 u = pick (axes_except n p) 0 v -> u = v.
Proof. intros N B Lu Lv E1 E2. rewrite <- (merge_split n p u N B Lu), <- (merge_split n p v N B Lv). congruence. Qed.

Lemma NoDup_app_i {A} : forall (l1 l2 : list A), NoDup l1 -> NoDup l2 -> (forall x, In x l1 -> ~ In x l2) -> NoDup (l1 ++ l2).
Proof. intros l1 l2 N1 N2 D. induction N1 as [|x l1 Nx N1 IH]; auto. cbn [app]. constructor.
  - rewrite in_app_iff. intros [I|I]; [auto|]. apply (D x); auto. now left.
  - apply IH. intros y I. apply D. now right. Qed.
Section Labels.
  Context (da db : nat) (pa pb : list nat) (la lb lo : list ascii) (H : labelled da db pa pb la lb lo).
  Context (L : length pa = length pb) (Na : NoDup pa) (Nb : NoDup pb) (Ba : forall a, In a pa -> a < da) (Bb : forall a, In a pb -> a < db).
  Let d := " "%char.
  Let summed := pick pa d la.
  Lemma bound_a i : In i pa -> i < length la. Proof. rewrite (rank_a _ _ _ _ _ _ _ H). apply Ba. Qed.
  Lemma bound_b i : In i pb -> i < length lb. Proof. rewrite (rank_b _ _ _ _ _ _ _ H). apply Bb. Qed.
  Lemma bound_ea i : In i (axes_except da pa) -> i < length la. Proof. rewrite (rank_a _ _ _ _ _ _ _ H), except_in. tauto. Qed.
  Lemma bound_eb i : In i (axes_except db pb) -> i < length lb. Proof. rewrite (rank_b _ _ _ _ _ _ _ H), except_in. tauto. Qed.
  Lemma paired_labels : pick pb d lb = summed.
  Proof. apply nth_ext with d d; [unfold summed; rewrite !pick_length; auto|]. rewrite pick_length. intros k K. unfold summed. rewrite !nth_pick by lia. symmetry.
    assert (In (nth k pa 0, nth k pb 0) (combine pa pb)) by (rewrite <- (combine_nth pa pb k 0 0) by auto; apply nth_In; rewrite combine_length; lia).
    apply (same_iff_paired _ _ _ _ _ _ _ H (nth k pa 0) (nth k pb 0)); auto; apply nth_error_nth'; [apply bound_a|apply bound_b]; apply nth_In; lia. Qed.
  Lemma names_distinct : NoDup (lo ++ summed).
  Proof. rewrite (output _ _ _ _ _ _ _ H d), <- app_assoc. apply NoDup_app_i; [|apply NoDup_app_i|].
    - apply pick_NoDup; [apply NoDup_filter, seq_NoDup|apply H|apply bound_ea].
    - apply pick_NoDup; [apply NoDup_filter, seq_NoDup|apply H|apply bound_eb].
    - apply pick_NoDup; [auto|apply H|apply bound_a].
    - intros x I J. rewrite <- paired_labels in J. apply in_pick in I as (i & I & Ei); [|apply bound_eb]. apply in_pick in J as (j & J & Ej); [|apply bound_b].
      apply except_in in I as [_ I]. apply I. replace i with j; auto. apply (proj1 (NoDup_nth_error lb) (distinct_b _ _ _ _ _ _ _ H)); [now apply bound_b|congruence].
    - intros x I J. apply in_pick in I as (i & I & Ei); [|apply bound_ea]. apply except_in in I as [_ I]. apply in_app_iff in J as [J|J].
      + apply in_pick in J as (j & J & Ej); [|apply bound_eb]. assert (C : In (i, j) (combine pa pb)) by (apply (same_iff_paired _ _ _ _ _ _ _ H i j x x); auto). apply in_combine_l in C. auto.
      + apply in_pick in J as (j & J & Ej); [|apply bound_a]. apply I. replace i with j; auto. apply (proj1 (NoDup_nth_error la) (distinct_a _ _ _ _ _ _ _ H)); [now apply bound_a|congruence]. Qed.
  Lemma summed_names c : In c summed <-> In c (concat [la; lb]) /\ ~ In c lo.
  Proof. cbn [concat]. rewrite app_nil_r, in_app_iff. split.
    - intro I. split.
      + left. apply in_pick in I as (i & _ & E); [|apply bound_a]. eapply nth_error_In; eauto.
      + intro J. pose proof names_distinct as N. apply in_split in J as (l1 & l2 & E). rewrite E, <- app_assoc in N. apply NoDup_remove_2 in N. apply N. rewrite !in_app_iff. auto.
    - rewrite (output _ _ _ _ _ _ _ H d), in_app_iff. intros [[I|I] N].
      + apply In_nth_error in I as (i & E). destruct (in_dec Nat.eq_dec i pa) as [P|P]; [apply in_pick; [apply bound_a|eauto]|]. exfalso. apply N. left. apply in_pick; [apply bound_ea|]. exists i. split; auto. apply except_in. split; auto.
        rewrite <- (rank_a _ _ _ _ _ _ _ H). apply nth_error_Some. congruence.
      + apply In_nth_error in I as (i & E). destruct (in_dec Nat.eq_dec i pb) as [P|P]; [rewrite <- paired_labels; apply in_pick; [apply bound_b|eauto]|]. exfalso. apply N. right. apply in_pick; [apply bound_eb|]. exists i. split; auto. apply except_in. split; auto.
        rewrite <- (rank_b _ _ _ _ _ _ _ H). apply nth_error_Some. congruence. Qed.
  Lemma values ia ib kx : length ia = length (axes_except da pa) -> length ib = length (axes_except db pb) -> length kx = length pa ->
    map (value_of (lo ++ summed) ((ia ++ ib) ++ kx)) lo = ia ++ ib /\ map (value_of (lo ++ summed) ((ia ++ ib) ++ kx)) summed = kx /\
    map (value_of (lo ++ summed) ((ia ++ ib) ++ kx)) la = merge da pa kx ia /\ map (value_of (lo ++ summed) ((ia ++ ib) ++ kx)) lb = merge db pb kx ib.
  Proof. intros La Lb Lk. pose proof (output _ _ _ _ _ _ _ H d) as O. set (v := value_of (lo ++ summed) ((ia ++ ib) ++ kx)).
    assert (Llo : length lo = length (ia ++ ib)) by (rewrite O, !app_length, !pick_length; lia).
    assert (E : map v (lo ++ summed) = (ia ++ ib) ++ kx). { apply value_map; [apply names_distinct|]. rewrite !app_length. rewrite app_length in Llo. unfold summed. rewrite pick_length. lia. }
    rewrite map_app in E. apply app_inj_1 in E as [E1 E2]; [|now rewrite map_length]. split; auto. split; auto.
    rewrite O, map_app in E1. apply app_inj_1 in E1 as [E1 E3]; [|now rewrite map_length, pick_length]. split.
    - destruct (merge_spec da pa kx ia Na Ba Lk La) as (M & M1 & M2). apply (split_eq da pa); auto; [rewrite map_length; apply (rank_a _ _ _ _ _ _ _ H)| |].
      + rewrite M1, (pick_map v pa d) by apply bound_a. exact E2.
      + rewrite M2, (pick_map v _ d) by apply bound_ea. exact E1.
    - rewrite L in Lk. destruct (merge_spec db pb kx ib Nb Bb Lk Lb) as (M & M1 & M2). apply (split_eq db pb); auto; [rewrite map_length; apply (rank_b _ _ _ _ _ _ _ H)| |].
      + rewrite M1, (pick_map v pb d) by apply bound_b. rewrite paired_labels. exact E2.
      + rewrite M2, (pick_map v _ d) by apply bound_eb. exact E3. Qed.
End Labels.

Lemma letters_kept (l : list ascii) : Forall is_letter l -> filter (fun c => negb (Ascii.eqb c " "%char)) l = l.
Proof. induction 1 as [|c l Lc F IH]; auto. cbn [filter]. destruct (Ascii.eqb_spec c " "%char) as [->|]; cbn [negb]; [|now rewrite IH]. exfalso. unfold is_letter in Lc. vm_compute in Lc. lia. Qed.
Lemma subscripts_spell la lb lo : Forall is_letter (la ++ lb ++ lo) -> spells (subscripts la lb lo) [la; lb] lo.
Proof. intro F. apply Forall_app in F as [Fa F]. apply Forall_app in F as [Fb Fo]. unfold spells, subscripts. rewrite !filter_app, (letters_kept la), (letters_kept lb), (letters_kept lo) by auto. cbn [joined filter Ascii.eqb Bool.eqb negb app]. cbn [app]. rewrite <- ?app_assoc. reflexivity. Qed.
Lemma device_dec (a b : device) : {a = b} + {a <> b}.
Proof. decide equality; [|apply Nat.eq_dec]. decide equality. Defined.
