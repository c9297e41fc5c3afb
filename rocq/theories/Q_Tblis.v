(** Statements about einsum and tensordot with TBLIS (C100-C102). *)
From Coq Require Import Ascii Permutation.
From Verif Require Import Base Spec P_Index P_List M_Layout P_Layout P_Indexer P_Arg M_Tensor M_Faer Q_Faer Spec_Tensordot M_Tensordot Q_Tensordot M_Tblis Spec_Tblis P_Tblis P_Tblis2.
Local Open Scope nat_scope.

(** ** einsum *)
Lemma l_einsum : forall T (zero one : T) add mul lib worker sub ins out ext ops dev g, einsum_library zero one add mul lib ->
  spells sub ins out -> well_named ins out -> ops <> [] -> (forall t, In t ops -> p_device t = dev) -> 0 < d_threads dev ->
  Forall2 (fun names t => tensor_ok (p_tensor t) /\ t_shape (p_tensor t) = map ext names) ins ops ->
  exists c, einsum_f lib worker sub ops g = (Ok (mkPlaced c dev), g) /\ tensor_ok c /\ t_layout c = contiguous (d_order dev) (map ext out) /\
    forall ix, valid (map ext out) ix -> exists x, at_ c ix = Some x /\ is_einsum zero one add mul ext ins out (read_tensors (map p_tensor ops)) ix x.
Proof. intros T zero one add mul lib worker sub ins out ext ops dev g H Sp W N D Th F. destruct (einsum_ok _ _ _ _ _ H worker sub ins out ext ops dev g) as (c & E & K & Lc & _ & R); auto. exists c. unfold einsum_f. rewrite E. auto. Qed.
Lemma l_einsum_output : forall T (zero one : T) add mul lib worker sub ins out ext ops o dev g, einsum_library zero one add mul lib ->
  spells sub ins out -> well_named ins out -> ops <> [] -> (forall t, In t ops -> p_device t = dev) -> 0 < d_threads dev ->
  Forall2 (fun names t => tensor_ok (p_tensor t) /\ t_shape (p_tensor t) = map ext names) ins ops ->
  p_device o = dev -> tensor_ok (p_tensor o) -> injective (t_layout (p_tensor o)) -> t_shape (p_tensor o) = map ext out ->
  exists c, einsum_with_output_f lib worker sub ops o g = (Ok (mkPlaced c dev), g) /\ t_layout c = t_layout (p_tensor o) /\ untouched_outside (t_layout c) (t_data (p_tensor o)) (t_data c) /\
    forall ix, valid (map ext out) ix -> exists x, at_ c ix = Some x /\ is_einsum zero one add mul ext ins out (read_tensors (map p_tensor ops)) ix x.
Proof. intros T zero one add mul lib worker sub ins out ext ops o dev g H Sp W N D Th F Do Ko Io So. destruct (einsum_output_ok _ _ _ _ _ H worker sub ins out ext ops o dev g) as (v & E & U & R); auto.
  exists (mkTensor v (t_layout (p_tensor o))). unfold einsum_with_output_f. rewrite E. auto. Qed.
(** in exact arithmetic the entry is determined *)
Lemma l_einsum_unique : forall T (zero one : T) add mul ext ins out read ix x y, commutative_monoid zero add -> commutative_monoid one mul ->
  is_einsum zero one add mul ext ins out read ix x -> is_einsum zero one add mul ext ins out read ix y -> x = y.
Proof. intros T zero one add mul ext ins out read ix x y A M Hx Hy. set (summed := filter (fun c => negb (existsb (Ascii.eqb c) out)) (nodup Ascii.ascii_dec (concat ins))).
  assert (N : NoDup summed) by (apply NoDup_filter, NoDup_nodup).
  assert (S : forall c, In c summed <-> In c (concat ins) /\ ~ In c out). { intro c. unfold summed. rewrite filter_In, nodup_In, Bool.negb_true_iff, <- Bool.not_true_iff_false, existsb_exists. split; intros [H1 H2]; split; auto.
    - intro I. apply H2. exists c. split; auto. apply Ascii.eqb_refl.
    - intros (e & I & E). apply Ascii.eqb_eq in E. subst e. auto. }
  destruct (Hx summed N S) as (tx & Cx & Fx), (Hy summed N S) as (ty & Cy & Fy). rewrite (combined_fold _ _ A _ _ Cx), (combined_fold _ _ A _ _ Cy). f_equal. clear Cx Cy Hx Hy.
  revert ty Fy. induction Fx as [|kx t ks tx (f1 & C1 & L1 & R1) Fx IH]; intros ty Fy; inversion Fy as [|k' t' ks' ty' (f2 & C2 & L2 & R2) Fy']; subst; auto. f_equal; auto.
  rewrite (combined_fold _ _ M _ _ C1), (combined_fold _ _ M _ _ C2). f_equal. assert (X : forall k, nth_error f1 k = nth_error f2 k).
  { intro k. destruct (nth_error ins k) as [names|] eqn:E; [now rewrite (R1 k names E), (R2 k names E)|]. apply nth_error_None in E. rewrite (proj2 (nth_error_None f1 k)), (proj2 (nth_error_None f2 k)) by lia. auto. }
  clear - X. revert f2 X. induction f1 as [|a f1 IH]; intros [|b f2] X; auto; try (specialize (X 0); discriminate). pose proof (X 0) as Y. cbn in Y. injection Y as ->. f_equal. apply IH. intro k. apply (X (S k)). Qed.
Lemma l_einsum_checks : forall T (lib : nat -> list ascii -> list (tblis_tensor T) -> bool -> option (tblis_tensor T) -> option (answer T)) worker sub g,
  (einsum_f lib worker sub [] g = (Err InvalidValue, g)) /\ (forall o, einsum_with_output_f lib worker sub [] o g = (Err InvalidValue, g)) /\
  (forall ops t u, In t ops -> In u ops -> p_device t <> p_device u -> einsum_f lib worker sub ops g = (Err InvalidValue, g) /\ forall o, einsum_with_output_f lib worker sub ops o g = (Err InvalidValue, g)) /\
  (forall ops t o, In t ops -> p_device t <> p_device o -> einsum_with_output_f lib worker sub ops o g = (Err InvalidValue, g)).
Proof. intros T lib worker sub g. split; [reflexivity|]. split; [reflexivity|].
  assert (X : forall ops (t u : placed T), In t ops -> In u ops -> p_device t <> p_device u -> forall o, einsum_with_option_output lib worker sub ops o g = (Err InvalidValue, g)).
  { intros [|f rest] t u It Iu Ne o; [destruct It|]. unfold einsum_with_option_output. replace (forallb (fun t => same_device (p_device t) (p_device f)) rest) with false; auto. symmetry. apply Bool.not_true_iff_false. intro A. rewrite forallb_forall in A.
    assert (Y : forall w, In w (f :: rest) -> p_device w = p_device f). { intros w [<-|I]; auto. apply A in I. destruct (device_dec (p_device w) (p_device f)) as [|D]; auto. rewrite (device_differs _ _ D) in I. discriminate. }
    apply Ne. now rewrite (Y t), (Y u). }
  split.
  - intros ops t u It Iu Ne. split; [unfold einsum_f|intro o; unfold einsum_with_output_f]; now rewrite (X ops t u).
  - intros ops t o It Ne. destruct ops as [|f rest] eqn:Eo; [destruct It|]. rewrite <- Eo in *. destruct (device_dec (p_device f) (p_device t)) as [D|D].
    + unfold einsum_with_output_f, einsum_with_option_output. rewrite Eo. destruct (forallb _ rest); cbn [negb]; [|reflexivity]. rewrite device_differs by congruence. reflexivity.
    + unfold einsum_with_output_f. rewrite (X ops f t); auto. rewrite Eo. now left. Qed.

(** ** tensordot *)
Lemma NoDup_app_l {A} : forall (l1 l2 : list A), NoDup (l1 ++ l2) -> NoDup l1.
Proof. induction l1 as [|x l1 IH]; intros l2 N; constructor; inversion N; subst; eauto. intro I. rewrite in_app_iff in *. tauto. Qed.
Lemma dot_setup da db pa pb la lb lo sa sb : labelled da db pa pb la lb lo -> length pa = length pb -> NoDup pa -> NoDup pb -> (forall a, In a pa -> a < da) -> (forall a, In a pb -> a < db) ->
  length sa = da -> length sb = db -> pick pa 0 sa = pick pb 0 sb -> exists ext : ascii -> nat,
    map ext la = sa /\ map ext lb = sb /\ map ext lo = pick (axes_except da pa) 0 sa ++ pick (axes_except db pb) 0 sb /\ map ext (pick pa " "%char la) = pick pa 0 sa.
Proof. intros H L Na Nb Ba Bb Ls Lt E. exists (value_of (lo ++ pick pa " "%char la) ((pick (axes_except da pa) 0 sa ++ pick (axes_except db pb) 0 sb) ++ pick pa 0 sa)).
  destruct (values da db pa pb la lb lo H L Na Nb Ba Bb (pick (axes_except da pa) 0 sa) (pick (axes_except db pb) 0 sb) (pick pa 0 sa)) as (E1 & E2 & E3 & E4); try apply pick_length. rewrite E1, E2, E3, E4. split; [now apply merge_split|].
  split; auto. rewrite E. now apply merge_split. Qed.
Lemma dot_named da db pa pb la lb lo : labelled da db pa pb la lb lo -> length pa = length pb -> NoDup pa -> NoDup pb -> (forall a, In a pa -> a < da) -> (forall a, In a pb -> a < db) -> Forall is_letter (la ++ lb ++ lo) -> well_named [la; lb] lo.
Proof. intros H L Na Nb Ba Bb F. pose proof (names_distinct da db pa pb la lb lo H L Na Ba Bb) as N. split; [|split].
  - cbn [concat]. rewrite app_nil_r. apply Forall_app in F as [Fa F]. apply Forall_app in F as [Fb _]. now apply Forall_app.
  - eapply NoDup_app_l, N.
  - intros c I. cbn [concat]. rewrite app_nil_r. rewrite (output _ _ _ _ _ _ _ H " "%char) in I. apply in_app_iff. apply in_app_iff in I as [I|I]; [left|right]; (apply in_pick in I as (i & _ & E); [eapply nth_error_In; eauto|]); [eapply bound_ea|eapply bound_eb]; eauto. Qed.
Lemma dot_entry T (zero one : T) add mul (a b : tensor T) pa pb la lb lo ext ia ib x : labelled (length (t_shape a)) (length (t_shape b)) pa pb la lb lo -> length pa = length pb -> NoDup pa -> NoDup pb ->
  (forall i, In i pa -> i < length (t_shape a)) -> (forall i, In i pb -> i < length (t_shape b)) -> map ext (pick pa " "%char la) = pick pa 0 (t_shape a) -> pick pa 0 (t_shape a) = pick pb 0 (t_shape b) ->
  tensor_ok a -> tensor_ok b -> valid (pick (axes_except (length (t_shape a)) pa) 0 (t_shape a)) ia -> valid (pick (axes_except (length (t_shape b)) pb) 0 (t_shape b)) ib ->
  is_einsum zero one add mul ext [la; lb] lo (read_tensors [a; b]) (ia ++ ib) x -> is_tensordot zero add mul a b pa pb ia ib x.
Proof. intros H L Na Nb Ba Bb Es Ep Ka Kb Va Vb I. destruct (I (pick pa " "%char la)) as (terms & C & F).
  - apply pick_NoDup; [auto|apply H|]. eapply bound_a; eauto.
  - eapply summed_names; eauto.
  - exists terms. split; auto. rewrite Es in F. apply valid_length in Va, Vb. rewrite pick_length in Va, Vb.
    assert (Vk : forall kx, In kx (row_major (pick pa 0 (t_shape a))) -> length kx = length pa) by (intros kx J; apply in_row_major, valid_length in J; now rewrite pick_length in J).
    clear C. revert Vk. induction F as [|kx t ks ts (fs & Cf & Lf & R) F IH]; intro Vk; constructor.
    + destruct (values _ _ pa pb la lb lo H L Na Nb Ba Bb ia ib kx Va Vb (Vk kx (or_introl eq_refl))) as (_ & _ & E3 & E4).
      pose proof (R 0 la eq_refl) as R0. pose proof (R 1 lb eq_refl) as R1. rewrite E3 in R0. rewrite E4 in R1. destruct fs as [|y [|z [|]]]; cbn in Lf; try lia. exists y, z. split; [now symmetry|]. split; [now symmetry|]. now apply combined_pair in Cf.
    + apply IH. intros. apply Vk. now right. Qed.
Lemma two_ops {T} dev (a b : placed T) : p_device a = dev -> p_device b = dev -> forall t, In t [a; b] -> p_device t = dev.
Proof. intros A B t [<-|[<-|[]]]; auto. Qed.
Lemma l_tblis_tensordot : forall T (zero one : T) add mul lib worker a b axes dev g pa pb, einsum_library zero one add mul lib ->
  p_device a = dev -> p_device b = dev -> 0 < d_threads dev -> tensor_ok (p_tensor a) -> tensor_ok (p_tensor b) ->
  let sa := t_shape (p_tensor a) in let sb := t_shape (p_tensor b) in
  contracts (length sa) (length sb) axes pa pb -> pick pa 0 sa = pick pb 0 sb -> length sa + length sb - length pa <= 52 ->
  let fa := pick (axes_except (length sa) pa) 0 sa in let fb := pick (axes_except (length sb) pb) 0 sb in
  exists c, tensordot_f lib worker a b axes g = (Ok (mkPlaced c dev), g) /\ tensor_ok c /\ t_layout c = contiguous (d_order dev) (fa ++ fb) /\
    forall ia ib, valid fa ia -> valid fb ib -> exists x, at_ c (ia ++ ib) = Some x /\ is_tensordot zero add mul (p_tensor a) (p_tensor b) pa pb ia ib x.
Proof. intros T zero one add mul lib worker a b axes dev g pa pb H Da Db Th Ka Kb sa sb C Ep Hl fa fb. assert (L : length pa = length pb) by (rewrite <- (pick_length pa 0 sa), Ep; apply pick_length).
  destruct (summed_ok _ _ _ _ _ C) as (_ & Na & Nb & Ba & Bb). destruct (proj1 (l_tensordot (length sa) (length sb) axes) pa pb C L) as [X _]. destruct (X Hl) as (la & lb & lo & E & Lb & Fl).
  destruct (dot_setup _ _ pa pb la lb lo sa sb Lb L Na Nb Ba Bb eq_refl eq_refl Ep) as (ext & Ea & Eb & Eo & Es).
  destruct (einsum_ok _ _ _ _ _ H worker (subscripts la lb lo) [la; lb] lo ext [a; b] dev g) as (c & Q & K & Lc & _ & R); auto.
  - now apply subscripts_spell. - eapply dot_named; eauto. - discriminate. - now apply two_ops.
  - exists c. unfold tensordot_f, tensordot_with_option_output. unfold ndim. change (l_shape (t_layout (p_tensor a))) with sa. change (l_shape (t_layout (p_tensor b))) with sb. rewrite E, Q. split; [reflexivity|]. split; auto. rewrite Eo in Lc, R. split; auto.
    intros ia ib Va Vb. destruct (R (ia ++ ib)) as (x & X1 & X2); [apply valid_app; auto; now apply valid_length in Va|]. exists x. split; auto. eapply dot_entry; eauto. Qed.
Lemma l_tblis_tensordot_output : forall T (zero one : T) add mul lib worker a b axes o dev g pa pb, einsum_library zero one add mul lib ->
  p_device a = dev -> p_device b = dev -> 0 < d_threads dev -> tensor_ok (p_tensor a) -> tensor_ok (p_tensor b) ->
  let sa := t_shape (p_tensor a) in let sb := t_shape (p_tensor b) in
  contracts (length sa) (length sb) axes pa pb -> pick pa 0 sa = pick pb 0 sb -> length sa + length sb - length pa <= 52 ->
  let fa := pick (axes_except (length sa) pa) 0 sa in let fb := pick (axes_except (length sb) pb) 0 sb in
  p_device o = dev -> tensor_ok (p_tensor o) -> injective (t_layout (p_tensor o)) -> t_shape (p_tensor o) = fa ++ fb ->
  exists c, tensordot_with_output_f lib worker a b axes o g = (Ok (mkPlaced c dev), g) /\ t_layout c = t_layout (p_tensor o) /\ untouched_outside (t_layout c) (t_data (p_tensor o)) (t_data c) /\
    forall ia ib, valid fa ia -> valid fb ib -> exists x, at_ c (ia ++ ib) = Some x /\ is_tensordot zero add mul (p_tensor a) (p_tensor b) pa pb ia ib x.
Proof. intros T zero one add mul lib worker a b axes o dev g pa pb H Da Db Th Ka Kb sa sb C Ep Hl fa fb Do Ko Io So. assert (L : length pa = length pb) by (rewrite <- (pick_length pa 0 sa), Ep; apply pick_length).
  destruct (summed_ok _ _ _ _ _ C) as (_ & Na & Nb & Ba & Bb). destruct (proj1 (l_tensordot (length sa) (length sb) axes) pa pb C L) as [X _]. destruct (X Hl) as (la & lb & lo & E & Lb & Fl).
  destruct (dot_setup _ _ pa pb la lb lo sa sb Lb L Na Nb Ba Bb eq_refl eq_refl Ep) as (ext & Ea & Eb & Eo & Es).
  destruct (einsum_output_ok _ _ _ _ _ H worker (subscripts la lb lo) [la; lb] lo ext [a; b] o dev g) as (v & Q & U & R); auto.
  - now apply subscripts_spell. - eapply dot_named; eauto. - discriminate. - now apply two_ops. - now rewrite Eo.
  - exists (mkTensor v (t_layout (p_tensor o))). unfold tensordot_with_output_f, tensordot_with_option_output. unfold ndim. change (l_shape (t_layout (p_tensor a))) with sa. change (l_shape (t_layout (p_tensor b))) with sb. rewrite E, Q. split; [reflexivity|]. split; [reflexivity|]. split; auto. rewrite Eo in R.
    intros ia ib Va Vb. destruct (R (ia ++ ib)) as (x & X1 & X2); [apply valid_app; auto; now apply valid_length in Va|]. exists x. split; auto. eapply dot_entry; eauto. Qed.
(** in exact arithmetic the entry is the sum of the products *)
Lemma l_tensordot_exact : forall T (zero : T) add mul (a b : tensor T) pa pb ia ib x (A B : list nat -> T), commutative_monoid zero add -> (forall y z, mul y z = mul z y) ->
  is_tensordot zero add mul a b pa pb ia ib x -> (forall ix y, at_ a ix = Some y -> A ix = y) -> (forall ix y, at_ b ix = Some y -> B ix = y) ->
  x = fold_right add zero (map (fun kx => mul (A (merge (length (t_shape a)) pa kx ia)) (B (merge (length (t_shape b)) pb kx ib))) (row_major (pick pa 0 (t_shape a)))).
Proof. intros T zero add mul a b pa pb ia ib x A B M C (terms & Ct & F) HA HB. rewrite (combined_fold _ _ M _ _ Ct). f_equal. clear Ct. induction F as [|kx t ks ts (y & z & Ya & Zb & E) F IH]; auto. cbn [map]. rewrite (HA _ _ Ya), (HB _ _ Zb). f_equal; auto. destruct E as [->| ->]; auto. Qed.
Lemma l_tensordot_checks : forall T (lib : nat -> list ascii -> list (tblis_tensor T) -> bool -> option (tblis_tensor T) -> option (answer T)) worker (a b o : placed T) axes g,
  let da := length (t_shape (p_tensor a)) in let db := length (t_shape (p_tensor b)) in
  ((~ exists pa pb, contracts da db axes pa pb) -> exists e, tensordot_f lib worker a b axes g = (Err e, g) /\ tensordot_with_output_f lib worker a b axes o g = (Err e, g)) /\
  (forall pa pb, contracts da db axes pa pb -> length pa = length pb -> 52 < da + db - length pa -> tensordot_f lib worker a b axes g = (Err InvalidValue, g) /\ tensordot_with_output_f lib worker a b axes o g = (Err InvalidValue, g)) /\
  (forall pa pb, contracts da db axes pa pb -> length pa = length pb -> p_device a <> p_device b -> tensordot_f lib worker a b axes g = (Err InvalidValue, g) /\ tensordot_with_output_f lib worker a b axes o g = (Err InvalidValue, g)) /\
  (forall pa pb, contracts da db axes pa pb -> length pa = length pb -> p_device a <> p_device o -> tensordot_with_output_f lib worker a b axes o g = (Err InvalidValue, g)).
Proof. intros T lib worker a b o axes g da db. destruct (l_tensordot da db axes) as [Y N]. unfold tensordot_f, tensordot_with_output_f, tensordot_with_option_output, ndim.
  change (length (l_shape (t_layout (p_tensor a)))) with da. change (length (l_shape (t_layout (p_tensor b)))) with db. split; [|split; [|split]].
  - intro X. destruct (N X) as (e & ->). exists e. split; reflexivity.
  - intros pa pb C L X. destruct (Y pa pb C L) as [_ Z]. rewrite (Z X). split; reflexivity.
  - intros pa pb C L D. destruct (Y pa pb C L) as [Z1 Z2]. destruct (Nat.le_gt_cases (da + db - length pa) 52) as [H|H]; [|rewrite (Z2 H); split; reflexivity]. destruct (Z1 H) as (la & lb & lo & -> & _).
    unfold einsum_with_option_output. cbn [forallb]. rewrite device_differs by congruence. split; reflexivity.
  - intros pa pb C L D. destruct (Y pa pb C L) as [Z1 Z2]. destruct (Nat.le_gt_cases (da + db - length pa) 52) as [H|H]; [|rewrite (Z2 H); reflexivity]. destruct (Z1 H) as (la & lb & lo & -> & _).
    unfold einsum_with_option_output. destruct (negb _); [reflexivity|]. rewrite device_differs by congruence. reflexivity. Qed.

(** ** the library's number of threads *)
Lemma l_tblis_threads : forall T (lib lib' : nat -> list ascii -> list (tblis_tensor T) -> bool -> option (tblis_tensor T) -> option (answer T)) (worker : bool) sub (ops : list (placed T)) dev,
  (forall t, In t ops -> p_device t = dev) -> (forall s x r o, lib (if worker then 1 else d_threads dev) s x r o = lib' (if worker then 1 else d_threads dev) s x r o) ->
  forall g g', fst (einsum_f lib worker sub ops g) = fst (einsum_f lib' worker sub ops g') /\ forall o, fst (einsum_with_output_f lib worker sub ops o g) = fst (einsum_with_output_f lib' worker sub ops o g').
Proof. intros T lib lib' worker sub ops dev D E g g'. assert (X : forall o, fst (einsum_with_option_output lib worker sub ops o g) = fst (einsum_with_option_output lib' worker sub ops o g')).
  { intro o. destruct ops as [|f rest]; [reflexivity|]. unfold einsum_with_option_output. destruct (negb _); [reflexivity|]. destruct (match o with Some o => _ | None => _ end); [reflexivity|]. rewrite (D f) by now left. rewrite E. destruct (lib' _ _ _ _ _) as [[|]|]; reflexivity. }
  split; [unfold einsum_f|intro o; unfold einsum_with_output_f]; [specialize (X None)|specialize (X (Some o))]; destruct (einsum_with_option_output lib _ _ _ _ _), (einsum_with_option_output lib' _ _ _ _ _); cbn [fst] in *; now rewrite X. Qed.
Lemma l_tblis_restored : forall T (lib : nat -> list ascii -> list (tblis_tensor T) -> bool -> option (tblis_tensor T) -> option (answer T)) (worker : bool) sub (ops : list (placed T)) g,
  (forall t, In t ops -> forall x r o, lib (if worker then 1 else d_threads (p_device t)) sub x r o <> None) ->
  snd (einsum_f lib worker sub ops g) = g /\ forall o, snd (einsum_with_output_f lib worker sub ops o g) = g.
Proof. intros T lib worker sub ops g H. assert (X : forall o, snd (einsum_with_option_output lib worker sub ops o g) = g).
  { intro o. destruct ops as [|f rest]; [reflexivity|]. unfold einsum_with_option_output. destruct (negb _); [reflexivity|]. destruct (match o with Some o => _ | None => _ end); [reflexivity|].
    match goal with |- context [lib ?n sub ?x ?r ?p] => pose proof (H f (or_introl eq_refl) x r p) as Y; destruct (lib n sub x r p) as [[|]|] end; try reflexivity. now destruct Y. }
  split; [unfold einsum_f|intro o; unfold einsum_with_output_f]; [specialize (X None)|specialize (X (Some o))]; destruct (einsum_with_option_output lib _ _ _ _ _); exact X. Qed.
Lemma l_tblis_restored_refuted : forall T (lib : nat -> list ascii -> list (tblis_tensor T) -> bool -> option (tblis_tensor T) -> option (answer T)) sub (ops : list (placed T)) dev g,
  ops <> [] -> (forall t, In t ops -> p_device t = dev) -> (forall n x r o, lib n sub x r o = None) -> g <> d_threads dev ->
  exists g', einsum_f lib false sub ops g = (Err InvalidValue, g') /\ g' <> g.
Proof. intros T lib sub ops dev g N D H G. destruct ops as [|f rest]; [congruence|]. unfold einsum_f, einsum_with_option_output. rewrite (D f) by now left. rewrite same_all by (intros; apply D; now right). cbn [negb]. rewrite H. eexists. split; [reflexivity|]. auto. Qed.
Lemma l_tblis_library : forall T (zero one : T) add mul, exists lib, einsum_library zero one add mul lib.
Proof. intros. eexists. apply reference_ok. Qed.
