(** Closed statements about statistics *)
From Coq Require Import Ring_theory Ring.
From Verif Require Import Base Spec Spec_Stats P_Index P_List M_Layout P_Layout P_Bounds P_Contig P_Strides M_Indexer P_Indexer M_Broadcast M_Rearr M_Iter P_Iter P_Rearr P_BinOp Q_Rearr M_Kernel P_Kernel M_Tensor P_Tensor Q_Tensor Q_Copy M_Reduce P_Reduce P_Arg P_Axes Q_Reduce M_Stats.
Local Open Scope Z_scope.

Lemma run_all_ok {T S O} (e : S) op (h : T -> S) f (fout : S -> O) dev k (t : tensor T) xs : comm_monoid e op -> (forall s x, f s x = op s (h x)) -> works dev -> tensor_ok t ->
  elements (t_data t) (t_layout t) (row_major (t_shape t)) xs -> run_all dev e f op fout k t = Ok (fout (total e op (map h xs))).
Proof. intros M F Wd Ht E. destruct dev; cbn [run_all]; [now apply (l_reduce_all _ _ _ e op h f)|]. now apply (l_reduce_all_rayon _ _ _ e op h f). Qed.
Lemma run_axes_ok {T S O} (e : S) op (h : T -> S) f (fout : S -> O) dev dflt (t : tensor T) axes ax r : comm_monoid e op -> (forall s x, f s x = op s (h x)) -> tensor_ok t ->
  size (t_shape t) <> 0%nat -> no_broadcast (t_layout t) -> Forall2 (axis_denotes (ndim (t_layout t))) axes ax -> NoDup ax -> run_axes dev dflt e f op fout t axes r ->
  exists out lo, r = Ok (out, lo) /\ tensor_new out lo = Ok (mkTensor out lo) /\ tensor_ok (mkTensor out lo) /\ l_shape lo = pick (axes_except (ndim (t_layout t)) ax) 0%nat (t_shape t) /\
    forall mx xs, valid (l_shape lo) mx -> elements (t_data t) (t_layout t) (group (t_shape t) ax mx) xs -> elem out lo mx = Some (fout (total e op (map h xs))).
Proof. intros M F Ht S0 NB D ND R. destruct dev; cbn [run_axes] in R; [subst r; now apply (l_reduce_axes _ _ _ e op h f)|]. eapply (l_reduce_axes_rayon _ _ _ e op h f); eauto. Qed.
Lemma named_axes n axes ax : names n axes (Some ax) -> axes <> AxNone /\ Forall2 (axis_denotes n) (axes_list axes) ax /\ NoDup ax.
Proof. destruct axes as [|a|v]; cbn; [intros []| |].
  - intro D. split; [discriminate|]. split; auto. inversion D as [|? y ? l' ? F]; subst. inversion F; subst. repeat constructor. intros [].
  - intros (D & N). split; [discriminate|auto]. Qed.
(** from the two functions of the device to the function of the tensor *)
Lemma stat_ok {T O} (t : tensor T) (g : list T -> O) (all : res O) (some : list Z -> res (list O * layout) -> Prop) axes ax r : tensor_ok t -> reducible t ax -> names (ndim (t_layout t)) axes ax ->
  (forall xs, elements (t_data t) (t_layout t) (row_major (t_shape t)) xs -> all = Ok (g xs)) ->
  (forall v ax q, size (t_shape t) <> 0%nat -> no_broadcast (t_layout t) -> Forall2 (axis_denotes (ndim (t_layout t))) v ax -> NoDup ax -> some v q ->
    exists out lo, q = Ok (out, lo) /\ tensor_new out lo = Ok (mkTensor out lo) /\ tensor_ok (mkTensor out lo) /\ l_shape lo = pick (axes_except (ndim (t_layout t)) ax) 0%nat (t_shape t) /\
    forall mx xs, valid (l_shape lo) mx -> elements (t_data t) (t_layout t) (group (t_shape t) ax mx) xs -> elem out lo mx = Some (g xs)) ->
  stat_axes_f all some axes r -> exists t', r = Ok t' /\ tables t ax g t'.
Proof. intros Ht Rd N HA HS R. destruct ax as [ax|].
  - destruct Rd as [|(S0 & NB)]; [discriminate|]. apply named_axes in N as (Nn & D & ND). assert (X : exists q, some (axes_list axes) q /\ r = (let* p := q in tensor_new (fst p) (snd p))) by (destruct axes; [congruence|exact R|exact R]).
    destruct X as (q & Hq & ->). destruct (HS _ ax q S0 NB D ND Hq) as (out & lo & -> & En & Ok' & Sh & E). cbn [bind fst snd]. exists (mkTensor out lo). split; auto. cbn [tables]. split; auto.
  - destruct axes; try (destruct N). cbn [stat_axes_f] in R. destruct (l_elements _ t Ht) as (xs & E). rewrite (HA xs E) in R. exists (mkTensor [g xs] (mkLayout [] [] 0)). split; [exact R|]. cbn [tables]. split; [|split; [reflexivity|]].
    + split; [repeat split; cbn; lia|]. intros ix V. apply valid_nil in V. subst ix. cbn. lia.
    + intros ys E2. assert (ys = xs) as -> by (clear - E E2; revert ys E2; induction E as [|i x ixs xs Ei _ IH]; intros ys E2; inversion E2; subst; auto; f_equal; [congruence|auto]). reflexivity. Qed.
Lemma pair_monoid {A B} (za : A) fa (zb : B) fb : comm_monoid za fa -> comm_monoid zb fb -> comm_monoid (za, zb) (fun a b => (fa (fst a) (fst b), fb (snd a) (snd b))).
Proof. intros (A1 & C1 & I1) (A2 & C2 & I2). repeat split; intros; repeat match goal with p : (_ * _)%type |- _ => destruct p end; cbn [fst snd]; f_equal; auto. Qed.
Lemma pair_total {T A B} (za : A) fa (zb : B) fb (ga : T -> A) (gb : T -> B) xs : total (za, zb) (fun a b => (fa (fst a) (fst b), fb (snd a) (snd b))) (map (fun x => (ga x, gb x)) xs) = (total za fa (map ga xs), total zb fb (map gb xs)).
Proof. unfold total. induction xs as [|x xs IH]; [reflexivity|]. cbn [map fold_right]. now rewrite IH. Qed.
Lemma all_size {T} (t : tensor T) xs : elements (t_data t) (t_layout t) (row_major (t_shape t)) xs -> l_size (t_layout t) = length xs.
Proof. intro E. unfold l_size. change (l_shape (t_layout t)) with (t_shape t). rewrite <- length_row_major. now apply Forall2_length in E. Qed.
Lemma group_size {T} (t : tensor T) axes ax p mx xs : tensor_ok t -> size (t_shape t) <> 0%nat -> Forall2 (axis_denotes (ndim (t_layout t))) axes ax -> NoDup ax -> dim_split_axes (t_layout t) axes = Ok p ->
  valid (pick (axes_except (ndim (t_layout t)) ax) 0%nat (t_shape t)) mx -> elements (t_data t) (t_layout t) (group (t_shape t) ax mx) xs -> l_size (fst p) = length xs.
Proof. intros Ht S0 D ND E V El. destruct p as (l1, l2). pose proof Ht as Ht'. apply tensor_ok_good in Ht' as [G I]. destruct (split_axes_ok _ axes l1 l2 (proj1 G) E) as (ax' & D' & _ & -> & -> & _). pose proof (denotes_unique _ _ _ _ D D') as ->.
  unfold l_size. cbn [fst l_shape]. apply Forall2_length in El. rewrite <- El. symmetry. apply group_length; auto. exact (denotes_lt _ _ _ D). Qed.
Lemma split_total {T} (t : tensor T) axes ax : tensor_ok t -> size (t_shape t) <> 0%nat -> Forall2 (axis_denotes (ndim (t_layout t))) axes ax -> NoDup ax -> exists p, dim_split_axes (t_layout t) axes = Ok p.
Proof. intros Ht S0 D ND. apply tensor_ok_good in Ht as [G I]. destruct (split_axes_total (t_layout t) axes ax G S0 D ND) as (l1 & l2 & E & _ & _). eauto. Qed.

Lemma l_spread_all : forall (T R : Type) (zero : T) add mul conj (re : T -> R) div rzero radd rsub rdiv sqrt dev k (t : tensor T) xs, comm_monoid zero add -> comm_monoid rzero radd -> works dev -> tensor_ok t ->
  elements (t_data t) (t_layout t) (row_major (t_shape t)) xs ->
  cvar_all zero add mul conj re div rzero radd rsub rdiv dev k t = Ok (variance zero add mul conj re div rzero radd rsub rdiv xs) /\
  std_all zero add mul conj re div rzero radd rsub rdiv sqrt dev k t = Ok (sqrt (variance zero add mul conj re div rzero radd rsub rdiv xs)) /\
  l2_norm_all mul conj re rzero radd sqrt dev k t = Ok (sqrt (squares mul conj re rzero radd xs)).
Proof. intros T R zero add mul conj re div rzero radd rsub rdiv sqrt dev k t xs M RM Wd Ht E.
  assert (PM := pair_monoid _ _ _ _ M RM). assert (PT := pair_total zero add rzero radd (fun x : T => x) (square mul conj re) xs). rewrite map_id in PT.
  assert (F : forall (s : T * R) x, var_f add mul conj re radd s x = var_sum add radd s (x, square mul conj re x)) by reflexivity.
  unfold cvar_all, std_all, l2_norm_all. rewrite (all_size t xs E). split; [|split].
  - rewrite (run_all_ok (zero, rzero) (var_sum add radd) (fun x => (x, square mul conj re x)) _ _ dev k t xs PM F Wd Ht E). unfold var_sum. rewrite PT. reflexivity.
  - rewrite (run_all_ok (zero, rzero) (var_sum add radd) (fun x => (x, square mul conj re x)) _ _ dev k t xs PM F Wd Ht E). unfold var_sum. rewrite PT. reflexivity.
  - now rewrite (run_all_ok rzero radd (square mul conj re) _ _ dev k t xs RM (fun s x => eq_refl) Wd Ht E). Qed.
Lemma l_spread_axes_partial : forall (T R : Type) (zero : T) add mul conj (re : T -> R) div rzero radd rsub rdiv sqrt dev adev dflt k (t : tensor T) axes ax, comm_monoid zero add -> comm_monoid rzero radd -> works dev -> tensor_ok t ->
  reducible t ax -> names (ndim (t_layout t)) axes ax ->
  (forall r, stat_axes_f (cvar_all zero add mul conj re div rzero radd rsub rdiv dev k t) (cvar_axes zero add mul conj re div rzero radd rsub rdiv adev dflt t) axes r ->
     exists t', r = Ok t' /\ tables t ax (variance zero add mul conj re div rzero radd rsub rdiv) t') /\
  (forall r, stat_axes_f (std_all zero add mul conj re div rzero radd rsub rdiv sqrt dev k t) (std_axes zero add mul conj re div rzero radd rsub rdiv sqrt adev dflt t) axes r ->
     exists t', r = Ok t' /\ tables t ax (fun xs => sqrt (variance zero add mul conj re div rzero radd rsub rdiv xs)) t') /\
  (forall r, stat_axes_f (l2_norm_all mul conj re rzero radd sqrt dev k t) (l2_norm_axes mul conj re rzero radd sqrt adev dflt t) axes r ->
     exists t', r = Ok t' /\ tables t ax (fun xs => sqrt (squares mul conj re rzero radd xs)) t').
Proof. intros T R zero add mul conj re div rzero radd rsub rdiv sqrt dev adev dflt k t axes ax M RM Wd Ht Rd N.
  assert (PM := pair_monoid _ _ _ _ M RM). assert (PT := pair_total zero add rzero radd (fun x : T => x) (square mul conj re)).
  assert (F : forall (s : T * R) x, var_f add mul conj re radd s x = var_sum add radd s (x, square mul conj re x)) by reflexivity.
  assert (A := fun xs => l_spread_all T R zero add mul conj re div rzero radd rsub rdiv sqrt dev k t xs M RM Wd Ht).
  split; [|split]; intros r.
  - apply stat_ok; auto. { intros xs E. apply (A xs E). }
    intros v ax0 q S0 NB D ND. unfold cvar_axes. destruct (split_total t v ax0 Ht S0 D ND) as (p & Ep). rewrite Ep. intro Hq.
    destruct (run_axes_ok (zero, rzero) (var_sum add radd) (fun x => (x, square mul conj re x)) _ _ adev dflt t v ax0 q PM F Ht S0 NB D ND Hq) as (out & lo & Eq & En & Ok' & Sh & El).
    exists out, lo. split; [exact Eq|]. split; [exact En|]. split; [exact Ok'|]. split; [exact Sh|]. intros mx xs V El2. rewrite (El mx xs V El2). rewrite (group_size t v ax0 p mx xs Ht S0 D ND Ep) by (rewrite <- ?Sh; auto). unfold var_sum. rewrite PT, map_id. reflexivity.
  - apply stat_ok; auto. { intros xs E. apply (A xs E). }
    intros v ax0 q S0 NB D ND. unfold std_axes. destruct (split_total t v ax0 Ht S0 D ND) as (p & Ep). rewrite Ep. intro Hq.
    destruct (run_axes_ok (zero, rzero) (var_sum add radd) (fun x => (x, square mul conj re x)) _ _ adev dflt t v ax0 q PM F Ht S0 NB D ND Hq) as (out & lo & Eq & En & Ok' & Sh & El).
    exists out, lo. split; [exact Eq|]. split; [exact En|]. split; [exact Ok'|]. split; [exact Sh|]. intros mx xs V El2. rewrite (El mx xs V El2). rewrite (group_size t v ax0 p mx xs Ht S0 D ND Ep) by (rewrite <- ?Sh; auto). unfold var_sum. rewrite PT, map_id. reflexivity.
  - apply stat_ok; auto. { intros xs E. apply (A xs E). }
    intros v ax0 q S0 NB D ND Hq. exact (run_axes_ok rzero radd (square mul conj re) _ _ adev dflt t v ax0 q RM (fun s x => eq_refl) Ht S0 NB D ND Hq). Qed.

(** ** Mean of squares minus square of the mean is the mean square deviation *)
Section Exact.
  Context {T R : Type} (zero : T) (add mul sub : T -> T -> T) (opp conj : T -> T) (re : T -> R) (div : T -> nat -> T) (rzero rone : R) (radd rmul rsub : R -> R -> R) (ropp : R -> R) (rdiv : R -> nat -> R).
  Context (X : exact zero add mul sub opp conj re div rzero rone radd rmul rsub ropp rdiv).
  Let RT : ring_theory rzero rone radd rmul rsub ropp eq := ex_ring _ _ _ _ _ _ _ _ _ _ _ _ _ _ _ X.
  Add Ring rring : RT.
  Let q (x y : T) : R := re (mul x (conj y)).
  Lemma q_left x y z : q (add x y) z = radd (q x z) (q y z).
  Proof. unfold q. rewrite (ex_left _ _ _ _ _ _ _ _ _ _ _ _ _ _ _ X). apply (ex_re _ _ _ _ _ _ _ _ _ _ _ _ _ _ _ X). Qed.
  Lemma q_sym x y : q x y = q y x. Proof. apply (ex_sym _ _ _ _ _ _ _ _ _ _ _ _ _ _ _ X). Qed.
  Lemma q_zero z : q zero z = rzero.
  Proof. destruct (ex_monoid _ _ _ _ _ _ _ _ _ _ _ _ _ _ _ X) as (_ & _ & I). assert (E := q_left zero zero z). rewrite I in E. transitivity (rsub (radd (q zero z) (q zero z)) (q zero z)); [ring|]. rewrite <- E. ring. Qed.
  Lemma q_opp x z : q (opp x) z = ropp (q x z).
  Proof. assert (E := q_left x (opp x) z). rewrite (ex_opp _ _ _ _ _ _ _ _ _ _ _ _ _ _ _ X), q_zero in E. transitivity (rsub (radd (q x z) (q (opp x) z)) (q x z)); [ring|]. rewrite <- E. ring. Qed.
  Lemma q_total xs z : q (total zero add xs) z = total rzero radd (map (fun x => q x z) xs).
  Proof. induction xs as [|x xs IH]; [apply q_zero|]. unfold total in *. cbn [fold_right map]. now rewrite q_left, IH. Qed.
  Lemma q_multiple n x z : q (multiple zero add n x) z = multiple rzero radd n (q x z).
  Proof. unfold multiple. rewrite q_total. f_equal. induction n as [|n IH]; [reflexivity|]. cbn. now rewrite IH. Qed.
  Lemma q_shift x m : q (sub x m) (sub x m) = radd (q x x) (radd (ropp (radd (q x m) (q x m))) (q m m)).
  Proof. rewrite (ex_sub _ _ _ _ _ _ _ _ _ _ _ _ _ _ _ X), q_left, (q_sym x), (q_sym (opp m)), !q_left, !q_opp, (q_sym x (opp m)), (q_sym m (opp m)), !q_opp, (q_sym m x). ring. Qed.
  Lemma multiple_sub n x y : multiple rzero radd n (rsub x y) = rsub (multiple rzero radd n x) (multiple rzero radd n y).
  Proof. unfold multiple, total. induction n as [|n IH]; cbn [repeat fold_right]; [ring|]. rewrite IH. ring. Qed.
  Lemma sum_shift xs m : total rzero radd (map (fun x => q (sub x m) (sub x m)) xs) = radd (total rzero radd (map (fun x => q x x) xs)) (radd (ropp (radd (q (total zero add xs) m) (q (total zero add xs) m))) (multiple rzero radd (length xs) (q m m))).
  Proof. rewrite q_total. unfold multiple, total. induction xs as [|x xs IH]; cbn [map repeat fold_right length]; [ring|]. rewrite IH, q_shift. ring. Qed.
  Lemma variance_exact xs : xs <> [] -> multiple rzero radd (length xs) (variance zero add mul conj re div rzero radd rsub rdiv xs) = squares mul conj re rzero radd (map (fun x => sub x (mean_of zero add div xs)) xs).
  Proof. intro N. unfold variance, squares. set (m := mean_of zero add div xs). assert (N' : length xs <> 0%nat) by (destruct xs; cbn; congruence).
    rewrite multiple_sub, (ex_rdiv _ _ _ _ _ _ _ _ _ _ _ _ _ _ _ X) by auto. rewrite map_map. change (fun x => square mul conj re (sub x m)) with (fun x => q (sub x m) (sub x m)). change (square mul conj re) with (fun x => q x x). cbv beta. rewrite sum_shift.
    assert (E : total zero add xs = multiple zero add (length xs) m) by (unfold m, mean_of; now rewrite (ex_div _ _ _ _ _ _ _ _ _ _ _ _ _ _ _ X)). rewrite E, q_multiple. ring. Qed.
End Exact.
Lemma l_variance_exact : forall (T R : Type) (zero : T) add mul sub opp conj (re : T -> R) div rzero rone radd rmul rsub ropp rdiv xs, exact zero add mul sub opp conj re div rzero rone radd rmul rsub ropp rdiv -> xs <> [] ->
  multiple rzero radd (length xs) (variance zero add mul conj re div rzero radd rsub rdiv xs) = squares mul conj re rzero radd (map (fun x => sub x (mean_of zero add div xs)) xs).
Proof. intros. eapply variance_exact; eauto. Qed.

(** ** Extrema, logic, counts *)
Lemma total_extremal {T} (worst : T) mn xs : comm_monoid worst mn -> (forall a b, mn a b = a \/ mn a b = b) -> xs <> [] -> extremal mn xs (total worst mn xs).
Proof. intros (A & C & I) Sel N. split.
  - clear A. induction xs as [|x xs IH]; [congruence|]. change (In (mn x (total worst mn xs)) (x :: xs)). destruct xs as [|y xs]; [left; cbn; now rewrite C, I|]. destruct (Sel x (total worst mn (y :: xs))) as [-> | ->]; [now left|right; apply IH; discriminate].
  - clear N. assert (Id : forall a, mn a a = a) by (intro a; destruct (Sel a a); auto). induction xs as [|y xs IH]; [intros ? []|]. change (total worst mn (y :: xs)) with (mn y (total worst mn xs)). intros x [<-|H].
    + now rewrite (C (mn _ _) y), A, Id. + now rewrite <- A, (IH x H). Qed.
Lemma total_and xs : total true andb xs = forallb (fun x => x) xs. Proof. reflexivity. Qed.
Lemma total_or xs : total false orb xs = existsb (fun x => x) xs. Proof. reflexivity. Qed.
Lemma total_count {T} (p : T -> bool) xs : total 0%nat Nat.add (map (fun x => if p x then 1%nat else 0%nat) xs) = length (filter p xs).
Proof. induction xs as [|x xs IH]; [reflexivity|]. unfold total in *. cbn [map fold_right filter]. rewrite IH. destruct (p x); reflexivity. Qed.
Lemma pick_size c sh : size sh <> 0%nat -> (forall k, In k c -> (k < length sh)%nat) -> size (pick c 0%nat sh) <> 0%nat.
Proof. intro S0. induction c as [|x c IH]; intro H; [discriminate|]. cbn [pick map]. rewrite size_cons. apply Nat.neq_mul_0. split; [|apply IH; intros; apply H; now right].
  specialize (H x (or_introl eq_refl)). pose proof (nth_size_nonzero sh x S0 H). lia. Qed.
Lemma group_inhabited {T} (t : tensor T) v ax mx xs : tensor_ok t -> size (t_shape t) <> 0%nat -> Forall2 (axis_denotes (ndim (t_layout t))) v ax -> NoDup ax -> valid (pick (axes_except (ndim (t_layout t)) ax) 0%nat (t_shape t)) mx ->
  elements (t_data t) (t_layout t) (group (t_shape t) ax mx) xs -> xs <> [].
Proof. intros Ht S0 D ND V El. intros ->. apply Forall2_length in El. rewrite (group_length t ax mx Ht S0 ND (denotes_lt _ _ _ D) V) in El. cbn in El. exact (pick_size ax (t_shape t) S0 (denotes_lt _ _ _ D) El). Qed.

Lemma l_extremum_axes_partial : forall (T : Type) (worst : T) (mn : T -> T -> T) dev dflt (t : tensor T) axes, tensor_ok t -> comm_monoid worst mn -> (forall a b, mn a b = a \/ mn a b = b) ->
  (size (t_shape t) = 0%nat -> forall r, extremum_axes worst mn dev dflt t axes r -> r = Err InvalidValue) /\
  (forall ax r, size (t_shape t) <> 0%nat -> no_broadcast (t_layout t) -> Forall2 (axis_denotes (ndim (t_layout t))) axes ax -> NoDup ax -> extremum_axes worst mn dev dflt t axes r ->
     exists out lo, r = Ok (out, lo) /\ tensor_new out lo = Ok (mkTensor out lo) /\ l_shape lo = pick (axes_except (ndim (t_layout t)) ax) 0%nat (t_shape t) /\
     forall mx xs, valid (l_shape lo) mx -> elements (t_data t) (t_layout t) (group (t_shape t) ax mx) xs -> exists m, elem out lo mx = Some m /\ extremal mn xs m).
Proof. intros T worst mn dev dflt t axes Ht M Sel. unfold extremum_axes, l_size. change (l_shape (t_layout t)) with (t_shape t). split.
  - intros S0 r. rewrite S0. auto.
  - intros ax r S0 NB D ND. destruct (size (t_shape t) =? 0)%nat eqn:E; [lia|]. intro Hr. destruct (run_axes_ok worst mn (fun x => x) mn (fun x => x) dev dflt t axes ax r M (fun _ _ => eq_refl) Ht S0 NB D ND Hr) as (out & lo & Eq & En & _ & Sh & El).
    exists out, lo. split; [exact Eq|]. split; [exact En|]. split; [exact Sh|]. intros mx xs V El2. exists (total worst mn xs). split; [now rewrite (El mx xs V El2), map_id|]. apply total_extremal; auto. rewrite Sh in V. eapply group_inhabited; eauto. Qed.
Lemma l_logic_axes_partial : forall dev dflt k (t : tensor bool) axes ax, tensor_ok t -> reducible t ax -> names (ndim (t_layout t)) axes ax ->
  (forall r, stat_axes_f (all_all k t) (all_axes dev dflt t) axes r -> exists t', r = Ok t' /\ tables t ax (forallb (fun x => x)) t') /\
  (forall r, stat_axes_f (any_all k t) (any_axes dev dflt t) axes r -> exists t', r = Ok t' /\ tables t ax (existsb (fun x => x)) t').
Proof. intros dev dflt k t axes ax Ht Rd N. assert (MA : comm_monoid true andb) by (repeat split; intros; [apply andb_assoc|apply andb_comm]). assert (MO : comm_monoid false orb) by (repeat split; intros; [apply orb_assoc|apply orb_comm]). split; intro r; apply stat_ok; auto.
  - intros xs E. unfold all_all. rewrite (l_reduce_all _ _ _ true andb (fun x => x) andb (fun x => x) k t xs MA (fun _ _ => eq_refl) Ht E). now rewrite map_id.
  - intros v ax0 q S0 NB D ND Hq. destruct (run_axes_ok true andb (fun x => x) andb (fun x => x) dev dflt t v ax0 q MA (fun _ _ => eq_refl) Ht S0 NB D ND Hq) as (out & lo & Eq & En & Ok' & Sh & El).
    exists out, lo. split; [exact Eq|]. split; [exact En|]. split; [exact Ok'|]. split; [exact Sh|]. intros mx xs V El2. now rewrite (El mx xs V El2), map_id.
  - intros xs E. unfold any_all. rewrite (l_reduce_all _ _ _ false orb (fun x => x) orb (fun x => x) k t xs MO (fun _ _ => eq_refl) Ht E). now rewrite map_id.
  - intros v ax0 q S0 NB D ND Hq. destruct (run_axes_ok false orb (fun x => x) orb (fun x => x) dev dflt t v ax0 q MO (fun _ _ => eq_refl) Ht S0 NB D ND Hq) as (out & lo & Eq & En & Ok' & Sh & El).
    exists out, lo. split; [exact Eq|]. split; [exact En|]. split; [exact Ok'|]. split; [exact Sh|]. intros mx xs V El2. now rewrite (El mx xs V El2), map_id. Qed.
Lemma nat_monoid : comm_monoid 0%nat Nat.add. Proof. repeat split; intros; lia. Qed.
Lemma l_count_axes_partial : forall (T : Type) (is_zero : T -> bool) dev dflt k (t : tensor T) axes ax, tensor_ok t -> reducible t ax -> names (ndim (t_layout t)) axes ax ->
  forall r, stat_axes_f (count_nonzero_all is_zero k t) (count_nonzero_axes is_zero dev dflt t) axes r -> exists t', r = Ok t' /\ tables t ax (fun xs => length (filter (fun x => negb (is_zero x)) xs)) t'.
Proof. intros T is_zero dev dflt k t axes ax Ht Rd N r. assert (F : forall (s : nat) x, (if negb (is_zero x) then s + 1 else s)%nat = (s + (if negb (is_zero x) then 1 else 0))%nat) by (intros s x; destruct (is_zero x); cbn; lia). apply stat_ok; auto.
  - intros xs E. now apply l_count_nonzero.
  - intros v ax0 q S0 NB D ND Hq. destruct (run_axes_ok 0%nat Nat.add (fun x => if negb (is_zero x) then 1%nat else 0%nat) _ (fun x => x) dev dflt t v ax0 q nat_monoid F Ht S0 NB D ND Hq) as (out & lo & Eq & En & Ok' & Sh & El).
    exists out, lo. split; [exact Eq|]. split; [exact En|]. split; [exact Ok'|]. split; [exact Sh|]. intros mx xs V El2. now rewrite (El mx xs V El2), total_count. Qed.
Lemma l_bool_sum_partial : forall adev dev dflt k (t : tensor bool) axes ax, works adev -> tensor_ok t -> reducible t ax -> names (ndim (t_layout t)) axes ax ->
  forall r, stat_axes_f (bool_sum_all adev k t) (bool_sum_axes dev dflt t) axes r -> exists t', r = Ok t' /\ tables t ax (fun xs => count_occ bool_dec xs true) t'.
Proof. intros adev dev dflt k t axes ax Wd Ht Rd N r. assert (F : forall (s : nat) (x : bool), (if x then s + 1 else s)%nat = (s + (if x then 1 else 0))%nat) by (intros s []; lia).
  assert (C : forall xs, total 0%nat Nat.add (map (fun x : bool => if x then 1%nat else 0%nat) xs) = count_occ bool_dec xs true) by (induction xs as [|x xs IH]; [reflexivity|]; unfold total in *; cbn [map fold_right]; rewrite IH; destruct x; reflexivity). apply stat_ok; auto.
  - intros xs E. unfold bool_sum_all. rewrite (run_all_ok 0%nat Nat.add (fun x : bool => if x then 1%nat else 0%nat) _ _ adev k t xs nat_monoid F Wd Ht E). now rewrite C.
  - intros v ax0 q S0 NB D ND Hq. destruct (run_axes_ok 0%nat Nat.add (fun x : bool => if x then 1%nat else 0%nat) _ (fun x => x) dev dflt t v ax0 q nat_monoid F Ht S0 NB D ND Hq) as (out & lo & Eq & En & Ok' & Sh & El).
    exists out, lo. split; [exact Eq|]. split; [exact En|]. split; [exact Ok'|]. split; [exact Sh|]. intros mx xs V El2. now rewrite (El mx xs V El2), C. Qed.
