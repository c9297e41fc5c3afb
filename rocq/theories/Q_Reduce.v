(** Closed statements about reductions: C29, C30, C31, C32. *)
From Verif Require Import Base Spec P_Index P_List M_Layout P_Layout P_Bounds P_Contig P_Strides M_Indexer P_Indexer M_Broadcast M_Rearr M_Iter P_Iter P_Rearr P_BinOp Q_Rearr M_Kernel P_Kernel M_Tensor P_Tensor Q_Tensor Q_Copy M_Reduce P_Reduce P_Arg P_Axes.
Local Open Scope Z_scope.

Lemma elements_sum {T S} (e : S) op (h : T -> S) a l ixs xs : elements a l ixs xs -> sum_at e op h a (map (addr l) ixs) = total e op (map h xs).
Proof. intro E. unfold sum_at. do 2 f_equal. unfold vals. induction E as [|ix x ixs xs E _ IH]; [reflexivity|]. cbn [map flat_map]. rewrite IH. unfold elem in E. now rewrite E. Qed.
Lemma elements_exist {T} (a : list T) l : inside l (length a) -> forall ixs, (forall ix, In ix ixs -> valid (l_shape l) ix) -> exists xs, elements a l ixs xs.
Proof. intros I ixs. induction ixs as [|ix ixs IH]; intro V; [exists []; constructor|]. destruct IH as (xs & E); [intros; apply V; now right|].
  destruct (proj1 (peek_inside a (addr l ix)) (I ix (V ix (or_introl eq_refl)))) as (x & Ex). exists (x :: xs). constructor; auto. Qed.

(** C29 *)
Lemma l_reduce_all : forall (T S O : Type) (e : S) (op : S -> S -> S) (h : T -> S) (f : S -> T -> S) (fout : S -> O) k (t : tensor T) xs,
  comm_monoid e op -> (forall s x, f s x = op s (h x)) -> tensor_ok t ->
  elements (t_data t) (t_layout t) (row_major (t_shape t)) xs ->
  reduce_all e f op fout k (t_data t) (t_layout t) = Ok (fout (total e op (map h xs))).
Proof. intros T S O e op h f fout k t xs M F Ht E. apply tensor_ok_good in Ht as [G I]. rewrite (reduce_all_ok e op M h f F) by auto. unfold addrs. cbn [enum].
  now rewrite (elements_sum _ _ _ _ _ _ _ E). Qed.
Lemma l_elements : forall (T : Type) (t : tensor T), tensor_ok t -> exists xs, elements (t_data t) (t_layout t) (row_major (t_shape t)) xs.
Proof. intros T t Ht. apply tensor_ok_good in Ht as [G I]. apply elements_exist; auto. intros ix H. now apply (in_enum RowMajor). Qed.
Lemma l_sum_all : forall (T : Type) (zero : T) add k (t : tensor T) xs, comm_monoid zero add -> tensor_ok t ->
  elements (t_data t) (t_layout t) (row_major (t_shape t)) xs -> sum_all zero add k t = Ok (total zero add xs).
Proof. intros T zero add k t xs M Ht E. unfold sum_all. rewrite (l_reduce_all _ _ _ zero add (fun x => x) add (fun x => x) k t xs); auto. now rewrite map_id. Qed.
Lemma elements_in {T} (a : list T) l ixs xs x : elements a l ixs xs -> In x xs -> exists ix, In ix ixs /\ elem a l ix = Some x.
Proof. intro E. induction E as [|i x0 ixs0 xs0 Ei _ IH]; [intros []|]. intros [<-|Hx]; [exists i; split; [now left|auto]|]. destruct (IH Hx) as (j & Hj & Ej). exists j. split; [now right|auto]. Qed.
Lemma elements_of {T} (a : list T) l ixs xs ix x : elements a l ixs xs -> In ix ixs -> elem a l ix = Some x -> In x xs.
Proof. intro E. induction E as [|i x0 ixs0 xs0 Ei _ IH]; [intros []|]. intros [<-|Hx] Ex; [left; congruence|]. right. auto. Qed.
Lemma l_min_all : forall (T : Type) (worst : T) (mn : T -> T -> T) (k : dimty) (t : tensor T), tensor_ok t ->
  comm_monoid worst mn -> (forall a b, mn a b = a \/ mn a b = b) ->
  (size (t_shape t) = 0%nat -> min_all worst mn k t = Err InvalidValue) /\
  (size (t_shape t) <> 0%nat -> exists m, min_all worst mn k t = Ok m /\
     (exists ix, valid (t_shape t) ix /\ elem (t_data t) (t_layout t) ix = Some m) /\
     forall ix x, valid (t_shape t) ix -> elem (t_data t) (t_layout t) ix = Some x -> mn m x = m).
Proof. intros T top mn k t Ht M Sel. unfold min_all, l_size, t_shape. split; intro S0; [now rewrite S0|]. replace (size (l_shape (t_layout t)) =? 0)%nat with false by lia.
  destruct (l_elements _ t Ht) as (xs & E). rewrite (l_reduce_all _ _ _ top mn (fun x => x) mn (fun x => x) k t xs) by auto. rewrite map_id.
  exists (total top mn xs). split; auto. pose proof M as (A & C & I).
  assert (X : xs = [] \/ In (total top mn xs) xs).
  { clear - Sel M C I. induction xs as [|x xs IH]; [now left|]. right. change (In (mn x (total top mn xs)) (x :: xs)). destruct IH as [->|IH]; [left; cbn; rewrite C; now rewrite I|]. destruct (Sel x (total top mn xs)) as [-> | ->]; [now left|now right]. }
  assert (Y : forall x, In x xs -> mn (total top mn xs) x = total top mn xs).
  { clear - Sel M A C. assert (Id : forall a, mn a a = a) by (intro a; destruct (Sel a a); auto). induction xs as [|y xs IH]; [intros ? []|]. change (total top mn (y :: xs)) with (mn y (total top mn xs)). intros x [<-|H].
    - now rewrite (C (mn _ _) y), A, Id. - now rewrite <- A, (IH x H). }
  split.
  - destruct X as [->|X].
    + inversion E as [E0|]. exfalso. revert E0. unfold t_shape. intro E0. symmetry in E0. revert E0. now apply row_major_nonempty.
    + destruct (elements_in _ _ _ _ _ E X) as (ix & Hi & Ei). exists ix. split; auto. now apply (in_enum RowMajor).
  - intros ix x Vi Ex. apply Y. eapply elements_of; eauto. now apply (in_enum RowMajor). Qed.
Lemma l_mean_all : forall (T : Type) (zero : T) add div k (t : tensor T) xs, comm_monoid zero add -> tensor_ok t ->
  elements (t_data t) (t_layout t) (row_major (t_shape t)) xs -> mean_all zero add div k t = Ok (div (total zero add xs) (length xs)).
Proof. intros T zero add div k t xs M Ht E. unfold mean_all. rewrite (l_reduce_all _ _ _ zero add (fun x => x) add _ k t xs); auto. rewrite map_id. unfold l_size.
  assert (L : length xs = size (l_shape (t_layout t))) by (rewrite <- length_row_major; symmetry; now apply Forall2_length in E). now rewrite L. Qed.
Lemma l_var_all : forall (T : Type) (zero : T) add sub mul div k (t : tensor T) xs, comm_monoid zero add -> tensor_ok t ->
  elements (t_data t) (t_layout t) (row_major (t_shape t)) xs ->
  let n := length xs in let mean := div (total zero add xs) n in
  var_all zero add sub mul div k t = Ok (sub (div (total zero add (map (fun x => mul x x) xs)) n) (mul mean mean)).
Proof. intros T zero add sub mul div k t xs M Ht E n mean. unfold var_all.
  rewrite (l_reduce_all _ _ _ (zero, zero) (fun a b => (add (fst a) (fst b), add (snd a) (snd b))) (fun x => (x, mul x x)) _ _ k t xs); auto.
  - assert (L : length xs = size (l_shape (t_layout t))) by (rewrite <- length_row_major; symmetry; now apply Forall2_length in E). unfold l_size. rewrite <- L. fold n.
    assert (X : total (zero, zero) (fun a b : T * T => (add (fst a) (fst b), add (snd a) (snd b))) (map (fun x => (x, mul x x)) xs) = (total zero add xs, total zero add (map (fun x => mul x x) xs))).
    { clear. unfold total. induction xs as [|x xs IH]; [reflexivity|]. cbn [map fold_right]. rewrite IH. reflexivity. }
    rewrite X. reflexivity.
  - destruct M as (A & C & I). repeat split; intros; repeat match goal with p : (_ * _)%type |- _ => destruct p end; cbn [fst snd]; [now rewrite !A|f_equal; apply C|now rewrite !I]. Qed.
Lemma l_count_nonzero : forall (T : Type) (is_zero : T -> bool) k (t : tensor T) xs, tensor_ok t ->
  elements (t_data t) (t_layout t) (row_major (t_shape t)) xs ->
  count_nonzero_all is_zero k t = Ok (length (filter (fun x => negb (is_zero x)) xs)).
Proof. intros T z k t xs Ht E. unfold count_nonzero_all. rewrite (l_reduce_all _ _ _ 0%nat Nat.add (fun x => if negb (z x) then 1%nat else 0%nat) _ _ k t xs); auto.
  - f_equal. clear. unfold total. induction xs as [|x xs IH]; [reflexivity|]. cbn. rewrite IH. destruct (z x); reflexivity.
  - repeat split; intros; lia.
  - intros s x. destruct (z x); cbn; lia. Qed.
Lemma l_all_any : forall k (t : tensor bool), tensor_ok t ->
  (exists b, all_all k t = Ok b /\ (b = true <-> forall ix, valid (t_shape t) ix -> elem (t_data t) (t_layout t) ix = Some true)) /\
  (exists b, any_all k t = Ok b /\ (b = true <-> exists ix, valid (t_shape t) ix /\ elem (t_data t) (t_layout t) ix = Some true)).
Proof. intros k t Ht. destruct (l_elements _ t Ht) as (xs & E). unfold all_all, any_all. split.
  - rewrite (l_reduce_all _ _ _ true andb (fun x => x) andb (fun x => x) k t xs); auto. 2:{ repeat split; intros; [apply andb_assoc|apply andb_comm]. }
    rewrite map_id. exists (total true andb xs). split; auto. split.
    + intros H ix V. apply (in_enum RowMajor) in V. cbn [enum] in V. revert E V H. generalize (row_major (t_shape t)). clear. intros ixs E. induction E as [|i x ixs xs Ei _ IH]; [intros []|]. cbn. intros [<-|V] H; apply andb_prop in H as [-> H]; auto.
    + intro H. assert (H' : forall ix, In ix (row_major (t_shape t)) -> elem (t_data t) (t_layout t) ix = Some true) by (intros ix V; apply H; now apply (in_enum RowMajor)). clear H. revert E H'. generalize (row_major (t_shape t)). clear.
      intros ixs E. induction E as [|i x ixs xs Ei _ IH]; [reflexivity|]. intro H. change (x && total true andb xs = true)%bool. rewrite IH by (intros; apply H; now right). specialize (H i (or_introl eq_refl)). rewrite andb_true_r. congruence.
  - rewrite (l_reduce_all _ _ _ false orb (fun x => x) orb (fun x => x) k t xs); auto. 2:{ repeat split; intros; [apply orb_assoc|apply orb_comm]. }
    rewrite map_id. exists (total false orb xs). split; auto. split.
    + intro H. assert (X : In true xs) by (clear - H; induction xs as [|[] xs IH]; cbn in *; auto; discriminate). destruct (elements_in _ _ _ _ _ E X) as (ix & Hi & Ei). exists ix. split; auto. now apply (in_enum RowMajor).
    + intros (ix & V & Ei). assert (X : In true xs) by (eapply elements_of; eauto; now apply (in_enum RowMajor)). clear - X. induction xs as [|[] xs IH]; cbn in *; auto; destruct X as [X|X]; try discriminate; auto. Qed.

(** C30 *)
Lemma l_reduce_all_rayon : forall (T S O : Type) (e : S) (op : S -> S -> S) (h : T -> S) (f : S -> T -> S) (fout : S -> O) chunk t ti k (a : tensor T) xs,
  comm_monoid e op -> (forall s x, f s x = op s (h x)) -> tensor_ok a -> chunk <> 0%nat ->
  elements (t_data a) (t_layout a) (row_major (t_shape a)) xs ->
  reduce_all_rayon e f op fout chunk t ti k (t_data a) (t_layout a) = Ok (fout (total e op (map h xs))) /\
  reduce_all_rayon e f op fout chunk t ti k (t_data a) (t_layout a) = reduce_all e f op fout k (t_data a) (t_layout a).
Proof. intros T S O e op h f fout chunk t ti k a xs M F Ha Hc E. assert (R : reduce_all_rayon e f op fout chunk t ti k (t_data a) (t_layout a) = Ok (fout (total e op (map h xs)))).
  { apply tensor_ok_good in Ha as [G I]. rewrite (reduce_all_rayon_ok e op M h f F) by auto. unfold addrs. cbn [enum]. now rewrite (elements_sum _ _ _ _ _ _ _ E). }
  split; auto. rewrite R. symmetry. now apply l_reduce_all. Qed.

(** C31 *)
Lemma l_argmin_all_on : forall (T : Type) (Val : T -> Prop) (lt eqb : T -> T -> bool) k (t : tensor T), weak_order_on Val lt -> (forall ix x, valid (t_shape t) ix -> elem (t_data t) (t_layout t) ix = Some x -> Val x) -> tensor_ok t ->
  (size (t_shape t) = 0%nat -> reduce_all_unraveled_arg (arg_comp lt) (arg_eq eqb) k (t_data t) (t_layout t) = Err InvalidLayout) /\
  (size (t_shape t) <> 0%nat -> exists ix, reduce_all_unraveled_arg (arg_comp lt) (arg_eq eqb) k (t_data t) (t_layout t) = Ok ix /\
     first_least lt (elem (t_data t) (t_layout t)) (t_shape t) ix).
Proof. intros T Val lt eqb k t W HV Ht. split; intro S0.
  - unfold reduce_all_unraveled_arg, l_size. unfold t_shape in S0. now rewrite S0.
  - apply tensor_ok_good in Ht as [G I]. apply (arg_all_ok Val); auto; apply G. Qed.
Lemma l_argmin_all_rayon_on : forall (T : Type) (Val : T -> Prop) (lt eqb : T -> T -> bool) switch tr k (t : tensor T), weak_order_on Val lt -> (forall ix x, valid (t_shape t) ix -> elem (t_data t) (t_layout t) ix = Some x -> Val x) -> tensor_ok t ->
  (size (t_shape t) = 0%nat -> reduce_all_unraveled_arg_rayon (arg_comp lt) (arg_eq eqb) switch tr k (t_data t) (t_layout t) = Err InvalidLayout) /\
  (size (t_shape t) <> 0%nat -> exists ix, reduce_all_unraveled_arg_rayon (arg_comp lt) (arg_eq eqb) switch tr k (t_data t) (t_layout t) = Ok ix /\
     first_least lt (elem (t_data t) (t_layout t)) (t_shape t) ix).
Proof. intros T Val lt eqb switch tr k t W HV Ht. split; intro S0.
  - unfold reduce_all_unraveled_arg_rayon, l_size. unfold t_shape in S0. now rewrite S0.
  - apply tensor_ok_good in Ht as [G I]. apply (arg_all_rayon_ok Val); auto; apply G. Qed.
Lemma l_argmin_ravel_on : forall (T : Type) (Val : T -> Prop) (lt eqb : T -> T -> bool) k (t : tensor T) o, weak_order_on Val lt -> (forall ix x, valid (t_shape t) ix -> elem (t_data t) (t_layout t) ix = Some x -> Val x) -> tensor_ok t -> size (t_shape t) <> 0%nat ->
  exists ix r, reduce_all_arg (arg_comp lt) (arg_eq eqb) k (t_data t) (t_layout t) o = Ok (Z.of_nat r) /\
    nth_error (enum o (t_shape t)) r = Some ix /\ first_least lt (elem (t_data t) (t_layout t)) (t_shape t) ix.
Proof. intros T Val lt eqb k t o W HV Ht S0. destruct (l_argmin_all_on T Val lt eqb k t W HV Ht) as [_ H]. destruct (H S0) as (ix & E & L).
  unfold reduce_all_arg. rewrite E. cbn [bind]. pose proof L as (b & af & x & R & _).
  destruct (ravel_ok o k (t_shape t) ix) as (r & Er & Ev); [apply (in_enum RowMajor); cbn [enum]; rewrite R; apply in_or_app; right; now left|]. exists ix, r. split; [now rewrite <- Ev|auto]. Qed.
Lemma l_argmin_axes_on : forall (T : Type) (Val : T -> Prop) (lt eqb : T -> T -> bool) dflt dio k (t : tensor T) axes ax, weak_order_on Val lt -> (forall ix x, valid (t_shape t) ix -> elem (t_data t) (t_layout t) ix = Some x -> Val x) -> tensor_ok t -> size (t_shape t) <> 0%nat ->
  Forall2 (axis_denotes (ndim (t_layout t))) axes ax -> NoDup ax -> dio = OC \/ dio = OF \/ dio = OK ->
  exists out laxes lout, reduce_axes_unraveled_arg (arg_comp lt) (arg_eq eqb) dflt dio k (t_data t) (t_layout t) axes = Ok (out, laxes, lout) /\
    l_shape laxes = pick ax 0%nat (t_shape t) /\ l_shape lout = pick (axes_except (ndim (t_layout t)) ax) 0%nat (t_shape t) /\
    tensor_ok (mkTensor out lout) /\ length out = size (l_shape lout) /\
    forall mx, valid (l_shape lout) mx -> exists sx, elem out lout mx = Some sx /\
      first_least lt (fun sx => elem (t_data t) (t_layout t) (merge (ndim (t_layout t)) ax sx mx)) (pick ax 0%nat (t_shape t)) sx.
Proof. intros T Val lt eqb dflt dio k t axes ax W HV Ht S0 D ND Hd. apply tensor_ok_good in Ht as [G I].
  destruct (arg_axes_ok Val lt eqb W dflt dio k (t_data t) (t_layout t) axes ax HV G I S0 D ND Hd) as (out & l1 & lo & E & S1 & So & Go & Io & L & R).
  exists out, l1, lo. split; [exact E|]. split; [exact S1|]. split; [exact So|]. split; [apply tensor_ok_good; auto|]. split; [exact L|exact R]. Qed.
Lemma l_argmin_axes_rayon_on : forall (T : Type) (Val : T -> Prop) (lt eqb : T -> T -> bool) switch tr dflt dio k (t : tensor T) axes ax, weak_order_on Val lt -> (forall ix x, valid (t_shape t) ix -> elem (t_data t) (t_layout t) ix = Some x -> Val x) -> tensor_ok t -> size (t_shape t) <> 0%nat ->
  Forall2 (axis_denotes (ndim (t_layout t))) axes [ax] -> 0 <= nth ax (l_stride (t_layout t)) 0 -> dio = OC \/ dio = OF \/ dio = OK ->
  exists out laxes lout, reduce_axes_unraveled_arg_rayon (arg_comp lt) (arg_eq eqb) switch tr dflt dio k (t_data t) (t_layout t) axes = Ok (out, laxes, lout) /\
    l_shape laxes = pick [ax] 0%nat (t_shape t) /\ l_shape lout = pick (axes_except (ndim (t_layout t)) [ax]) 0%nat (t_shape t) /\
    tensor_ok (mkTensor out lout) /\ length out = size (l_shape lout) /\
    forall mx, valid (l_shape lout) mx -> exists sx, elem out lout mx = Some sx /\
      first_least lt (fun sx => elem (t_data t) (t_layout t) (merge (ndim (t_layout t)) [ax] sx mx)) (pick [ax] 0%nat (t_shape t)) sx.
Proof. intros T Val lt eqb switch tr dflt dio k t axes ax W HV Ht S0 D N0 Hd. apply tensor_ok_good in Ht as [G I].
  destruct (arg_axes_rayon_ok Val lt eqb W switch tr dflt dio k (t_data t) (t_layout t) axes ax HV G I S0 D N0 Hd) as (out & l1 & lo & E & S1 & So & Go & Io & L & R).
  exists out, l1, lo. split; [exact E|]. split; [exact S1|]. split; [exact So|]. split; [apply tensor_ok_good; auto|]. split; [exact L|exact R]. Qed.
Lemma l_argmin_axes_empty : forall (T : Type) (lt eqb : T -> T -> bool) dflt dio k (t : tensor T) axes, size (t_shape t) = 0%nat ->
  reduce_axes_unraveled_arg (arg_comp lt) (arg_eq eqb) dflt dio k (t_data t) (t_layout t) axes = Err InvalidLayout.
Proof. intros T lt eqb dflt dio k t axes S0. unfold reduce_axes_unraveled_arg, l_size. unfold t_shape in S0. now rewrite S0. Qed.
Lemma l_argmin_all : forall (T : Type) (lt eqb : T -> T -> bool) k (t : tensor T), weak_order lt -> tensor_ok t ->
  (size (t_shape t) = 0%nat -> reduce_all_unraveled_arg (arg_comp lt) (arg_eq eqb) k (t_data t) (t_layout t) = Err InvalidLayout) /\
  (size (t_shape t) <> 0%nat -> exists ix, reduce_all_unraveled_arg (arg_comp lt) (arg_eq eqb) k (t_data t) (t_layout t) = Ok ix /\
     first_least lt (elem (t_data t) (t_layout t)) (t_shape t) ix).
Proof. intros T lt eqb k t W. apply (l_argmin_all_on T (fun _ => True)); [now apply weak_order_all|auto]. Qed.
Lemma l_argmin_all_rayon : forall (T : Type) (lt eqb : T -> T -> bool) switch tr k (t : tensor T), weak_order lt -> tensor_ok t ->
  (size (t_shape t) = 0%nat -> reduce_all_unraveled_arg_rayon (arg_comp lt) (arg_eq eqb) switch tr k (t_data t) (t_layout t) = Err InvalidLayout) /\
  (size (t_shape t) <> 0%nat -> exists ix, reduce_all_unraveled_arg_rayon (arg_comp lt) (arg_eq eqb) switch tr k (t_data t) (t_layout t) = Ok ix /\
     first_least lt (elem (t_data t) (t_layout t)) (t_shape t) ix).
Proof. intros T lt eqb switch tr k t W. apply (l_argmin_all_rayon_on T (fun _ => True)); [now apply weak_order_all|auto]. Qed.
Lemma l_argmin_ravel : forall (T : Type) (lt eqb : T -> T -> bool) k (t : tensor T) o, weak_order lt -> tensor_ok t -> size (t_shape t) <> 0%nat ->
  exists ix r, reduce_all_arg (arg_comp lt) (arg_eq eqb) k (t_data t) (t_layout t) o = Ok (Z.of_nat r) /\
    nth_error (enum o (t_shape t)) r = Some ix /\ first_least lt (elem (t_data t) (t_layout t)) (t_shape t) ix.
Proof. intros T lt eqb k t o W. apply (l_argmin_ravel_on T (fun _ => True)); [now apply weak_order_all|auto]. Qed.
Lemma l_argmin_axes : forall (T : Type) (lt eqb : T -> T -> bool) dflt dio k (t : tensor T) axes ax, weak_order lt -> tensor_ok t -> size (t_shape t) <> 0%nat ->
  Forall2 (axis_denotes (ndim (t_layout t))) axes ax -> NoDup ax -> dio = OC \/ dio = OF \/ dio = OK ->
  exists out laxes lout, reduce_axes_unraveled_arg (arg_comp lt) (arg_eq eqb) dflt dio k (t_data t) (t_layout t) axes = Ok (out, laxes, lout) /\
    l_shape laxes = pick ax 0%nat (t_shape t) /\ l_shape lout = pick (axes_except (ndim (t_layout t)) ax) 0%nat (t_shape t) /\
    tensor_ok (mkTensor out lout) /\ length out = size (l_shape lout) /\
    forall mx, valid (l_shape lout) mx -> exists sx, elem out lout mx = Some sx /\
      first_least lt (fun sx => elem (t_data t) (t_layout t) (merge (ndim (t_layout t)) ax sx mx)) (pick ax 0%nat (t_shape t)) sx.
Proof. intros T lt eqb dflt dio k t axes ax W. apply (l_argmin_axes_on T (fun _ => True)); [now apply weak_order_all|auto]. Qed.
Lemma l_argmin_axes_rayon : forall (T : Type) (lt eqb : T -> T -> bool) switch tr dflt dio k (t : tensor T) axes ax, weak_order lt -> tensor_ok t -> size (t_shape t) <> 0%nat ->
  Forall2 (axis_denotes (ndim (t_layout t))) axes [ax] -> 0 <= nth ax (l_stride (t_layout t)) 0 -> dio = OC \/ dio = OF \/ dio = OK ->
  exists out laxes lout, reduce_axes_unraveled_arg_rayon (arg_comp lt) (arg_eq eqb) switch tr dflt dio k (t_data t) (t_layout t) axes = Ok (out, laxes, lout) /\
    l_shape laxes = pick [ax] 0%nat (t_shape t) /\ l_shape lout = pick (axes_except (ndim (t_layout t)) [ax]) 0%nat (t_shape t) /\
    tensor_ok (mkTensor out lout) /\ length out = size (l_shape lout) /\
    forall mx, valid (l_shape lout) mx -> exists sx, elem out lout mx = Some sx /\
      first_least lt (fun sx => elem (t_data t) (t_layout t) (merge (ndim (t_layout t)) [ax] sx mx)) (pick [ax] 0%nat (t_shape t)) sx.
Proof. intros T lt eqb switch tr dflt dio k t axes ax W. apply (l_argmin_axes_rayon_on T (fun _ => True)); [now apply weak_order_all|auto]. Qed.
Lemma l_argmin_axes_rayon_refuted : let t := mkTensor (5 :: 0 :: repeat 5 1022) (mkLayout [32; 32]%nat [32; 1] 0) in
  let r := reduce_axes_unraveled_arg_rayon (arg_comp Z.ltb) (arg_eq Z.eqb) 1024 (fun _ => Leaf) RowMajor OK Dyn (t_data t) (t_layout t) [0; 1] in
  tensor_ok t /\ elem (t_data t) (t_layout t) [0; 1]%nat = Some 0 /\ elem (t_data t) (t_layout t) [1; 0]%nat = Some 5 /\
  match r with Ok (out, laxes, lout) => elem out lout [] = Some [1; 0]%nat | _ => False end.
Proof. intros t r. split; [|subst r t; vm_compute; auto]. split; [repeat split; cbn; lia|]. intros ix V.
  repeat (apply valid_cons_inv in V as (? & ? & -> & ? & V)). apply valid_nil in V. subst. unfold addr, t. cbn [l_offset l_stride dot t_layout t_data length]. rewrite repeat_length. lia. Qed.
Lemma l_argmin_axes_rayon_flipped_refuted : let t := mkTensor (repeat 5 1024) (mkLayout [1024]%nat [-1] 1023) in tensor_ok t /\
  reduce_axes_unraveled_arg_rayon (arg_comp Z.ltb) (arg_eq Z.eqb) 1024 (fun _ => Leaf) RowMajor OK Dyn (t_data t) (t_layout t) [0] = Panic.
Proof. intro t. split; [|subst t; vm_compute; auto]. split; [split; [|vm_compute; reflexivity]; split; [reflexivity|unfold t; cbn [t_layout l_offset]; lia]|]. intros ix V. unfold t in V.
  cbn [t_layout l_shape] in V. repeat (apply valid_cons_inv in V as (? & ? & -> & ? & V)). apply valid_nil in V. subst. unfold addr, t. cbn [l_offset l_stride dot t_layout t_data length]. rewrite repeat_length. lia. Qed.

(** C32 *)
Lemma group_valid s ax mx ix : In ix (group s ax mx) -> valid s ix.
Proof. intro H. unfold group in H. apply filter_In in H as [H _]. now apply (in_enum RowMajor). Qed.
Lemma axes_result_ok {T S O} (e : S) (op : S -> S -> S) (h : T -> S) (fout : S -> O) (t : tensor T) ax lo d : size (t_shape t) <> 0%nat -> NoDup ax -> (forall x, In x ax -> (x < ndim (t_layout t))%nat) ->
  axes_result e op h fout (t_data t) (t_layout t) ax lo d ->
  tensor_new d lo = Ok (mkTensor d lo) /\ tensor_ok (mkTensor d lo) /\ l_shape lo = pick (axes_except (ndim (t_layout t)) ax) 0%nat (t_shape t) /\
    forall mx xs, valid (l_shape lo) mx -> elements (t_data t) (t_layout t) (group (t_shape t) ax mx) xs -> elem d lo mx = Some (fout (total e op (map h xs))).
Proof. intros S0 ND B (So & Go & Id & Ld & Vd). assert (Slo : size (l_shape lo) <> 0%nat).
  { rewrite So. eapply (sub_size (t_layout t) _ ax); eauto. rewrite Permutation_app_comm. now apply except_perm. }
  split; [apply tensor_new_ok; auto|]. split; [apply tensor_ok_good; auto|]. split; [exact So|]. intros mx xs V E. rewrite Vd by auto. unfold t_shape in E. now rewrite (elements_sum _ _ _ _ _ _ _ E). Qed.
Lemma l_reduce_axes : forall (T S O : Type) (e : S) (op : S -> S -> S) (h : T -> S) (f : S -> T -> S) (fout : S -> O) dflt (t : tensor T) axes ax,
  comm_monoid e op -> (forall s x, f s x = op s (h x)) -> tensor_ok t -> size (t_shape t) <> 0%nat -> no_broadcast (t_layout t) ->
  Forall2 (axis_denotes (ndim (t_layout t))) axes ax -> NoDup ax ->
  exists out lo, reduce_axes e f op fout dflt OK (t_data t) (t_layout t) axes = Ok (out, lo) /\ tensor_new out lo = Ok (mkTensor out lo) /\ tensor_ok (mkTensor out lo) /\
    l_shape lo = pick (axes_except (ndim (t_layout t)) ax) 0%nat (t_shape t) /\
    forall mx xs, valid (l_shape lo) mx -> elements (t_data t) (t_layout t) (group (t_shape t) ax mx) xs -> elem out lo mx = Some (fout (total e op (map h xs))).
Proof. intros T S O e op h f fout dflt t axes ax M F Ht S0 NB D ND. pose proof (denotes_lt _ _ _ D) as B. apply tensor_ok_good in Ht as [G I].
  destruct (reduce_axes_ok e op M h f F fout (t_data t) (t_layout t) ax G I S0 B ND NB dflt axes D) as (d & lo & E & R). exists d, lo. split; [exact E|]. eapply axes_result_ok; eauto. Qed.
Lemma l_reduce_axes_rayon : forall (T S O : Type) (e : S) (op : S -> S -> S) (h : T -> S) (f : S -> T -> S) (fout : S -> O) switch tr dflt (t : tensor T) axes ax r,
  comm_monoid e op -> (forall s x, f s x = op s (h x)) -> tensor_ok t -> size (t_shape t) <> 0%nat -> no_broadcast (t_layout t) ->
  Forall2 (axis_denotes (ndim (t_layout t))) axes ax -> NoDup ax -> reduce_axes_rayon e f op fout switch tr dflt OK (t_data t) (t_layout t) axes r ->
  exists out lo, r = Ok (out, lo) /\ tensor_new out lo = Ok (mkTensor out lo) /\ tensor_ok (mkTensor out lo) /\
    l_shape lo = pick (axes_except (ndim (t_layout t)) ax) 0%nat (t_shape t) /\
    forall mx xs, valid (l_shape lo) mx -> elements (t_data t) (t_layout t) (group (t_shape t) ax mx) xs -> elem out lo mx = Some (fout (total e op (map h xs))).
Proof. intros T S O e op h f fout switch tr dflt t axes ax r M F Ht S0 NB D ND Hr. pose proof (denotes_lt _ _ _ D) as B. apply tensor_ok_good in Ht as [G I].
  destruct (reduce_axes_rayon_ok e op M h f F fout (t_data t) (t_layout t) ax G I S0 B ND NB switch tr dflt axes r D Hr) as (d & lo & E & R). exists d, lo. split; [exact E|]. eapply axes_result_ok; eauto. Qed.
(** every group has its elements *)
Lemma l_group_elements : forall (T : Type) (t : tensor T) ax mx, tensor_ok t -> exists xs, elements (t_data t) (t_layout t) (group (t_shape t) ax mx) xs.
Proof. intros T t ax mx Ht. apply tensor_ok_good in Ht as [G I]. apply elements_exist; auto. intros ix H. now apply group_valid in H. Qed.
Definition axes_of (n : nat) (axes : axes_index) (ax : list nat) : Prop := axes <> AxNone /\ Forall2 (axis_denotes n) (axes_list axes) ax /\ NoDup ax.
Lemma l_sum_axes : forall (T : Type) (zero : T) add dflt k (t : tensor T), comm_monoid zero add -> tensor_ok t ->
  (forall xs, elements (t_data t) (t_layout t) (row_major (t_shape t)) xs ->
     exists t', reduce_axes_f (sum_all zero add k t) (sum_axes dflt OK zero add t) AxNone = Ok t' /\ t_shape t' = [] /\ elem (t_data t') (t_layout t') [] = Some (total zero add xs)) /\
  (forall axes ax, size (t_shape t) <> 0%nat -> no_broadcast (t_layout t) -> axes <> AxNone -> Forall2 (axis_denotes (ndim (t_layout t))) (axes_list axes) ax -> NoDup ax ->
     exists t', reduce_axes_f (sum_all zero add k t) (sum_axes dflt OK zero add t) axes = Ok t' /\ tensor_ok t' /\
       t_shape t' = pick (axes_except (ndim (t_layout t)) ax) 0%nat (t_shape t) /\
       forall mx xs, valid (t_shape t') mx -> elements (t_data t) (t_layout t) (group (t_shape t) ax mx) xs -> elem (t_data t') (t_layout t') mx = Some (total zero add xs)).
Proof. intros T zero add dflt k t M Ht. split.
  - intros xs E. unfold reduce_axes_f. rewrite (l_sum_all T zero add k t xs M Ht E). cbn [bind]. exists (mkTensor [total zero add xs] (mkLayout [] [] 0)). split; [reflexivity|]. split; reflexivity.
  - intros axes ax S0 NB Hn D ND. destruct (l_reduce_axes T T T zero add (fun x => x) add (fun x => x) dflt t (axes_list axes) ax) as (d & lo & E & En & Ok' & Sh & R); auto.
    exists (mkTensor d lo). assert (X : reduce_axes_f (sum_all zero add k t) (sum_axes dflt OK zero add t) axes = (let* p := sum_axes dflt OK zero add t (axes_list axes) in tensor_new (fst p) (snd p))) by (destruct axes; [congruence|reflexivity|reflexivity]).
    split; [rewrite X; unfold sum_axes; rewrite E; exact En|]. split; [exact Ok'|]. split; [exact Sh|]. intros mx xs V El. cbn [t_data t_layout]. rewrite (R mx xs V El), map_id. reflexivity. Qed.
Lemma group_length {T} (t : tensor T) ax mx : tensor_ok t -> size (t_shape t) <> 0%nat -> NoDup ax -> (forall x, In x ax -> (x < ndim (t_layout t))%nat) -> valid (pick (axes_except (ndim (t_layout t)) ax) 0%nat (t_shape t)) mx ->
  length (group (t_shape t) ax mx) = size (pick ax 0%nat (t_shape t)).
Proof. intros Ht S0 ND B V. apply tensor_ok_good in Ht as [G I]. unfold t_shape in *. rewrite (Permutation_length (group_perm (t_layout t) ax B ND mx V)). rewrite map_length. apply length_row_major. Qed.
Lemma l_mean_axes : forall (T : Type) (zero : T) add div dflt (t : tensor T) axes ax, comm_monoid zero add -> tensor_ok t -> size (t_shape t) <> 0%nat -> no_broadcast (t_layout t) ->
  Forall2 (axis_denotes (ndim (t_layout t))) axes ax -> NoDup ax ->
  exists out lo, mean_axes dflt OK zero add div t axes = Ok (out, lo) /\ l_shape lo = pick (axes_except (ndim (t_layout t)) ax) 0%nat (t_shape t) /\
    forall mx xs, valid (l_shape lo) mx -> elements (t_data t) (t_layout t) (group (t_shape t) ax mx) xs -> elem out lo mx = Some (div (total zero add xs) (length xs)).
Proof. intros T zero add div dflt t axes ax M Ht S0 NB D ND. pose proof Ht as Ht'. apply tensor_ok_good in Ht' as [G I]. pose proof (denotes_lt _ _ _ D) as B. unfold mean_axes.
  destruct (split_axes_total (t_layout t) axes ax G S0 D ND) as (l1 & l2 & E & _ & _). rewrite E. cbn [bind fst]. destruct (split_axes_ok _ axes l1 l2 (proj1 G) E) as (ax' & D' & _ & -> & -> & _). pose proof (denotes_unique _ _ _ _ D D') as ->.
  destruct (l_reduce_axes T T T zero add (fun x => x) add (fun x => div x (l_size (mkLayout (pick ax 0%nat (l_shape (t_layout t))) (pick ax 0 (l_stride (t_layout t))) (l_offset (t_layout t))))) dflt t axes ax) as (d & lo & Er & _ & _ & Sh & R); auto.
  exists d, lo. split; [exact Er|]. split; [exact Sh|]. intros mx xs V El. rewrite (R mx xs V El), map_id. do 2 f_equal. unfold l_size. cbn [l_shape]. apply Forall2_length in El. rewrite <- El. symmetry. apply group_length; auto. now rewrite <- Sh. Qed.
Lemma l_sum_axes_broadcast_refuted : let t := mkTensor [5; 7] (mkLayout [3; 2]%nat [0; 1] 0) in
  tensor_ok t /\ elements (t_data t) (t_layout t) (group (t_shape t) [0]%nat [0]%nat) [5; 5; 5] /\
  exists out lo, sum_axes RowMajor OK 0 Z.add t [0] = Ok (out, lo) /\ l_shape lo = [2]%nat /\ elem out lo [0]%nat = Some 10.
Proof. intro t. split.
  - split; [repeat split; cbn; lia|]. intros ix V. repeat (apply valid_cons_inv in V as (? & ? & -> & ? & V)). apply valid_nil in V. subst. unfold addr, t. cbn [l_offset l_stride dot t_layout t_data length]. lia.
  - split; [unfold t; vm_compute; repeat constructor|]. exists [10; 14], (mkLayout [2]%nat [1] 0). split; [vm_compute; reflexivity|]. split; reflexivity. Qed.
Lemma l_sum_axes_broadcast_panic_refuted : let t := mkTensor [5] (mkLayout [3]%nat [0] 0) in tensor_ok t /\ sum_axes RowMajor OK 0 Z.add t [0] = Panic.
Proof. intro t. split; [|vm_compute; reflexivity]. split; [repeat split; cbn; lia|]. intros ix V. repeat (apply valid_cons_inv in V as (? & ? & -> & ? & V)). apply valid_nil in V. subst. unfold addr, t. cbn [l_offset l_stride dot t_layout t_data length]. lia. Qed.
Lemma l_sum_axes_remaining_refuted :
  (let t := mkTensor [0; 5; 7] (mkLayout [2; 3]%nat [1; 0] 1) in tensor_ok t /\ sum_axes RowMajor OK 0 Z.add t [0] = Panic) /\
  (let t := mkTensor [5; 7; 8; 9] (mkLayout [2; 2; 3]%nat [2; 1; 0] 0) in tensor_ok t /\ sum_axes RowMajor OK 0 Z.add t [0] = Err Miscellaneous).
Proof. split; (intro t; split; [|vm_compute; reflexivity]; split; [repeat split; cbn; lia|]; intros ix V; repeat (apply valid_cons_inv in V as (? & ? & -> & ? & V)); apply valid_nil in V; subst; unfold addr, t; cbn [l_offset l_stride dot t_layout t_data length]; lia). Qed.
Lemma l_sum_axes_empty_refuted :
  (let t := mkTensor (@nil Z) (mkLayout [1; 0]%nat [1; 1] 0) in tensor_ok t /\ sum_axes RowMajor OK 0 Z.add t [1] = Panic) /\
  (let t := mkTensor (@nil Z) (mkLayout [3; 0; 2]%nat [0; 2; 1] 0) in tensor_ok t /\ sum_axes RowMajor OK 0 Z.add t [0] = Panic).
Proof. split; (intro t; split; [|vm_compute; reflexivity]; split; [repeat split; cbn; lia|]; intros ix V; repeat (apply valid_cons_inv in V as (? & ? & -> & ? & V)); apply valid_nil in V; subst; unfold addr, t; cbn [l_offset l_stride dot t_layout t_data length]; lia). Qed.
