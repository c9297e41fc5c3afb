(** Flat positions of extrema along axes: the kernels of M_Reduce.v that ravel the index *)
From Verif Require Import Base Spec P_Index P_List M_Layout P_Layout M_Indexer P_Indexer M_Rearr M_Iter M_Kernel P_Kernel P_Iter Q_Iter M_Tensor P_Tensor M_Reduce P_Reduce P_Arg Q_Reduce.
Local Open Scope Z_scope.

Lemma first_least_valid {T} (lt : T -> T -> bool) read s ix : first_least lt read s ix -> valid s ix.
Proof. intros (b & a & x & R & _). apply (in_enum RowMajor). cbn [enum]. rewrite R. apply in_or_app. right. now left. Qed.
Lemma elem_map {A B} (f : A -> B) d l ix : elem (map f d) l ix = option_map f (elem d l ix).
Proof. unfold elem, peek. destruct (_ <? 0); auto. apply nth_error_map. Qed.
(** from the index among the reduced axes to its rank *)
Lemma flat_of {T} (lt : T -> T -> bool) (out : list (list nat)) lo o s (read : list nat -> list nat -> option T) :
  tensor_ok (mkTensor out lo) -> (forall mx, valid (l_shape lo) mx -> exists sx, elem out lo mx = Some sx /\ first_least lt (read mx) s sx) ->
  tensor_ok (mkTensor (map (ravel o Dyn s) out) lo) /\ forall mx, valid (l_shape lo) mx -> exists r sx, elem (map (ravel o Dyn s) out) lo mx = Some (Z.of_nat r) /\ nth_error (enum o s) r = Some sx /\ first_least lt (read mx) s sx.
Proof. intros (A & I) H. split.
  - split; auto. cbn [t_data t_layout] in *. intros ix V. rewrite map_length. now apply I.
  - intros mx V. destruct (H mx V) as (sx & E & F). destruct (ravel_ok o Dyn s sx (first_least_valid _ _ _ _ F)) as (r & Er & Ev). exists r, sx. split; auto. rewrite elem_map, E. cbn. now rewrite Ev. Qed.
Lemma argmin_axes_flat_on : forall (T : Type) (Val : T -> Prop) (lt eqb : T -> T -> bool) dflt dio k (t : tensor T) axes ax o, weak_order_on Val lt -> (forall ix x, valid (t_shape t) ix -> at_ t ix = Some x -> Val x) -> tensor_ok t -> size (t_shape t) <> 0%nat ->
  Forall2 (axis_denotes (ndim (t_layout t))) axes ax -> NoDup ax -> dio = OC \/ dio = OF \/ dio = OK ->
  exists out lout, reduce_axes_arg (arg_comp lt) (arg_eq eqb) dflt dio k (t_data t) (t_layout t) axes o = Ok (out, lout) /\
    l_shape lout = pick (axes_except (ndim (t_layout t)) ax) 0%nat (t_shape t) /\ tensor_ok (mkTensor out lout) /\ length out = size (l_shape lout) /\
    forall mx, valid (l_shape lout) mx -> exists r sx, elem out lout mx = Some (Z.of_nat r) /\ nth_error (enum o (pick ax 0%nat (t_shape t))) r = Some sx /\
      first_least lt (fun sx => at_ t (merge (ndim (t_layout t)) ax sx mx)) (pick ax 0%nat (t_shape t)) sx.
Proof. intros T Val lt eqb dflt dio k t axes ax o W HV Ht S0 D ND Hd. destruct (l_argmin_axes_on T Val lt eqb dflt dio k t axes ax W HV Ht S0 D ND Hd) as (out & l1 & lo & E & S1 & So & To & L & R).
  unfold reduce_axes_arg. rewrite E. cbn [bind]. rewrite S1. destruct (flat_of lt out lo o _ (fun mx sx => at_ t (merge (ndim (t_layout t)) ax sx mx)) To R) as (T1 & R1). do 2 eexists. split; [reflexivity|]. split; auto. split; auto. split; auto. now rewrite map_length. Qed.
Lemma argmin_axes_flat_rayon_on : forall (T : Type) (Val : T -> Prop) (lt eqb : T -> T -> bool) switch tr dflt dio k (t : tensor T) axes ax o, weak_order_on Val lt -> (forall ix x, valid (t_shape t) ix -> at_ t ix = Some x -> Val x) -> tensor_ok t -> size (t_shape t) <> 0%nat ->
  Forall2 (axis_denotes (ndim (t_layout t))) axes [ax] -> 0 <= nth ax (l_stride (t_layout t)) 0 -> dio = OC \/ dio = OF \/ dio = OK ->
  exists out lout, reduce_axes_arg_rayon (arg_comp lt) (arg_eq eqb) switch tr dflt dio k (t_data t) (t_layout t) axes o = Ok (out, lout) /\
    l_shape lout = pick (axes_except (ndim (t_layout t)) [ax]) 0%nat (t_shape t) /\ tensor_ok (mkTensor out lout) /\ length out = size (l_shape lout) /\
    forall mx, valid (l_shape lout) mx -> exists r, elem out lout mx = Some (Z.of_nat r) /\
      first_least lt (fun sx => at_ t (merge (ndim (t_layout t)) [ax] sx mx)) [nth ax (t_shape t) 0%nat] [r].
Proof. intros T Val lt eqb switch tr dflt dio k t axes ax o W HV Ht S0 D N0 Hd. destruct (l_argmin_axes_rayon_on T Val lt eqb switch tr dflt dio k t axes ax W HV Ht S0 D N0 Hd) as (out & l1 & lo & E & S1 & So & To & L & R).
  unfold reduce_axes_arg_rayon. rewrite E. cbn [bind]. rewrite S1. destruct (flat_of lt out lo o _ (fun mx sx => at_ t (merge (ndim (t_layout t)) [ax] sx mx)) To R) as (T1 & R1). do 2 eexists. split; [reflexivity|]. split; auto. split; auto. split; [now rewrite map_length|].
  intros mx V. destruct (R1 mx V) as (r & sx & E1 & E2 & F). exists r. split; [exact E1|]. assert (X : sx = [r]); [|rewrite <- X; exact F].
  cbn [pick map] in *. clear - E2. set (n := nth ax (t_shape t) 0%nat) in *. assert (Hr : (r < n)%nat). { assert (H : nth_error (enum o [n]) r <> None) by congruence. apply nth_error_Some in H. rewrite enum_length in H. cbn in H. lia. }
  assert (Q : enum o [n] = map (fun i => [i]) (seq 0 n)).
  { destruct o; cbn.
    - induction (seq 0 n) as [|i s IH]; cbn in *; congruence.
    - induction (seq 0 n) as [|i s IH]; cbn in *; congruence. }
  rewrite Q in E2. rewrite nth_error_map in E2. rewrite (nth_error_nth' _ 0%nat) in E2 by (rewrite seq_length; lia). rewrite seq_nth in E2 by lia. cbn in E2. congruence. Qed.
Lemma argmin_flat_rayon_on : forall (T : Type) (Val : T -> Prop) (lt eqb : T -> T -> bool) switch tr k (t : tensor T) o, weak_order_on Val lt -> (forall ix x, valid (t_shape t) ix -> at_ t ix = Some x -> Val x) -> tensor_ok t -> size (t_shape t) <> 0%nat ->
  exists ix r, reduce_all_arg_rayon (arg_comp lt) (arg_eq eqb) switch tr k (t_data t) (t_layout t) o = Ok (Z.of_nat r) /\
    nth_error (enum o (t_shape t)) r = Some ix /\ first_least lt (at_ t) (t_shape t) ix.
Proof. intros T Val lt eqb switch tr k t o W HV Ht S0. destruct (l_argmin_all_rayon_on T Val lt eqb switch tr k t W HV Ht) as [_ H]. destruct (H S0) as (ix & E & L).
  unfold reduce_all_arg_rayon. rewrite E. cbn [bind]. destruct (ravel_ok o k (t_shape t) ix) as (r & Er & Ev); [now apply first_least_valid in L|]. exists ix, r. split; [now rewrite <- Ev|auto]. Qed.
Lemma l_argmin_axes_flat : forall (T : Type) (lt eqb : T -> T -> bool) dflt dio k (t : tensor T) axes ax o, weak_order lt -> tensor_ok t -> size (t_shape t) <> 0%nat ->
  Forall2 (axis_denotes (ndim (t_layout t))) axes ax -> NoDup ax -> dio = OC \/ dio = OF \/ dio = OK ->
  exists out lout, reduce_axes_arg (arg_comp lt) (arg_eq eqb) dflt dio k (t_data t) (t_layout t) axes o = Ok (out, lout) /\
    l_shape lout = pick (axes_except (ndim (t_layout t)) ax) 0%nat (t_shape t) /\ tensor_ok (mkTensor out lout) /\ length out = size (l_shape lout) /\
    forall mx, valid (l_shape lout) mx -> exists r sx, elem out lout mx = Some (Z.of_nat r) /\ nth_error (enum o (pick ax 0%nat (t_shape t))) r = Some sx /\
      first_least lt (fun sx => at_ t (merge (ndim (t_layout t)) ax sx mx)) (pick ax 0%nat (t_shape t)) sx.
Proof. intros T lt eqb dflt dio k t axes ax o W. apply (argmin_axes_flat_on T (fun _ => True)); [now apply weak_order_all|auto]. Qed.
Lemma l_argmin_axes_flat_rayon_partial : forall (T : Type) (lt eqb : T -> T -> bool) switch tr dflt dio k (t : tensor T) axes ax o, weak_order lt -> tensor_ok t -> size (t_shape t) <> 0%nat ->
  Forall2 (axis_denotes (ndim (t_layout t))) axes [ax] -> 0 <= nth ax (l_stride (t_layout t)) 0 -> dio = OC \/ dio = OF \/ dio = OK ->
  exists out lout, reduce_axes_arg_rayon (arg_comp lt) (arg_eq eqb) switch tr dflt dio k (t_data t) (t_layout t) axes o = Ok (out, lout) /\
    l_shape lout = pick (axes_except (ndim (t_layout t)) [ax]) 0%nat (t_shape t) /\ tensor_ok (mkTensor out lout) /\ length out = size (l_shape lout) /\
    forall mx, valid (l_shape lout) mx -> exists r, elem out lout mx = Some (Z.of_nat r) /\
      first_least lt (fun sx => at_ t (merge (ndim (t_layout t)) [ax] sx mx)) [nth ax (t_shape t) 0%nat] [r].
Proof. intros T lt eqb switch tr dflt dio k t axes ax o W. apply (argmin_axes_flat_rayon_on T (fun _ => True)); [now apply weak_order_all|auto]. Qed.
Lemma l_argmin_flat_rayon : forall (T : Type) (lt eqb : T -> T -> bool) switch tr k (t : tensor T) o, weak_order lt -> tensor_ok t -> size (t_shape t) <> 0%nat ->
  exists ix r, reduce_all_arg_rayon (arg_comp lt) (arg_eq eqb) switch tr k (t_data t) (t_layout t) o = Ok (Z.of_nat r) /\
    nth_error (enum o (t_shape t)) r = Some ix /\ first_least lt (at_ t) (t_shape t) ix.
Proof. intros T lt eqb switch tr k t o W. apply (argmin_flat_rayon_on T (fun _ => True)); [now apply weak_order_all|auto]. Qed.
