(** Closed statements about the least and the greatest of floating-point numbers *)
From Coq Require Import ZArith Reals List Lia Lra Bool.
From Flocq Require Import Core BinarySingleNaN.
From Verif Require Import Base Spec Spec_Stats Spec_Float Spec_FloatReduce P_Index M_Layout M_Indexer M_Tensor P_Tensor Q_Tensor M_Iter M_Rearr M_Reduce P_Axes P_Arg Q_Reduce M_Stats Q_Stats P_Param P_Shadow M_Float P_FloatOps M_FloatReduce P_FloatSum Q_FloatReduce P_FloatMin.
Import ListNotations.
Local Open Scope R_scope.

Definition fext_all {t} (up : bool) : all_kernel -> dimty -> tensor (float t) -> res (float t) := if up then fmax_all else fmin_all.
Definition fext_axes {t} (up : bool) : axes_kernel -> order -> tensor (float t) -> list Z -> res (list (float t) * layout) -> Prop := if up then fmax_axes else fmin_axes.
Lemma fext_all_eq t up dev k (a : tensor (float t)) : fext_all up dev k a = fextremum_all (worst up) (ext up) dev k a. Proof. destruct up; reflexivity. Qed.
Lemma fext_axes_eq t up dev d (a : tensor (float t)) axes r : fext_axes up dev d a axes r = extremum_axes (worst up) (ext up) dev d a axes r. Proof. destruct up; reflexivity. Qed.
Definition extremum_claim {t} (up : bool) (xs : list (float t)) (m : float t) : Prop :=
  (~ Forall (far up) xs -> extremum_of up xs m) /\ (Forall (far up) xs -> finite m /\ forall x, In x xs -> feq m x = false).
Lemma best_claim t up (xs : list (float t)) m : best up m (total None omin (map (o_of up) xs)) -> extremum_claim up xs m.
Proof. intro B. destruct (best_extremum up xs m B) as [B1 B2]. split; auto. intro F. destruct (B2 F) as [Fm P]. split; auto. now apply best_far with (up := up). Qed.
Lemma ext_ok t up dev k (a : tensor (float t)) xs : works dev -> tensor_ok a -> size (t_shape a) <> 0%nat -> elements (t_data a) (t_layout a) (row_major (t_shape a)) xs -> exists m, fext_all up dev k a = Ok m /\ extremum_claim up xs m.
Proof. intros W Ht S0 E. rewrite fext_all_eq. unfold fextremum_all, l_size. unfold t_shape in S0. replace (size (l_shape (t_layout a)) =? 0)%nat with false by (symmetry; now apply Nat.eqb_neq).
  destruct (shadow_all (best up) (worst up) (ext up) (ext up) same None omin (o_of up) omin_monoid (best_init up) (best_f up) (fun x y x' y' => best_join up x x' y y') dev k a xs W Ht E) as (m & R & y & Em & B). subst m. exists y. split; [exact R|]. now apply best_claim. Qed.
Lemma ext_axes_ok t up dev adev dflt k (a : tensor (float t)) axes ax r : works dev -> tensor_ok a -> size (t_shape a) <> 0%nat -> reducible a ax -> names (ndim (t_layout a)) axes ax ->
  stat_axes_f (fext_all up dev k a) (fext_axes up adev dflt a) axes r -> exists t', r = Ok t' /\ tables_as a ax (extremum_claim up) t'.
Proof. intros W Ht S0 Rd N. apply stat_as; auto.
  - intros xs E. now apply ext_ok.
  - clear ax Rd N. intros v ax q _ NB D ND R. rewrite fext_axes_eq in R. unfold extremum_axes, l_size in R. pose proof S0 as S1. unfold t_shape in S1. replace (size (l_shape (t_layout a)) =? 0)%nat with false in R by (symmetry; now apply Nat.eqb_neq).
    destruct (shadow_axes (best up) (worst up) (ext up) (ext up) (fun x => x) None omin (o_of up) omin_monoid (best_init up) (best_f up) (fun x y x' y' => best_join up x x' y y') adev dflt a v ax q Ht S0 NB D ND R) as (out & lo & Eq & En & Eo & Sh & El).
    exists out, lo. split; auto. split; auto. split; auto. split; auto. intros mx xs V Ex. destruct (El mx xs V Ex) as (o & Eo' & y & -> & Ny). exists y. split; [exact Eo'|]. now apply best_claim. Qed.
Lemma ext_empty t up dev k (a : tensor (float t)) : size (t_shape a) = 0%nat -> fext_all up dev k a = Err InvalidValue.
Proof. intro S0. rewrite fext_all_eq. unfold fextremum_all, l_size. unfold t_shape in S0. now rewrite S0. Qed.
Lemma ext_axes_empty t up adev dflt (a : tensor (float t)) axes r : size (t_shape a) = 0%nat -> fext_axes up adev dflt a axes r -> r = Err InvalidValue.
Proof. intro S0. rewrite fext_axes_eq. unfold extremum_axes, l_size. unfold t_shape in S0. now rewrite S0. Qed.

(** ** closed *)
Lemma elements_fun {T} buf l ixs (xs ys : list T) : elements buf l ixs xs -> elements buf l ixs ys -> xs = ys.
Proof. intro E. revert ys. induction E as [|i x ixs xs Ei _ IH]; intros ys E2; inversion E2; subst; auto. f_equal; [congruence|]. now apply IH. Qed.
Lemma l_fmin : forall t dev k (a : tensor (float t)) xs, works dev -> tensor_ok a -> elements (t_data a) (t_layout a) (row_major (t_shape a)) xs ->
  (size (t_shape a) = 0%nat -> fmin_all dev k a = Err InvalidValue) /\
  (size (t_shape a) <> 0%nat -> exists m, fmin_all dev k a = Ok m /\ (~ Forall (far false) xs -> extremum_of false xs m) /\ (Forall (far false) xs -> finite m /\ forall x, In x xs -> feq m x = false)).
Proof. intros t dev k a xs W Ht E. split; intro S0; [now apply (ext_empty t false)|]. now apply (ext_ok t false). Qed.
Lemma l_fmax : forall t dev k (a : tensor (float t)) xs, works dev -> tensor_ok a -> elements (t_data a) (t_layout a) (row_major (t_shape a)) xs ->
  (size (t_shape a) = 0%nat -> fmax_all dev k a = Err InvalidValue) /\
  (size (t_shape a) <> 0%nat -> exists m, fmax_all dev k a = Ok m /\ (~ Forall (far true) xs -> extremum_of true xs m) /\ (Forall (far true) xs -> finite m /\ forall x, In x xs -> feq m x = false)).
Proof. intros t dev k a xs W Ht E. split; intro S0; [now apply (ext_empty t true)|]. now apply (ext_ok t true). Qed.
Lemma l_fmin_axes_partial : forall t dev adev dflt k (a : tensor (float t)) axes ax r, works dev -> tensor_ok a -> size (t_shape a) <> 0%nat -> reducible a ax -> names (ndim (t_layout a)) axes ax ->
  stat_axes_f (fmin_all dev k a) (fmin_axes adev dflt a) axes r -> exists t', r = Ok t' /\ tables_as a ax (fun xs m => (~ Forall (far false) xs -> extremum_of false xs m) /\ (Forall (far false) xs -> finite m /\ forall x, In x xs -> feq m x = false)) t'.
Proof. exact (fun t => ext_axes_ok t false). Qed.
Lemma l_fmax_axes_partial : forall t dev adev dflt k (a : tensor (float t)) axes ax r, works dev -> tensor_ok a -> size (t_shape a) <> 0%nat -> reducible a ax -> names (ndim (t_layout a)) axes ax ->
  stat_axes_f (fmax_all dev k a) (fmax_axes adev dflt a) axes r -> exists t', r = Ok t' /\ tables_as a ax (fun xs m => (~ Forall (far true) xs -> extremum_of true xs m) /\ (Forall (far true) xs -> finite m /\ forall x, In x xs -> feq m x = false)) t'.
Proof. exact (fun t => ext_axes_ok t true). Qed.
Lemma l_fmin_element_refuted : ~ (forall t dev k (a : tensor (float t)) xs m, works dev -> tensor_ok a -> elements (t_data a) (t_layout a) (row_major (t_shape a)) xs -> (forall x, In x xs -> is_nan x = false) -> fmin_all dev k a = Ok m -> exists x, In x xs /\ feq m x = true).
Proof. intro H. set (v := [B754_infinity false; B754_infinity false] : list (float F64)). assert (T : tensor_ok (row v)) by (apply row_ok; vm_compute; reflexivity). destruct (l_elements _ (row v) T) as (xs & E). assert (X : xs = v) by (apply (elements_fun _ _ _ _ _ E); repeat constructor).
  subst xs. destruct (l_fmin F64 AllSerial Dyn (row v) v I T E) as [_ Q]. assert (S0 : size (t_shape (row v)) <> 0%nat) by (vm_compute; discriminate). destruct (Q S0) as (m & Rm & _ & C). assert (F : Forall (far false) v) by (repeat constructor; now right). destruct (C F) as [_ N].
  assert (NN : forall x, In x v -> is_nan x = false) by (intros x [<-|[<-|[]]]; reflexivity). destruct (H F64 AllSerial Dyn (row v) v m I T E NN Rm) as (x & Ix & Fx). rewrite (N x Ix) in Fx. discriminate. Qed.

(** ** positions of least and greatest numbers *)
Lemma better_weak t g : weak_order_on (fun x : float t => is_nan x = false) (better g).
Proof. unfold better. destruct g; (split; intros x y z Nx Ny Nz; rewrite !key_flt by auto).
  1,3: do 2 (case Rlt_bool_spec; intros ?; try discriminate); intros _ _; apply Rlt_bool_true; lra.
  all: case Rlt_bool_spec; intros ?; try discriminate; intros _; do 2 (case Rlt_bool_spec; intros ?; auto); lra. Qed.
Lemma better_least t g (read : list nat -> option (float t)) s ix : first_least (better g) read s ix <-> first_least (fun x y => if g then flt y x else flt x y) read s ix.
Proof. reflexivity. Qed.
Lemma l_fargmin : forall t (greatest : bool) k (a : tensor (float t)), tensor_ok a -> (forall ix x, valid (t_shape a) ix -> at_ a ix = Some x -> is_nan x = false) ->
  (size (t_shape a) = 0%nat -> farg_all greatest k a = Err InvalidLayout) /\
  (size (t_shape a) <> 0%nat -> exists ix, farg_all greatest k a = Ok ix /\ first_least (fun x y => if greatest then flt y x else flt x y) (at_ a) (t_shape a) ix).
Proof. intros t g k a Ht N. exact (l_argmin_all_on (float t) _ (better g) feq k a (better_weak t g) N Ht). Qed.
Lemma l_fargmin_parallel : forall t (greatest : bool) switch tr k (a : tensor (float t)), tensor_ok a -> (forall ix x, valid (t_shape a) ix -> at_ a ix = Some x -> is_nan x = false) ->
  (size (t_shape a) = 0%nat -> farg_all_rayon greatest switch tr k a = Err InvalidLayout) /\
  (size (t_shape a) <> 0%nat -> exists ix, farg_all_rayon greatest switch tr k a = Ok ix /\ first_least (fun x y => if greatest then flt y x else flt x y) (at_ a) (t_shape a) ix).
Proof. intros t g switch tr k a Ht N. exact (l_argmin_all_rayon_on (float t) _ (better g) feq switch tr k a (better_weak t g) N Ht). Qed.
Lemma l_fargmin_axes : forall t (greatest : bool) dflt dio k (a : tensor (float t)) axes ax, tensor_ok a -> (forall ix x, valid (t_shape a) ix -> at_ a ix = Some x -> is_nan x = false) -> size (t_shape a) <> 0%nat ->
  Forall2 (axis_denotes (ndim (t_layout a))) axes ax -> NoDup ax -> dio = OC \/ dio = OF \/ dio = OK ->
  exists out laxes lout, farg_axes greatest dflt dio k a axes = Ok (out, laxes, lout) /\ l_shape laxes = pick ax 0%nat (t_shape a) /\ l_shape lout = pick (axes_except (ndim (t_layout a)) ax) 0%nat (t_shape a) /\
    tensor_ok (mkTensor out lout) /\ forall mx, valid (l_shape lout) mx -> exists sx, elem out lout mx = Some sx /\
      first_least (fun x y => if greatest then flt y x else flt x y) (fun sx => at_ a (merge (ndim (t_layout a)) ax sx mx)) (pick ax 0%nat (t_shape a)) sx.
Proof. intros t g dflt dio k a axes ax Ht N S0 D ND Hd. destruct (l_argmin_axes_on (float t) _ (better g) feq dflt dio k a axes ax (better_weak t g) N Ht S0 D ND Hd) as (out & l1 & lo & E & S1 & So & To & _ & R). exists out, l1, lo. split; [exact E|]. split; [exact S1|]. split; [exact So|]. split; [exact To|exact R]. Qed.
(** a NaN cuts the sequence: what the serial loop finds is not what a parallel schedule finds *)
Definition with_nan : list (float F64) := of_int 1 :: B754_nan :: repeat fzero 1022.
Lemma l_fargmin_nan_refuted : ~ (forall t (greatest : bool) switch tr tr' k (a : tensor (float t)), tensor_ok a -> farg_all_rayon greatest switch tr k a = farg_all_rayon greatest switch tr' k a).
Proof. intro H. assert (T : tensor_ok (row with_nan)) by (apply row_ok; vm_compute; reflexivity). specialize (H F64 false 1024%nat Leaf (Node 1 Leaf Leaf) Dyn (row with_nan) T).
  assert (A : match farg_all_rayon false 1024 Leaf Dyn (row with_nan) with Ok [n] => Nat.eqb n 2 | _ => false end = true) by (vm_compute; reflexivity).
  assert (B : match farg_all_rayon false 1024 (Node 1 Leaf Leaf) Dyn (row with_nan) with Ok [n] => Nat.eqb n 0 | _ => false end = true) by (vm_compute; reflexivity).
  rewrite H in A. destruct (farg_all_rayon false 1024 (Node 1 Leaf Leaf) Dyn (row with_nan)) as [[|n [|]]| |]; try discriminate A. apply Nat.eqb_eq in A, B. congruence. Qed.
