(** Flat positions of extrema of floating-point tensors *)
From Flocq Require Import Core BinarySingleNaN.
From Verif Require Import Base Spec Spec_Stats P_Index P_Indexer P_Iter M_Layout M_Indexer M_Tensor M_Iter M_Rearr M_Reduce M_Stats M_Float Spec_Float Spec_FloatReduce M_FloatReduce P_FloatOps Q_FloatReduce Q_FloatMin Q_ArgRavel.

Lemma l_fargmin_axes_flat : forall t (greatest : bool) dflt dio k (a : tensor (float t)) axes ax o, tensor_ok a -> (forall ix x, valid (t_shape a) ix -> at_ a ix = Some x -> is_nan x = false) -> size (t_shape a) <> 0%nat ->
  Forall2 (axis_denotes (ndim (t_layout a))) axes ax -> NoDup ax -> dio = OC \/ dio = OF \/ dio = OK ->
  exists out lout, farg_axes_flat greatest dflt dio k a axes o = Ok (out, lout) /\ l_shape lout = pick (axes_except (ndim (t_layout a)) ax) 0%nat (t_shape a) /\
    tensor_ok (mkTensor out lout) /\ forall mx, valid (l_shape lout) mx -> exists r sx, elem out lout mx = Some (Z.of_nat r) /\ nth_error (enum o (pick ax 0%nat (t_shape a))) r = Some sx /\
      first_least (fun x y => if greatest then flt y x else flt x y) (fun sx => at_ a (merge (ndim (t_layout a)) ax sx mx)) (pick ax 0%nat (t_shape a)) sx.
Proof. intros t g dflt dio k a axes ax o Ht N S0 D ND Hd. destruct (argmin_axes_flat_on (float t) _ (better g) feq dflt dio k a axes ax o (better_weak t g) N Ht S0 D ND Hd) as (out & lo & E & So & To & _ & R).
  exists out, lo. split; [exact E|]. split; [exact So|]. split; [exact To|exact R]. Qed.
Lemma l_fargmin_flat : forall t (greatest : bool) (par : option (nat * split_tree)) k (a : tensor (float t)) o, tensor_ok a -> (forall ix x, valid (t_shape a) ix -> at_ a ix = Some x -> is_nan x = false) -> size (t_shape a) <> 0%nat ->
  exists ix r, farg_all_flat greatest par k a o = Ok (Z.of_nat r) /\ nth_error (enum o (t_shape a)) r = Some ix /\ first_least (fun x y => if greatest then flt y x else flt x y) (at_ a) (t_shape a) ix.
Proof. intros t g par k a o Ht N S0. destruct par as [(switch, tr)|].
  - exact (argmin_flat_rayon_on (float t) _ (better g) feq switch tr k a o (better_weak t g) N Ht S0).
  - exact (Q_Reduce.l_argmin_ravel_on (float t) _ (better g) feq k a o (better_weak t g) N Ht S0). Qed.
