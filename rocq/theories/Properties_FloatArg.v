(** Property theorems about the flat positions of extrema of floating-point tensors (C106).  Statements use Spec.v, Spec_Float.v and the modelled entry
    points of M_FloatReduce.v only. *)
From Coq Require Import ZArith Reals List Lra Lia.
From Flocq Require Import Core BinarySingleNaN.
From Verif Require Import Base Spec Spec_Stats P_Index P_Indexer P_Iter M_Layout M_Indexer M_Tensor M_Iter M_Rearr M_Reduce M_Stats M_Float Spec_Float Spec_FloatReduce M_FloatReduce P_Tensor Q_FloatArg.
Import ListNotations.

(** C106: argmin_all (argmax_all) of a tensor of f32 or f64 without NaN is the rank of the row-major first index of a least (greatest) element, on the serial device and for every schedule of the parallel one. *)
Theorem C106_argmin_flat : forall t (greatest : bool) (par : option (nat * split_tree)) k (a : tensor (float t)) o, tensor_ok a -> (forall ix x, valid (t_shape a) ix -> at_ a ix = Some x -> is_nan x = false) -> size (t_shape a) <> 0%nat ->
  exists ix r, farg_all_flat greatest par k a o = Ok (Z.of_nat r) /\ nth_error (enum o (t_shape a)) r = Some ix /\ first_least (fun x y => if greatest then flt y x else flt x y) (at_ a) (t_shape a) ix.
Proof. exact l_fargmin_flat. Qed.
Definition fa_t : tensor (float F64) := mkTensor [of_int 3; of_int (-1); B754_zero true; of_int 7; B754_zero false; of_int (-1)] (mkLayout [2; 3]%nat [3; 1]%Z 0).
Lemma fa_ok : tensor_ok fa_t. Proof. concrete_tensor. Qed.
Lemma fa_numbers : forall ix x, valid (t_shape fa_t) ix -> at_ fa_t ix = Some x -> is_nan x = false.
Proof. intros ix x V E. apply (in_enum RowMajor) in V. vm_compute in V. assert (X : option_map is_nan (at_ fa_t ix) = Some false) by (repeat (destruct V as [<-|V]; [vm_compute; reflexivity|]); destruct V). rewrite E in X. injection X as X. exact X. Qed.
Example C106_argmin_flat_example : tensor_ok fa_t /\ (forall ix x, valid (t_shape fa_t) ix -> at_ fa_t ix = Some x -> is_nan x = false) /\ farg_all_flat false (Some (2%nat, Node 4 Leaf Leaf)) Dyn fa_t RowMajor = Ok 1%Z /\ farg_all_flat true None Dyn fa_t RowMajor = Ok 3%Z.
Proof. split; [exact fa_ok|]. split; [exact fa_numbers|]. split; vm_compute; reflexivity. Qed.
Print Assumptions C106_argmin_flat.

(** C106: argmin_axes (argmax_axes) of the serial device, at every remaining index the rank of the first index of the reduced axes with a least (greatest) element. *)
Theorem C106_argmin_axes_flat : forall t (greatest : bool) dflt dio k (a : tensor (float t)) axes ax o, tensor_ok a -> (forall ix x, valid (t_shape a) ix -> at_ a ix = Some x -> is_nan x = false) -> size (t_shape a) <> 0%nat ->
  Forall2 (axis_denotes (ndim (t_layout a))) axes ax -> NoDup ax -> dio = OC \/ dio = OF \/ dio = OK ->
  exists out lout, farg_axes_flat greatest dflt dio k a axes o = Ok (out, lout) /\ l_shape lout = pick (axes_except (ndim (t_layout a)) ax) 0%nat (t_shape a) /\
    tensor_ok (mkTensor out lout) /\ forall mx, valid (l_shape lout) mx -> exists r sx, elem out lout mx = Some (Z.of_nat r) /\ nth_error (enum o (pick ax 0%nat (t_shape a))) r = Some sx /\
      first_least (fun x y => if greatest then flt y x else flt x y) (fun sx => at_ a (merge (ndim (t_layout a)) ax sx mx)) (pick ax 0%nat (t_shape a)) sx.
Proof. exact l_fargmin_axes_flat. Qed.
Example C106_argmin_axes_flat_example : farg_axes_flat false RowMajor OK Dyn fa_t [0]%Z RowMajor = Ok ([0; 0; 1]%Z, mkLayout [3]%nat [1]%Z 0).
Proof. vm_compute. reflexivity. Qed.
Print Assumptions C106_argmin_axes_flat.
