(** Property theorems about the flat positions of extrema (C31).  Statements use Spec.v and the modelled entry points of M_Reduce.v only.
    [lt y x] is [y < x] for argmin and [y > x] for argmax; the order [o] of the flat positions is RowMajor on all devices. *)
From Verif Require Import Base Spec P_Index P_Iter M_Layout M_Indexer P_Indexer M_Rearr M_Iter M_Kernel M_Tensor P_Tensor M_Reduce Q_Reduce Q_ArgRavel.
Local Open Scope Z_scope.

(** C31: argmin_axes (argmax_axes) gives at every remaining index the rank, among the indices of the reduced axes, of the first one that holds an extremum of the group. *)
Theorem C31_argmin_axes_flat : forall (T : Type) (lt eqb : T -> T -> bool) dflt dio k (t : tensor T) axes ax o, weak_order lt -> tensor_ok t -> size (t_shape t) <> 0%nat ->
  Forall2 (axis_denotes (ndim (t_layout t))) axes ax -> NoDup ax -> dio = OC \/ dio = OF \/ dio = OK ->
  exists out lout, reduce_axes_arg (arg_comp lt) (arg_eq eqb) dflt dio k (t_data t) (t_layout t) axes o = Ok (out, lout) /\
    l_shape lout = pick (axes_except (ndim (t_layout t)) ax) 0%nat (t_shape t) /\ tensor_ok (mkTensor out lout) /\ length out = size (l_shape lout) /\
    forall mx, valid (l_shape lout) mx -> exists r sx, elem out lout mx = Some (Z.of_nat r) /\ nth_error (enum o (pick ax 0%nat (t_shape t))) r = Some sx /\
      first_least lt (fun sx => at_ t (merge (ndim (t_layout t)) ax sx mx)) (pick ax 0%nat (t_shape t)) sx.
Proof. exact l_argmin_axes_flat. Qed.
(** a 2 by 2 by 3 array, reduced over its last two axes: the minima are at [1, 0] and [0, 2] *)
Definition ar_t : tensor Z := mkTensor [4; 5; 6; 1; 2; 3; 9; 8; 0; 7; 7; 7] (mkLayout [2; 2; 3]%nat [6; 3; 1] 0).
Lemma ar_ok : tensor_ok ar_t. Proof. concrete_tensor. Qed.
Example C31_flat_example : weak_order Z.ltb /\ tensor_ok ar_t /\ Forall2 (axis_denotes (ndim (t_layout ar_t))) [-1; 1] [2; 1]%nat /\ NoDup [2; 1]%nat /\
  reduce_axes_arg (arg_comp Z.ltb) (arg_eq Z.eqb) RowMajor OK Dyn (t_data ar_t) (t_layout ar_t) [1; 2] RowMajor = Ok ([3; 2], mkLayout [2]%nat [1] 0).
Proof. split; [repeat split; intros; lia|]. split; [exact ar_ok|]. split; [repeat constructor; cbn; lia|]. split; [repeat constructor; cbn; intuition discriminate|vm_compute; reflexivity]. Qed.
Print Assumptions C31_argmin_axes_flat.

(** C31: the parallel version over one axis with non-negative stride: the result is the index on that axis.  Missing: several axes and reversed axes, see C31_argmin_axes_parallel_refuted and C31_argmin_axes_parallel_flipped_refuted. *)
Theorem C31_argmin_axes_flat_parallel_partial : forall (T : Type) (lt eqb : T -> T -> bool) switch tr dflt dio k (t : tensor T) axes ax o, weak_order lt -> tensor_ok t -> size (t_shape t) <> 0%nat ->
  Forall2 (axis_denotes (ndim (t_layout t))) axes [ax] -> 0 <= nth ax (l_stride (t_layout t)) 0 -> dio = OC \/ dio = OF \/ dio = OK ->
  exists out lout, reduce_axes_arg_rayon (arg_comp lt) (arg_eq eqb) switch tr dflt dio k (t_data t) (t_layout t) axes o = Ok (out, lout) /\
    l_shape lout = pick (axes_except (ndim (t_layout t)) [ax]) 0%nat (t_shape t) /\ tensor_ok (mkTensor out lout) /\ length out = size (l_shape lout) /\
    forall mx, valid (l_shape lout) mx -> exists r, elem out lout mx = Some (Z.of_nat r) /\
      first_least lt (fun sx => at_ t (merge (ndim (t_layout t)) [ax] sx mx)) [nth ax (t_shape t) 0%nat] [r].
Proof. exact l_argmin_axes_flat_rayon_partial. Qed.
Example C31_flat_parallel_example : reduce_axes_arg_rayon (arg_comp Z.ltb) (arg_eq Z.eqb) 2 (fun _ => Node 1 Leaf Leaf) RowMajor OK Dyn (t_data ar_t) (t_layout ar_t) [-1] RowMajor = Ok ([0; 0; 2; 0], mkLayout [2; 2]%nat [2; 1] 0).
Proof. vm_compute. reflexivity. Qed.
Print Assumptions C31_argmin_axes_flat_parallel_partial.

(** C31: argmin_all (argmax_all) of the parallel device gives the rank of the row-major first index that holds an extremum, for every schedule. *)
Theorem C31_argmin_flat_parallel : forall (T : Type) (lt eqb : T -> T -> bool) switch tr k (t : tensor T) o, weak_order lt -> tensor_ok t -> size (t_shape t) <> 0%nat ->
  exists ix r, reduce_all_arg_rayon (arg_comp lt) (arg_eq eqb) switch tr k (t_data t) (t_layout t) o = Ok (Z.of_nat r) /\
    nth_error (enum o (t_shape t)) r = Some ix /\ first_least lt (at_ t) (t_shape t) ix.
Proof. exact l_argmin_flat_rayon. Qed.
Example C31_flat_all_parallel_example : reduce_all_arg_rayon (arg_comp Z.gtb) (arg_eq Z.eqb) 2 (Node 7 (Node 2 Leaf Leaf) Leaf) Dyn (t_data ar_t) (t_layout ar_t) RowMajor = Ok 6.
Proof. vm_compute. reflexivity. Qed.
Print Assumptions C31_argmin_flat_parallel.
