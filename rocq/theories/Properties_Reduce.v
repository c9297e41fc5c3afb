(** Property theorems about reductions (C29-C32).  Statements use Spec.v and the modelled entry points of M_Layout.v,
    M_Tensor.v and M_Reduce.v only. *)
From Verif Require Import Base Spec P_Index M_Layout M_Indexer M_Rearr M_Iter M_Kernel M_Tensor M_Reduce P_Tensor Q_Tensor Q_Reduce.
Local Open Scope Z_scope.
Lemma z_sum_monoid : comm_monoid 0 Z.add. Proof. repeat split; intros; lia. Qed.
Lemma z_weak_order : weak_order Z.ltb. Proof. repeat split; intros; lia. Qed.

(** C29: for any commutative monoid the full reduction of a well-formed tensor is the fold of all its elements, whatever layout and unrolling. *)
Theorem C29_reduce_all : forall (T S O : Type) (e : S) (op : S -> S -> S) (h : T -> S) (f : S -> T -> S) (fout : S -> O) k (t : tensor T) xs,
  comm_monoid e op -> (forall s x, f s x = op s (h x)) -> tensor_ok t ->
  elements (t_data t) (t_layout t) (row_major (t_shape t)) xs ->
  reduce_all e f op fout k (t_data t) (t_layout t) = Ok (fout (total e op (map h xs))).
Proof. exact l_reduce_all. Qed.
(** a reversed and transposed view of 7 cells *)
Definition ex_r : tensor Z := mkTensor [1; 2; 3; 4; 5; 6; 7] (mkLayout [2; 3]%nat [-1; 2] 2).
Example C29_example : tensor_ok ex_r /\ elements (t_data ex_r) (t_layout ex_r) (row_major (t_shape ex_r)) [3; 5; 7; 2; 4; 6] /\ reduce_all 0 (fun s x => s + x * x) Z.add (fun x => x) Fixed (t_data ex_r) (t_layout ex_r) = Ok 139.
Proof. split; [concrete_tensor|]. split; [repeat constructor|]. reflexivity. Qed.
Print Assumptions C29_reduce_all.

(** C29: the list of elements the theorem speaks of exists for every well-formed tensor. *)
Theorem C29_elements : forall (T : Type) (t : tensor T), tensor_ok t -> exists xs, elements (t_data t) (t_layout t) (row_major (t_shape t)) xs.
Proof. exact l_elements. Qed.
Print Assumptions C29_elements.

(** C29: sum and prod. *)
Theorem C29_sum_prod : forall (T : Type) (zero : T) add k (t : tensor T) xs, comm_monoid zero add -> tensor_ok t ->
  elements (t_data t) (t_layout t) (row_major (t_shape t)) xs -> sum_all zero add k t = Ok (total zero add xs).
Proof. exact l_sum_all. Qed.
Example C29_example_sum : comm_monoid 0 Z.add /\ sum_all 0 Z.add Fixed ex_r = Ok 27 /\ sum_all 1 Z.mul Fixed ex_r = Ok 5040.
Proof. split; [exact z_sum_monoid|]. split; reflexivity. Qed.
Print Assumptions C29_sum_prod.

(** C29: min (max) of a non-empty tensor is one of its elements and not above (below) any other; an empty tensor is an error. *)
Theorem C29_min_max : forall (T : Type) (worst : T) (mn : T -> T -> T) (k : dimty) (t : tensor T), tensor_ok t ->
  comm_monoid worst mn -> (forall a b, mn a b = a \/ mn a b = b) ->
  (size (t_shape t) = 0%nat -> min_all worst mn k t = Err InvalidValue) /\
  (size (t_shape t) <> 0%nat -> exists m, min_all worst mn k t = Ok m /\
     (exists ix, valid (t_shape t) ix /\ elem (t_data t) (t_layout t) ix = Some m) /\
     forall ix x, valid (t_shape t) ix -> elem (t_data t) (t_layout t) ix = Some x -> mn m x = m).
Proof. exact l_min_all. Qed.
(** saturated naturals: 0 is the worst value for max *)
Example C29_example_max : comm_monoid 0%nat Nat.max /\ (forall a b, Nat.max a b = a \/ Nat.max a b = b) /\ min_all 0%nat Nat.max Fixed (mkTensor [3; 9; 4]%nat (mkLayout [3]%nat [-1] 2)) = Ok 9%nat.
Proof. split; [repeat split; intros; lia|]. split; [intros; lia|reflexivity]. Qed.
Print Assumptions C29_min_max.

(** C29: mean is the sum divided by the number of elements. *)
Theorem C29_mean : forall (T : Type) (zero : T) add div k (t : tensor T) xs, comm_monoid zero add -> tensor_ok t ->
  elements (t_data t) (t_layout t) (row_major (t_shape t)) xs -> mean_all zero add div k t = Ok (div (total zero add xs) (length xs)).
Proof. exact l_mean_all. Qed.
Print Assumptions C29_mean.

(** C29: var (real types) is mean of squares minus square of the mean. *)
Theorem C29_var : forall (T : Type) (zero : T) add sub mul div k (t : tensor T) xs, comm_monoid zero add -> tensor_ok t ->
  elements (t_data t) (t_layout t) (row_major (t_shape t)) xs ->
  let n := length xs in let mean := div (total zero add xs) n in
  var_all zero add sub mul div k t = Ok (sub (div (total zero add (map (fun x => mul x x) xs)) n) (mul mean mean)).
Proof. exact l_var_all. Qed.
Example C29_example_var : var_all 0 Z.add Z.sub Z.mul (fun x n => x / Z.of_nat n) Fixed (mkTensor [1; 3; 5; 7] (mkLayout [2; 2]%nat [1; 2] 0)) = Ok 5.
Proof. reflexivity. Qed.
Print Assumptions C29_var.

(** C29: count_nonzero. *)
Theorem C29_count_nonzero : forall (T : Type) (is_zero : T -> bool) k (t : tensor T) xs, tensor_ok t ->
  elements (t_data t) (t_layout t) (row_major (t_shape t)) xs ->
  count_nonzero_all is_zero k t = Ok (length (filter (fun x => negb (is_zero x)) xs)).
Proof. exact l_count_nonzero. Qed.
Print Assumptions C29_count_nonzero.

(** C29: all and any are the quantifiers over the elements. *)
Theorem C29_all_any : forall k (t : tensor bool), tensor_ok t ->
  (exists b, all_all k t = Ok b /\ (b = true <-> forall ix, valid (t_shape t) ix -> elem (t_data t) (t_layout t) ix = Some true)) /\
  (exists b, any_all k t = Ok b /\ (b = true <-> exists ix, valid (t_shape t) ix /\ elem (t_data t) (t_layout t) ix = Some true)).
Proof. exact l_all_any. Qed.
Print Assumptions C29_all_any.

(** C30: for every schedule (splitting of outer and inner loops) and chunk size the parallel full reduction equals the serial one and the fold of all elements. *)
Theorem C30_reduce_all_parallel : forall (T S O : Type) (e : S) (op : S -> S -> S) (h : T -> S) (f : S -> T -> S) (fout : S -> O) chunk t ti k (a : tensor T) xs,
  comm_monoid e op -> (forall s x, f s x = op s (h x)) -> tensor_ok a -> chunk <> 0%nat ->
  elements (t_data a) (t_layout a) (row_major (t_shape a)) xs ->
  reduce_all_rayon e f op fout chunk t ti k (t_data a) (t_layout a) = Ok (fout (total e op (map h xs))) /\
  reduce_all_rayon e f op fout chunk t ti k (t_data a) (t_layout a) = reduce_all e f op fout k (t_data a) (t_layout a).
Proof. exact l_reduce_all_rayon. Qed.
(** chunk size 2, so that a 6-element view takes the parallel path; two different splits *)
Example C30_example : let run t := reduce_all_rayon 0 Z.add Z.add (fun x => x) 2 t (fun _ => Node 1 Leaf Leaf) Fixed (t_data ex_r) (t_layout ex_r) in
  run Leaf = Ok 27 /\ run (Node 2 (Node 1 Leaf Leaf) (Node 3 Leaf Leaf)) = Ok 27.
Proof. split; reflexivity. Qed.
Print Assumptions C30_reduce_all_parallel.

(** C31: argmin/argmax of a non-empty tensor is the row-major first index holding an extremum; an empty tensor is an error. *)
Theorem C31_argmin : forall (T : Type) (lt eqb : T -> T -> bool) k (t : tensor T), weak_order lt -> tensor_ok t ->
  (size (t_shape t) = 0%nat -> reduce_all_unraveled_arg (arg_comp lt) (arg_eq eqb) k (t_data t) (t_layout t) = Err InvalidLayout) /\
  (size (t_shape t) <> 0%nat -> exists ix, reduce_all_unraveled_arg (arg_comp lt) (arg_eq eqb) k (t_data t) (t_layout t) = Ok ix /\
     first_least lt (elem (t_data t) (t_layout t)) (t_shape t) ix).
Proof. exact l_argmin_all. Qed.
Example C31_example : weak_order Z.ltb /\ reduce_all_unraveled_arg (arg_comp Z.ltb) (arg_eq Z.eqb) Fixed [4; 1; 5; 1; 4; 1] (mkLayout [2; 3]%nat [1; 2] 0) = Ok [1; 0]%nat
  /\ reduce_all_unraveled_arg (arg_comp Z.gtb) (arg_eq Z.eqb) Fixed [4; 1; 5; 1; 4; 1] (mkLayout [2; 3]%nat [1; 2] 0) = Ok [0; 1]%nat.
Proof. split; [exact z_weak_order|]. split; reflexivity. Qed.
Print Assumptions C31_argmin.

(** C31: the parallel version, for every schedule. *)
Theorem C31_argmin_parallel : forall (T : Type) (lt eqb : T -> T -> bool) switch tr k (t : tensor T), weak_order lt -> tensor_ok t ->
  (size (t_shape t) = 0%nat -> reduce_all_unraveled_arg_rayon (arg_comp lt) (arg_eq eqb) switch tr k (t_data t) (t_layout t) = Err InvalidLayout) /\
  (size (t_shape t) <> 0%nat -> exists ix, reduce_all_unraveled_arg_rayon (arg_comp lt) (arg_eq eqb) switch tr k (t_data t) (t_layout t) = Ok ix /\
     first_least lt (elem (t_data t) (t_layout t)) (t_shape t) ix).
Proof. exact l_argmin_all_rayon. Qed.
Example C31_example_parallel : reduce_all_unraveled_arg_rayon (arg_comp Z.ltb) (arg_eq Z.eqb) 2 (Node 3 (Node 1 Leaf Leaf) Leaf) Fixed [4; 1; 5; 1; 4; 1] (mkLayout [2; 3]%nat [1; 2] 0) = Ok [1; 0]%nat.
Proof. reflexivity. Qed.
Print Assumptions C31_argmin_parallel.

(** C31: the flat result is the rank of that index in the requested order. *)
Theorem C31_argmin_ravel : forall (T : Type) (lt eqb : T -> T -> bool) k (t : tensor T) o, weak_order lt -> tensor_ok t -> size (t_shape t) <> 0%nat ->
  exists ix r, reduce_all_arg (arg_comp lt) (arg_eq eqb) k (t_data t) (t_layout t) o = Ok (Z.of_nat r) /\
    nth_error (enum o (t_shape t)) r = Some ix /\ first_least lt (elem (t_data t) (t_layout t)) (t_shape t) ix.
Proof. exact l_argmin_ravel. Qed.
Example C31_example_ravel : reduce_all_arg (arg_comp Z.ltb) (arg_eq Z.eqb) Fixed [4; 1; 5; 1; 4; 1] (mkLayout [2; 3]%nat [1; 2] 0) RowMajor = Ok 3 /\ reduce_all_arg (arg_comp Z.ltb) (arg_eq Z.eqb) Fixed [4; 1; 5; 1; 4; 1] (mkLayout [2; 3]%nat [1; 2] 0) ColMajor = Ok 1.
Proof. split; reflexivity. Qed.
Print Assumptions C31_argmin_ravel.

(** C31: over axes, each remaining index gets the first extremum of its group. *)
Theorem C31_argmin_axes : forall (T : Type) (lt eqb : T -> T -> bool) dflt dio k (t : tensor T) axes ax, weak_order lt -> tensor_ok t -> size (t_shape t) <> 0%nat ->
  Forall2 (axis_denotes (ndim (t_layout t))) axes ax -> NoDup ax -> dio = OC \/ dio = OF \/ dio = OK ->
  exists out laxes lout, reduce_axes_unraveled_arg (arg_comp lt) (arg_eq eqb) dflt dio k (t_data t) (t_layout t) axes = Ok (out, laxes, lout) /\
    l_shape laxes = pick ax 0%nat (t_shape t) /\ l_shape lout = pick (axes_except (ndim (t_layout t)) ax) 0%nat (t_shape t) /\
    tensor_ok (mkTensor out lout) /\ length out = size (l_shape lout) /\
    forall mx, valid (l_shape lout) mx -> exists sx, elem out lout mx = Some sx /\
      first_least lt (fun sx => elem (t_data t) (t_layout t) (merge (ndim (t_layout t)) ax sx mx)) (pick ax 0%nat (t_shape t)) sx.
Proof. exact l_argmin_axes. Qed.
Example C31_example_axes : reduce_axes_unraveled_arg (arg_comp Z.ltb) (arg_eq Z.eqb) RowMajor OK Fixed [4; 1; 5; 1; 4; 1] (mkLayout [2; 3]%nat [1; 2] 0) [-1] = Ok ([[0]; [0]]%nat, mkLayout [3]%nat [2] 0, mkLayout [2]%nat [1] 0).
Proof. reflexivity. Qed.
Print Assumptions C31_argmin_axes.

(** C31: over axes, an empty tensor is an error. *)
Theorem C31_argmin_axes_empty : forall (T : Type) (lt eqb : T -> T -> bool) dflt dio k (t : tensor T) axes, size (t_shape t) = 0%nat ->
  reduce_axes_unraveled_arg (arg_comp lt) (arg_eq eqb) dflt dio k (t_data t) (t_layout t) axes = Err InvalidLayout.
Proof. exact l_argmin_axes_empty. Qed.
Print Assumptions C31_argmin_axes_empty.

(** C31: the parallel version over one axis with non-negative stride.  Missing: several summed axes and reversed axes, see the next two theorems. *)
Theorem C31_argmin_axes_parallel_partial : forall (T : Type) (lt eqb : T -> T -> bool) switch tr dflt dio k (t : tensor T) axes ax, weak_order lt -> tensor_ok t -> size (t_shape t) <> 0%nat ->
  Forall2 (axis_denotes (ndim (t_layout t))) axes [ax] -> 0 <= nth ax (l_stride (t_layout t)) 0 -> dio = OC \/ dio = OF \/ dio = OK ->
  exists out laxes lout, reduce_axes_unraveled_arg_rayon (arg_comp lt) (arg_eq eqb) switch tr dflt dio k (t_data t) (t_layout t) axes = Ok (out, laxes, lout) /\
    l_shape laxes = pick [ax] 0%nat (t_shape t) /\ l_shape lout = pick (axes_except (ndim (t_layout t)) [ax]) 0%nat (t_shape t) /\
    tensor_ok (mkTensor out lout) /\ length out = size (l_shape lout) /\
    forall mx, valid (l_shape lout) mx -> exists sx, elem out lout mx = Some sx /\
      first_least lt (fun sx => elem (t_data t) (t_layout t) (merge (ndim (t_layout t)) [ax] sx mx)) (pick [ax] 0%nat (t_shape t)) sx.
Proof. exact l_argmin_axes_rayon. Qed.
Print Assumptions C31_argmin_axes_parallel_partial.

(** C31: above the parallel threshold the summed axes are permuted but the index is not permuted back: argmin of a 32x32 array over both axes returns [1, 0], which holds 5, while the minimum 0 is at [0, 1]. *)
Theorem C31_argmin_axes_parallel_refuted : let t := mkTensor (5 :: 0 :: repeat 5 1022) (mkLayout [32; 32]%nat [32; 1] 0) in
  let r := reduce_axes_unraveled_arg_rayon (arg_comp Z.ltb) (arg_eq Z.eqb) 1024 (fun _ => Leaf) RowMajor OK Dyn (t_data t) (t_layout t) [0; 1] in
  tensor_ok t /\ elem (t_data t) (t_layout t) [0; 1]%nat = Some 0 /\ elem (t_data t) (t_layout t) [1; 0]%nat = Some 5 /\
  match r with Ok (out, laxes, lout) => elem out lout [] = Some [1; 0]%nat | _ => False end.
Proof. exact l_argmin_axes_rayon_refuted. Qed.
Print Assumptions C31_argmin_axes_parallel_refuted.

(** C31: above the threshold a reversed axis makes the code read outside the storage (a panic). *)
Theorem C31_argmin_axes_parallel_flipped_refuted : let t := mkTensor (repeat 5 1024) (mkLayout [1024]%nat [-1] 1023) in tensor_ok t /\
  reduce_axes_unraveled_arg_rayon (arg_comp Z.ltb) (arg_eq Z.eqb) 1024 (fun _ => Leaf) RowMajor OK Dyn (t_data t) (t_layout t) [0] = Panic.
Proof. exact l_argmin_axes_rayon_flipped_refuted. Qed.
Print Assumptions C31_argmin_axes_parallel_flipped_refuted.

(** C32: reducing over axes gives, at every remaining index, the fold of exactly the elements sharing that index; shape and validity of the result included.  Missing: broadcast and empty inputs, see the refuted theorems below. *)
Theorem C32_reduce_axes_partial : forall (T S O : Type) (e : S) (op : S -> S -> S) (h : T -> S) (f : S -> T -> S) (fout : S -> O) dflt (t : tensor T) axes ax,
  comm_monoid e op -> (forall s x, f s x = op s (h x)) -> tensor_ok t -> size (t_shape t) <> 0%nat -> no_broadcast (t_layout t) ->
  Forall2 (axis_denotes (ndim (t_layout t))) axes ax -> NoDup ax ->
  exists out lo, reduce_axes e f op fout dflt OK (t_data t) (t_layout t) axes = Ok (out, lo) /\ tensor_new out lo = Ok (mkTensor out lo) /\ tensor_ok (mkTensor out lo) /\
    l_shape lo = pick (axes_except (ndim (t_layout t)) ax) 0%nat (t_shape t) /\
    forall mx xs, valid (l_shape lo) mx -> elements (t_data t) (t_layout t) (group (t_shape t) ax mx) xs -> elem out lo mx = Some (fout (total e op (map h xs))).
Proof. exact l_reduce_axes. Qed.
Example C32_example : tensor_ok ex_r /\ no_broadcast (t_layout ex_r) /\ Forall2 (axis_denotes 2) [-1] [1]%nat /\ elements (t_data ex_r) (t_layout ex_r) (group (t_shape ex_r) [1]%nat [0]%nat) [3; 5; 7] /\
  reduce_axes 0 Z.add Z.add (fun x => x) RowMajor OK (t_data ex_r) (t_layout ex_r) [-1] = Ok ([15; 12], mkLayout [2]%nat [1] 0).
Proof. split; [concrete_tensor|]. split; [intros [|[|k]] Hk; cbn in *; lia|]. split; [repeat constructor; cbn; lia|]. split; [vm_compute; repeat constructor|]. reflexivity. Qed.
Print Assumptions C32_reduce_axes_partial.

(** C32: every group has its list of elements. *)
Theorem C32_group_elements : forall (T : Type) (t : tensor T) ax mx, tensor_ok t -> exists xs, elements (t_data t) (t_layout t) (group (t_shape t) ax mx) xs.
Proof. exact l_group_elements. Qed.
Print Assumptions C32_group_elements.

(** C32: the same for the parallel kernel, for every schedule of the sums and every order of the writes.  Missing: as above. *)
Theorem C32_reduce_axes_parallel_partial : forall (T S O : Type) (e : S) (op : S -> S -> S) (h : T -> S) (f : S -> T -> S) (fout : S -> O) switch tr dflt (t : tensor T) axes ax r,
  comm_monoid e op -> (forall s x, f s x = op s (h x)) -> tensor_ok t -> size (t_shape t) <> 0%nat -> no_broadcast (t_layout t) ->
  Forall2 (axis_denotes (ndim (t_layout t))) axes ax -> NoDup ax -> reduce_axes_rayon e f op fout switch tr dflt OK (t_data t) (t_layout t) axes r ->
  exists out lo, r = Ok (out, lo) /\ tensor_new out lo = Ok (mkTensor out lo) /\ tensor_ok (mkTensor out lo) /\
    l_shape lo = pick (axes_except (ndim (t_layout t)) ax) 0%nat (t_shape t) /\
    forall mx xs, valid (l_shape lo) mx -> elements (t_data t) (t_layout t) (group (t_shape t) ax mx) xs -> elem out lo mx = Some (fout (total e op (map h xs))).
Proof. exact l_reduce_axes_rayon. Qed.
Print Assumptions C32_reduce_axes_parallel_partial.

(** C32: sum_axes and prod_axes, with axes given as one axis, a list or none (all axes).  Missing: as above. *)
Theorem C32_sum_axes_partial : forall (T : Type) (zero : T) add dflt k (t : tensor T), comm_monoid zero add -> tensor_ok t ->
  (forall xs, elements (t_data t) (t_layout t) (row_major (t_shape t)) xs ->
     exists t', reduce_axes_f (sum_all zero add k t) (sum_axes dflt OK zero add t) AxNone = Ok t' /\ t_shape t' = [] /\ elem (t_data t') (t_layout t') [] = Some (total zero add xs)) /\
  (forall axes ax, size (t_shape t) <> 0%nat -> no_broadcast (t_layout t) -> axes <> AxNone -> Forall2 (axis_denotes (ndim (t_layout t))) (axes_list axes) ax -> NoDup ax ->
     exists t', reduce_axes_f (sum_all zero add k t) (sum_axes dflt OK zero add t) axes = Ok t' /\ tensor_ok t' /\
       t_shape t' = pick (axes_except (ndim (t_layout t)) ax) 0%nat (t_shape t) /\
       forall mx xs, valid (t_shape t') mx -> elements (t_data t) (t_layout t) (group (t_shape t) ax mx) xs -> elem (t_data t') (t_layout t') mx = Some (total zero add xs)).
Proof. exact l_sum_axes. Qed.
Example C32_example_sum : sum_axes RowMajor OK 0 Z.add (mkTensor [1; 2; 3; 4; 5; 6] (mkLayout [2; 3]%nat [3; 1] 0)) [0] = Ok ([5; 7; 9], mkLayout [3]%nat [1] 0)
  /\ sum_axes RowMajor OK 0 Z.add (mkTensor [1; 2; 3; 4; 5; 6] (mkLayout [2; 3]%nat [3; 1] 0)) [-1] = Ok ([6; 15], mkLayout [2]%nat [1] 0).
Proof. split; reflexivity. Qed.
Print Assumptions C32_sum_axes_partial.

(** C32: mean_axes divides by the number of summed elements.  Missing: as above. *)
Theorem C32_mean_axes_partial : forall (T : Type) (zero : T) add div dflt (t : tensor T) axes ax, comm_monoid zero add -> tensor_ok t -> size (t_shape t) <> 0%nat -> no_broadcast (t_layout t) ->
  Forall2 (axis_denotes (ndim (t_layout t))) axes ax -> NoDup ax ->
  exists out lo, mean_axes dflt OK zero add div t axes = Ok (out, lo) /\ l_shape lo = pick (axes_except (ndim (t_layout t)) ax) 0%nat (t_shape t) /\
    forall mx xs, valid (l_shape lo) mx -> elements (t_data t) (t_layout t) (group (t_shape t) ax mx) xs -> elem out lo mx = Some (div (total zero add xs) (length xs)).
Proof. exact l_mean_axes. Qed.
Print Assumptions C32_mean_axes_partial.

(** C32: summing over a broadcast axis multiplies by the extent of a remaining axis instead: three rows [5, 7] sum to [10, 14] instead of [15, 21]. *)
Theorem C32_broadcast_refuted : let t := mkTensor [5; 7] (mkLayout [3; 2]%nat [0; 1] 0) in
  tensor_ok t /\ elements (t_data t) (t_layout t) (group (t_shape t) [0]%nat [0]%nat) [5; 5; 5] /\
  exists out lo, sum_axes RowMajor OK 0 Z.add t [0] = Ok (out, lo) /\ l_shape lo = [2]%nat /\ elem out lo [0]%nat = Some 10.
Proof. exact l_sum_axes_broadcast_refuted. Qed.
Print Assumptions C32_broadcast_refuted.

(** C32: or panics when there is no such axis. *)
Theorem C32_broadcast_panic_refuted : let t := mkTensor [5] (mkLayout [3]%nat [0] 0) in tensor_ok t /\ sum_axes RowMajor OK 0 Z.add t [0] = Panic.
Proof. exact l_sum_axes_broadcast_panic_refuted. Qed.
Print Assumptions C32_broadcast_panic_refuted.

(** C32: a broadcast remaining axis panics when the view has an offset, and is an error when other remaining axes are contiguous. *)
Theorem C32_broadcast_remaining_refuted :
  (let t := mkTensor [0; 5; 7] (mkLayout [2; 3]%nat [1; 0] 1) in tensor_ok t /\ sum_axes RowMajor OK 0 Z.add t [0] = Panic) /\
  (let t := mkTensor [5; 7; 8; 9] (mkLayout [2; 2; 3]%nat [2; 1; 0] 0) in tensor_ok t /\ sum_axes RowMajor OK 0 Z.add t [0] = Err Miscellaneous).
Proof. exact l_sum_axes_remaining_refuted. Qed.
Print Assumptions C32_broadcast_remaining_refuted.

(** C32: empty inputs panic. *)
Theorem C32_empty_refuted :
  (let t := mkTensor (@nil Z) (mkLayout [1; 0]%nat [1; 1] 0) in tensor_ok t /\ sum_axes RowMajor OK 0 Z.add t [1] = Panic) /\
  (let t := mkTensor (@nil Z) (mkLayout [3; 0; 2]%nat [0; 2; 1] 0) in tensor_ok t /\ sum_axes RowMajor OK 0 Z.add t [0] = Panic).
Proof. exact l_sum_axes_empty_refuted. Qed.
Print Assumptions C32_empty_refuted.
