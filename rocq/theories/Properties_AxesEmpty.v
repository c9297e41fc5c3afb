(** Property theorems about iterating over axes when the views have no elements (C51).  Statements use Spec.v, Spec_Views.v and the modelled
    entry points of M_Manip.v only. *)
From Verif Require Import Base Spec Spec_Views M_Layout M_Indexer M_Rearr M_Iter M_Kernel M_Tensor M_Manip P_Strides P_Tensor Q_AxesEmpty.
Local Open Scope Z_scope.

(** One view per index of the iterated axes, in the requested order, and all histories of next, next_back and split_at, when the views have no elements and no iterated stride is negative. *)
Theorem C51_axes_iter_empty : forall dflt l axes v ax o, accepted l -> 0 <= l_offset l -> lists_axes axes v -> v <> [] -> Forall2 (axis_denotes (ndim l)) v ax -> NoDup ax ->
  size (pick (axes_except (ndim l) ax) 0%nat (l_shape l)) = 0%nat -> (forall a, In a ax -> 0 <= nth a (l_stride l) 0) ->
  exists it vs, axes_iter_new dflt l axes (match o with RowMajor => OC | ColMajor => OF end) = Ok it /\ axes_iter_views it = Ok vs /\
    Forall2 (shows_subarray l ax) (enum o (pick ax 0%nat (l_shape l))) vs /\
    forall ops, size (pick ax 0%nat (l_shape l)) <> 0%nat \/ Forall (fun op => op = Front \/ op = Back) ops -> splits_within ops vs ->
      exists it', axes_iter_run ops it = Ok (fst (deque ops vs), it') /\ axes_iter_views it' = Ok (snd (deque ops vs)).
Proof. exact l_axes_iter_empty. Qed.
Example C51_axes_iter_empty_example : accepted (mkLayout [3; 0; 2]%nat [2; 2; 1] 0) /\ size (pick (axes_except 3 [2; 0]%nat) 0%nat [3; 0; 2]%nat) = 0%nat /\ size (pick [2; 0]%nat 0%nat [3; 0; 2]%nat) = 6%nat /\
  (forall a, In a [2; 0]%nat -> 0 <= nth a [2; 2; 1] 0).
Proof. split; [split; [split; [reflexivity|cbn; lia]|reflexivity]|]. split; [reflexivity|]. split; [reflexivity|]. intros a [<-|[<-|[]]]; cbn; lia. Qed.
Print Assumptions C51_axes_iter_empty.

(** With a negative stride the positions of the empty views are negative and the iterator panics. *)
Theorem C51_axes_iter_empty_refuted : exists l it, accepted l /\ 0 <= l_offset l /\ axes_iter_new RowMajor l (AxVal 0) OC = Ok it /\ axes_iter_views it = Panic /\ size (pick (axes_except (ndim l) [0%nat]) 0%nat (l_shape l)) = 0%nat.
Proof. exact l_axes_iter_empty_refuted. Qed.
Print Assumptions C51_axes_iter_empty_refuted.

(** Iteration over axes with indices is offered in the orders C and F only; every other order is an error. *)
Theorem C51_indexed_axes_orders : forall dflt l axes v ax o, accepted l -> lists_axes axes v -> v <> [] -> Forall2 (axis_denotes (ndim l)) v ax -> NoDup ax -> size (pick (axes_except (ndim l) ax) 0%nat (l_shape l)) <> 0%nat ->
  (o = OC \/ o = OF <-> exists it, indexed_axes_new dflt l axes o = Ok it) /\ (o <> OC -> o <> OF -> indexed_axes_new dflt l axes o = Err InvalidValue).
Proof. exact l_indexed_axes_orders. Qed.
Example C51_indexed_axes_orders_example : accepted (mkLayout [3; 2]%nat [2; 1] 0) /\ lists_axes (AxVal 0) [0] /\ Forall2 (axis_denotes 2) [0] [0%nat] /\ NoDup [0%nat] /\ size (pick (axes_except 2 [0]%nat) 0%nat [3; 2]%nat) <> 0%nat /\
  indexed_axes_new RowMajor (mkLayout [3; 2]%nat [2; 1] 0) (AxVal 0) OK = Err InvalidValue.
Proof. split; [split; [split; [reflexivity|cbn; lia]|reflexivity]|]. split; [constructor|]. split; [repeat constructor; cbn; lia|]. split; [constructor; [easy|constructor]|]. split; [discriminate|reflexivity]. Qed.
Print Assumptions C51_indexed_axes_orders.
