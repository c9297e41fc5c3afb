(** Independent specification of selection by a list of indices or a mask (C41). *)
From Verif Require Import Base Spec M_Layout M_Tensor.

(** [r] is [t] with its axis [a] replaced by the positions listed in [idx] (negative ones count from the end). *)
Definition gathers {T} (a : nat) (idx : list Z) (t r : tensor T) : Prop :=
  t_shape r = upd (t_shape t) a (length idx) /\
  forall jx, valid (t_shape r) jx ->
    exists k v, index_denotes (nth (nth a jx 0) idx 0%Z) (nth a (t_shape t) 0) k /\ at_ t (upd jx a k) = Some v /\ at_ r jx = Some v.
(** The positions at which a mask is true, in order. *)
Definition trues (mask : list bool) : list nat := filter (fun i => nth i mask false) (seq 0 (length mask)).
