(** Independent specification of joining tensors (C37). *)
From Verif Require Import Base Spec M_Layout M_Tensor.

(** Two shapes that differ at most in the extent of axis [a]. *)
Definition alike (a : nat) (s1 s2 : list nat) : Prop := length s1 = length s2 /\ forall k, k <> a -> nth k s1 0 = nth k s2 0.
(** Arrays of the shapes [ss] can be joined along [axis], which is axis number [a]: there is at least one, and they differ at most
    in their extent along that axis. *)
Definition can_concat (ss : list (list nat)) (axis : Z) (a : nat) : Prop :=
  exists s0 rest, ss = s0 :: rest /\ axis_denotes (length s0) axis a /\ Forall (alike a s0) ss.
(** Extent of a tensor along an axis, and the sum of the extents of the first [i] tensors of a list: where the i-th one starts. *)
Definition along {T} (a : nat) (t : tensor T) : nat := nth a (t_shape t) 0.
Definition start {T} (a : nat) (ts : list (tensor T)) (i : nat) : nat := list_sum (map (along a) (firstn i ts)).
(** [r] is the tensors [ts] side by side along axis [a]: the position p of an element of [r] along that axis falls into the range of
    positions of exactly one operand, the i-th, and the element is the one of that operand at local position p - start. *)
Definition side_by_side {T} (a : nat) (ts : list (tensor T)) (r : tensor T) : Prop :=
  Forall (fun t => alike a (t_shape t) (t_shape r)) ts /\ along a r = start a ts (length ts) /\
  forall jx, valid (t_shape r) jx ->
    exists i t v, nth_error ts i = Some t /\ start a ts i <= nth a jx 0 < start a ts i + along a t /\
      let ix := upd jx a (nth a jx 0 - start a ts i) in valid (t_shape t) ix /\ at_ t ix = Some v /\ at_ r jx = Some v.
(** [r] is the tensors [ts], all of one shape, stacked along a new axis [a]: position i along it is the i-th tensor. *)
Definition stacked {T} (a : nat) (ts : list (tensor T)) (r : tensor T) : Prop :=
  Forall (fun t => t_shape r = insert_at (t_shape t) a (length ts)) ts /\
  forall i t ix, nth_error ts i = Some t -> valid (t_shape t) ix -> exists v, at_ t ix = Some v /\ at_ r (insert_at ix a i) = Some v.
(** [u] is [t] with new axes of extent 1 at the positions [ax]. *)
Definition with_unit_axes {T} (ax : list nat) (t u : tensor T) : Prop :=
  length (t_shape u) = length (t_shape t) + length ax /\ (forall a, In a ax -> nth a (t_shape u) 0 = 1) /\
  pick (axes_except (length (t_shape u)) ax) 0 (t_shape u) = t_shape t /\
  forall jx, valid (t_shape u) jx ->
    let ix := pick (axes_except (length (t_shape u)) ax) 0 jx in valid (t_shape t) ix /\ at_ u jx = at_ t ix.
