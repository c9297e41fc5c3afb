(** Specification vocabulary for view-producing functions (C38, C51): how axes are given and what a view shows. *)
From Verif Require Import Base Spec M_Layout.
Local Open Scope Z_scope.

(** The axes a caller gives: one number, or a list of numbers. *)
Inductive lists_axes : axes_index -> list Z -> Prop :=
| one_axis a : lists_axes (AxVal a) [a]
| axis_list v : lists_axes (AxVec v) v.
(** [l'] is [l] without its unit axes [ax]. *)
Definition is_squeezed (l : layout) (ax : list nat) (l' : layout) : Prop :=
  accepted l' /\ l_shape l' = pick (axes_except (ndim l) ax) 0%nat (l_shape l) /\
  forall ix, valid (l_shape l) ix -> addr l' (pick (axes_except (ndim l) ax) 0%nat ix) = addr l ix.
(** The sub-view [w] shows the elements of [l] whose index is [sx] on the axes [ax] *)
Definition shows_subarray (l : layout) (ax sx : list nat) (w : layout) : Prop :=
  l_shape w = pick (axes_except (ndim l) ax) 0%nat (l_shape l) /\
  forall jx, valid (l_shape w) jx -> valid (l_shape l) (merge (ndim l) ax sx jx) /\ addr w jx = addr l (merge (ndim l) ax sx jx).
