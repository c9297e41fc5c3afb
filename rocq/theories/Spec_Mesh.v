(** Independent specification of joint broadcasting of arrays (C14) and of coordinate grids (C60). *)
From Verif Require Import Base Spec M_Layout M_Tensor.

(** [s] is the shape that the shapes [ss] broadcast to: as long as the longest, and along every axis (aligned as the order says)
    the one extent other than 1 that occurs among them, or 1. *)
Definition common_shape (o : order) (ss : list (list nat)) (s : list nat) : Prop :=
  length s = fold_right Nat.max 0 (map (@length nat) ss) /\
  forall k, (forall s', In s' ss -> ext o s' k = 1 \/ ext o s' k = ext o s k) /\ (ext o s k = 1 \/ exists s', In s' ss /\ ext o s' k = ext o s k).
(** [r] shows the elements of [t] broadcast to the shape [s]. *)
Definition shown_as {T} (o : order) (s : list nat) (t r : tensor T) : Prop :=
  tensor_ok r /\ t_shape r = s /\
  forall jx, valid s jx -> valid (t_shape t) (source_index o (t_shape t) jx) /\ at_ r jx = at_ t (source_index o (t_shape t) jx).
(** The axis along which the [i]-th of [n] coordinate vectors varies: with Cartesian ("xy") indexing the first two trade places. *)
Definition mesh_axis (xy : bool) (n i : nat) : nat :=
  if xy && (2 <=? n) then match i with 0 => 1 | 1 => 0 | _ => i end else i.
(** [rs] are the coordinate grids of the vectors [ts]: all of one shape, whose extent along the axis of each vector is the length of
    that vector; the [i]-th grid holds at [jx] the element of the [i]-th vector selected by the coordinate of [jx] along its axis. *)
Definition is_mesh {T} (xy : bool) (ts rs : list (tensor T)) : Prop :=
  let n := length ts in length rs = n /\
  forall i t, nth_error ts i = Some t ->
    exists r, nth_error rs i = Some r /\ tensor_ok r /\ length (t_shape r) = n /\
      (forall j u, nth_error ts j = Some u -> t_shape u = [nth (mesh_axis xy n j) (t_shape r) 0]) /\
      forall jx, valid (t_shape r) jx -> at_ r jx = at_ t [nth (mesh_axis xy n i) jx 0].
