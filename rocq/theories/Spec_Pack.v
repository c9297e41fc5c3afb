(** Specification vocabulary for packing into fixed arrays. *)
From Verif Require Import Base Spec M_Tensor.
Local Open Scope nat_scope.

(** [r] is [t] with its axis [a], of extent [n], packed into the elements: element ix of [r] is the array of the [n] elements of [t] at
    ix with k = 0, .., n-1 inserted at position [a]. *)
Definition packs {T} (n a : nat) (t : tensor T) (r : tensor (list T)) : Prop :=
  t_shape t = insert_at (t_shape r) a n /\
  forall ix, valid (t_shape r) ix -> exists xs, at_ r ix = Some xs /\ length xs = n /\ forall k, k < n -> nth_error xs k = at_ t (insert_at ix a k).
