(** Independent specification of arange (C48). *)
From Verif Require Import Base.
Local Open Scope Z_scope.

(** [z] comes before [stop] when counting with [step]. *)
Definition before (stop step z : Z) : Prop := (0 < step /\ z < stop) \/ (step < 0 /\ stop < z).
(** [r] is start, start + step, start + 2 step, ... up to, and not including, stop. *)
Definition evenly_spaced (start stop step : Z) (r : list Z) : Prop :=
  (forall i, (i < length r)%nat -> nth i r 0 = start + Z.of_nat i * step /\ before stop step (nth i r 0)) /\
  ~ before stop step (start + Z.of_nat (length r) * step).
