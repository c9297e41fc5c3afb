(** Dimension types (C122). *)
From Verif Require Import Base Spec.

(** The dimension types a tensor may have: a fixed number of axes, or any number known at run time only. *)
Inductive dimtype := Ix (n : nat) | IxD.
(** A layout of [nd] axes fits the dimension type. *)
Definition fits (d : dimtype) (nd : nat) : Prop := match d with Ix n => nd = n | IxD => True end.
