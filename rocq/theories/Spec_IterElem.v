(** Independent specification of iteration over elements *)
From Verif Require Import Base Spec.

(** What a history of calls is handed, in the order of the calls. *)
Definition handed {A} (outs : list (option A)) : list A := flat_map (fun o => match o with Some x => [x] | None => [] end) outs.
(** The history splits only within the sequence, and not at all if there is nothing to iterate over (splitting an empty iterator panics). *)
Definition fair {A} (ops : list iop) (xs : list A) : Prop := splits_within ops xs /\ (xs <> [] \/ Forall (fun op => op = Front \/ op = Back) ops).
