(** Specification of calls of a closure that keeps a state (C116). *)
From Coq Require Import List.
Import ListNotations.

(** Starting in state [s], the closure [g] is called once on each of [xs], in this order; it returns [ys] and is left in
    state [s']. *)
Inductive called {St A B} (g : St -> A -> St * B) : St -> list A -> St -> list B -> Prop :=
| called_none s : called g s [] s []
| called_once s x s1 y xs s' ys : g s x = (s1, y) -> called g s1 xs s' ys -> called g s (x :: xs) s' (y :: ys).
