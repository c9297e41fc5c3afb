(** Specification vocabulary for the subscripts of tensordot. *)
From Coq Require Import Ascii.
From Verif Require Import Base Spec M_Layout Spec_Views.
Local Open Scope nat_scope.

(** The second argument of tensordot: nothing, a number of axes, or two lists of axes.  rstsr-common/src/axes_pair_index.rs:4-8 *)
Inductive axes_pair := PairNone | PairVal (n : Z) | PairOf (a b : axes_index).
(** What it means for tensors of rank [da] and [db]: the axes [pa] of a are summed against the axes [pb] of b, in order.  A number n
    stands for the last n axes of a and the first n axes of b; nothing stands for 2. *)
Inductive contracts (da db : nat) : axes_pair -> list nat -> list nat -> Prop :=
| contract_two : 2 <= da -> 2 <= db -> contracts da db PairNone [da - 2; da - 1] [0; 1]
| contract_n n : n <= da -> n <= db -> contracts da db (PairVal (Z.of_nat n)) (seq (da - n) n) (seq 0 n)
| contract_lists a b va vb pa pb : lists_axes a va -> lists_axes b vb -> Forall2 (axis_denotes da) va pa -> Forall2 (axis_denotes db) vb pb ->
    NoDup pa -> NoDup pb -> contracts da db (PairOf a b) pa pb.
(** Labels of the axes of a, of b and of the output. *)
Record labelled (da db : nat) (pa pb : list nat) (la lb lo : list ascii) : Prop := {
  rank_a : length la = da;
  rank_b : length lb = db;
  distinct_a : NoDup la;
  distinct_b : NoDup lb;
  (* an axis of a and an axis of b carry the same label exactly if they are paired *)
  same_iff_paired : forall i j x y, nth_error la i = Some x -> nth_error lb j = Some y -> (x = y <-> In (i, j) (combine pa pb));
  (* the output has the free axes of a, then those of b *)
  output : forall d, lo = pick (axes_except da pa) d la ++ pick (axes_except db pb) d lb
}.
Definition is_letter (c : ascii) : Prop := let n := nat_of_ascii c in 97 <= n <= 122 \/ 65 <= n <= 90.
