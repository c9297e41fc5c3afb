(** Independent specification of the creation functions (C47, C58). *)
From Verif Require Import Base Spec M_Layout M_Tensor.

(** The k-th diagonal of an m x n matrix: the cells (i, j) with j - i = k.  Its first row and column and its number of cells. *)
Definition diag_row (k : Z) : nat := Z.to_nat (- k).
Definition diag_col (k : Z) : nat := Z.to_nat k.
Definition diag_len (m n : nat) (k : Z) : nat := Nat.min (m - diag_row k) (n - diag_col k).
(** The diagonals the code gets right: not those above the last row of a wide matrix, nor those more than one past the last column
    of a tall matrix (which are empty). *)
Definition diag_ok (m n : nat) (k : Z) : Prop := (~ (Z.of_nat m <= k < Z.of_nat n) /\ ~ (Z.of_nat n < k < Z.of_nat m))%Z.
(** All elements of a tensor are [x]. *)
Definition all_are {T} (x : T) (t : tensor T) : Prop := forall ix, valid (t_shape t) ix -> at_ t ix = Some x.
