(** What the BLAS and LAPACK wrappers promise about their operands and results, in terms of the tensors the caller passes and gets back. *)
From Verif Require Import Base Spec Spec_Matmul Spec_Tri Spec_Blas M_Layout M_Tensor M_Blas.
Local Open Scope Z_scope.

Definition nonempty (m n : nat) : Prop := m <> 0%nat /\ n <> 0%nat.
(** The storage of an operand starts with its first element, or the operand lies along neither order (then it is copied). *)
Definition at_start (l : layout) : Prop := l_offset l = 0 \/ c_prefer l = false /\ f_prefer l = false.
(** An output without broadcast axes that fills the start of its storage, or lies along neither order (then the result is copied into it). *)
Definition fillable (l : layout) (m n : nat) : Prop := ~ In 0 (l_stride l) /\ (compact l m n \/ c_prefer l = false /\ f_prefer l = false).
(** The optional output [c] of a product holds the [m] by [n] matrix [C]; without one, [C] is zero. *)
Definition output_ok {T} (c : option (tensor T)) (zero : T) (m n : nat) (C : nat -> nat -> T) : Prop :=
  match c with Some c => tensor_ok c /\ holds (t_data c) (t_layout c) m n C /\ fillable (t_layout c) m n | None => forall i j, (i < m)%nat -> (j < n)%nat -> C i j = zero end.
(** What an operation that may overwrite [target] returns: a new tensor without a target; with one, the target with new contents, and nothing else of its
    storage changed. *)
Definition delivered {T} (target : option (tensor T)) (y : mutable T) (m n : nat) (F : nat -> nat -> T) : Prop :=
  match target with
  | None => exists t, y = Owned t /\ tensor_ok t /\ holds (t_data t) (t_layout t) m n F
  | Some t0 => exists t, y = MutRef t /\ t_layout t = t_layout t0 /\ untouched_outside (t_layout t0) (t_data t0) (t_data t) /\ holds (t_data t) (t_layout t) m n F
  end.
(** A mutable view is to be overwritten, a view is not. *)
Definition target_of {T} (r : reference T) : option (tensor T) := match r with Ref _ => None | RMut t => Some t end.
(** The right-hand side of a triangular solve *)
Definition operand_ok {T} (r : reference T) (m n : nat) (B : nat -> nat -> T) : Prop :=
  tensor_ok (ref_of r) /\ holds (t_data (ref_of r)) (t_layout (ref_of r)) m n B /\ match r with Ref _ => True | RMut t => fillable (t_layout t) m n end.
(** An operand of LAPACK that may be overwritten: a mutable one lies along an order, or has no broadcast axis. *)
Definition overwritable (l : layout) : Prop := c_prefer l = true \/ f_prefer l = true \/ ~ In 0 (l_stride l).
Definition lapack_operand {T} (r : reference T) (m n : nat) (A : nat -> nat -> T) : Prop :=
  tensor_ok (ref_of r) /\ holds (t_data (ref_of r)) (t_layout (ref_of r)) m n A /\ match r with Ref _ => True | RMut t => overwritable (t_layout t) end.
Definition not_broadcast {T} (r : reference T) : Prop := match r with Ref _ => True | RMut t => ~ In 0 (l_stride (t_layout t)) end.
(** The triangle that is used: the caller's choice, by default the lower one on row-major devices and the upper one on column-major ones. *)
Definition chosen (dev : order) (u : option uplo) : uplo := match u with Some u => u | None => match dev with RowMajor => Lower | ColMajor => Upper end end.
Definition side_extent (s : side) (m n : nat) : nat := match s with SLeft => m | SRight => n end.
(** alpha P + beta C, and the product of [S] with [B] from the given side *)
Definition combined {T} (add mul : T -> T -> T) (alpha beta : T) (P C : nat -> nat -> T) (i j : nat) : T := add (mul alpha (P i j)) (mul beta (C i j)).
Definition side_product {T} (zero : T) (add mul : T -> T -> T) (s : side) (m n : nat) (S B : nat -> nat -> T) : nat -> nat -> T :=
  match s with SLeft => product zero add mul m S B | SRight => product zero add mul n B S end.
(** The library solves the triangular systems with the matrix [M]: of [M] or its transpose, from either side, in whichever form the matrix is passed. *)
Definition library_solves {T} (zero : T) (add mul : T -> T -> T) (conj : T -> T) (trsm_lib : side -> ftrans -> nat -> nat -> T -> list (list T) -> list (list T) -> nat -> nat -> T)
  (k : nat) (M : nat -> nat -> T) : Prop := forall s t m n alpha R B, k = side_extent s m n -> t <> ConjOnly ->
    (forall i j, (i < k)%nat -> (j < k)%nat -> op_of conj t R i j = M i j) \/ (forall i j, (i < k)%nat -> (j < k)%nat -> op_of conj t R i j = M j i) ->
    solves zero add mul s m n (op_of conj t R) (trsm_lib s t m n alpha (rows k k R) (rows m n B)) (fun i j => mul alpha (B i j)).
