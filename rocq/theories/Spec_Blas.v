(** Independent specification of matrices held in storage, of the matrix operands of BLAS and LAPACK, and of linear systems. *)
From Verif Require Import Base Spec Spec_Matmul Spec_Tri.

(** FlagTrans (no transposition, transposition, conjugate transposition, conjugation only), FlagSide, rstsr-common/src/flags.rs *)
Inductive ftrans := NoTrans | Trans | ConjTrans | ConjOnly.
Inductive side := SLeft | SRight.

(** The storage [d] under the layout [l] holds the [m] by [n] matrix [A]. *)
Definition holds {T} (d : list T) (l : layout) (m n : nat) (A : nat -> nat -> T) : Prop :=
  l_shape l = [m; n] /\ forall i j, i < m -> j < n -> elem d l [i; j] = Some (A i j).
(** The rows of such a matrix. *)
Definition rows {T} (m n : nat) (A : nat -> nat -> T) : list (list T) := map (fun i => map (A i) (seq 0 n)) (seq 0 m).
Definition entry_at {T} (zero : T) (R : list (list T)) (i j : nat) : T := nth j (nth i R []) zero.

Section Operands.
  Context {T : Type} (zero one : T) (add mul : T -> T -> T) (conj re : T -> T).
  Definition sum_over (K : nat) (f : nat -> T) : T := total zero add (map f (seq 0 K)).
  (** [A], its transpose, its conjugate transpose *)
  Definition op_of (t : ftrans) (A : nat -> nat -> T) : nat -> nat -> T :=
    match t with NoTrans => A | Trans => fun i j => A j i | ConjTrans => fun i j => conj (A j i) | ConjOnly => fun i j => conj (A i j) end.
  Definition op_shape (t : ftrans) (m n : nat) : nat * nat := match t with NoTrans | ConjOnly => (m, n) | _ => (n, m) end.
  (** the triangular matrix stored in the triangle [u] of [A]; [unit]: with ones on the diagonal *)
  Definition triangular (u : uplo) (unit : bool) (A : nat -> nat -> T) (i j : nat) : T :=
    if unit && (i =? j) then one else if in_triangle u i j then A i j else zero.
  (** the symmetric (Hermitian) matrix stored in the triangle [u] of [A] *)
  Definition symmetric_from (hermi : bool) (u : uplo) (A : nat -> nat -> T) (i j : nat) : T :=
    if i =? j then (if hermi then re (A i i) else A i i)
    else if in_triangle u i j then A i j else if hermi then conj (A j i) else A j i.
  (** the product of an [m] by [K] and a [K] by [n] matrix *)
  Definition product (K : nat) (A B : nat -> nat -> T) (i j : nat) : T := sum_over K (fun k => mul (A i k) (B k j)).
  (** [X] solves [A X = B] ([X A = B] with [A] on the right); [A] is square and [X] and [B] are [m] by [n] *)
  Definition solves (s : side) (m n : nat) (A X B : nat -> nat -> T) : Prop :=
    forall i j, i < m -> j < n -> match s with SLeft => product m A X i j | SRight => product n X A i j end = B i j.
  Definition identity (i j : nat) : T := if i =? j then one else zero.
End Operands.
(** The matrix lies at the start of the storage without gaps, by rows or by columns. *)
Definition compact (l : layout) (m n : nat) : Prop :=
  (forall i j, i < m -> j < n -> addr l [i; j] = Z.of_nat (i * n + j)) \/ (forall i j, i < m -> j < n -> addr l [i; j] = Z.of_nat (i + j * m)).
