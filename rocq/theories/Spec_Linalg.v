(** Independent specification of singular value decompositions, eigenvalue problems, determinants and pseudo-inverses. *)
From Coq Require Import Ring_theory.
From Verif Require Import Base Spec Spec_Matmul Spec_Tri Spec_Blas M_Layout M_Tensor.

(** A tensor that is the [m] by [n] matrix [A], the vector of the [n] values [f]. *)
Definition is_matrix {T} (t : tensor T) (m n : nat) (A : nat -> nat -> T) : Prop := tensor_ok t /\ holds (t_data t) (t_layout t) m n A.
Definition is_vector {T} (t : tensor T) (n : nat) (f : nat -> T) : Prop := tensor_ok t /\ t_shape t = [n] /\ forall i, i < n -> at_ t [i] = Some (f i).

Section Decompositions.
  Context {T R : Type} (zero one : T) (add mul : T -> T -> T) (conj : T -> T) (scale : T -> R -> T).
  Notation product := (product zero add mul).
  (** [A] = [U] diag([s]) [V], with [k] singular values; [scale x r] is the product of a scalar and a real number *)
  Definition decomposes (m n k : nat) (A U : nat -> nat -> T) (s : nat -> R) (V : nat -> nat -> T) : Prop :=
    forall i j, i < m -> j < n -> product k (fun i l => scale (U i l) (s l)) V i j = A i j.
  (** the first [k] columns of the [m]-row matrix [U] (rows of the [n]-column matrix [V]) are orthonormal *)
  Definition orthonormal_columns (m k : nat) (U : nat -> nat -> T) : Prop :=
    forall a b, a < k -> b < k -> product m (op_of conj ConjTrans U) U a b = identity zero one a b.
  Definition orthonormal_rows (k n : nat) (V : nat -> nat -> T) : Prop :=
    forall a b, a < k -> b < k -> product n V (op_of conj ConjTrans V) a b = identity zero one a b.
  (** the columns of [V] are eigenvectors of [S] for the eigenvalues [w] *)
  Definition eigen (n : nat) (S V : nat -> nat -> T) (w : nat -> R) : Prop :=
    forall i j, i < n -> j < n -> product n S V i j = scale (V i j) (w j).
  (** the three generalised problems: S v = w B v, S B v = w v, B S v = w v *)
  Definition eigen_general (itype : Z) (n : nat) (S B V : nat -> nat -> T) (w : nat -> R) : Prop :=
    forall i j, i < n -> j < n ->
    if (itype =? 1)%Z then product n S V i j = scale (product n B V i j) (w j)
    else if (itype =? 2)%Z then product n S (product n B V) i j = scale (V i j) (w j)
    else product n B (product n S V) i j = scale (V i j) (w j).
  (** [B] is the Moore-Penrose inverse of the [m] by [n] matrix [A] *)
  Definition penrose (m n : nat) (A B : nat -> nat -> T) : Prop :=
    (forall i j, i < m -> j < n -> product m (product n A B) A i j = A i j) /\
    (forall i j, i < n -> j < m -> product n (product m B A) B i j = B i j) /\
    (forall i j, i < m -> j < m -> conj (product n A B j i) = product n A B i j) /\
    (forall i j, i < n -> j < n -> conj (product m B A j i) = product m B A i j).
  (** [conj] is an involution of the ring (the identity for real scalars); [emb] embeds the real numbers, [scale] multiplies by and [div] divides by them *)
  Definition conjugation : Prop := (forall x y, conj (add x y) = add (conj x) (conj y)) /\ (forall x y, conj (mul x y) = mul (conj x) (conj y)) /\ forall x, conj (conj x) = x.
  Definition real_scalars (emb : R -> T) (div : T -> R -> T) : Prop :=
    (forall x r, scale x r = mul x (emb r)) /\ (forall r, conj (emb r) = emb r) /\ forall x r, emb r <> zero -> mul (div x r) (emb r) = x.
End Decompositions.

Section Determinants.
  Context {T : Type} (zero one : T) (add mul : T -> T -> T).
  (** [A] with its row [r] replaced by [x] *)
  Definition with_row (A : nat -> nat -> T) (r : nat) (x : nat -> T) (i j : nat) : T := if i =? r then x j else A i j.
  (** [D] is the determinant of [n] by [n] matrices: it depends on the [n] * [n] entries, is linear in each row, vanishes if two rows are equal, and is 1 at the
      identity. *)
  Definition is_determinant (n : nat) (D : (nat -> nat -> T) -> T) : Prop :=
    (forall A B, (forall i j, i < n -> j < n -> A i j = B i j) -> D A = D B) /\
    (forall A r c x y, r < n -> D (with_row A r (fun j => add (mul c (x j)) (y j))) = add (mul c (D (with_row A r x))) (D (with_row A r y))) /\
    (forall A r s, r < n -> s < n -> r <> s -> (forall j, j < n -> A r j = A s j) -> D A = zero) /\
    D (identity zero one) = one.
  (** The determinant, by expansion along the first column. *)
  Definition minor (i : nat) (A : nat -> nat -> T) (r c : nat) : T := A (if r <? i then r else S r) (S c).
  Fixpoint determinant (opp : T -> T) (n : nat) (A : nat -> nat -> T) : T :=
    match n with
    | 0 => one
    | S k => sum_over zero add (S k) (fun i => mul (if Nat.even i then A i 0 else opp (A i 0)) (determinant opp k (minor i A)))
    end.
  (** [A] with the rows [r] and [s] exchanged; the exchanges of a list of (1-based) pivots, of row [i], [i] + 1, ... *)
  Definition exchanged (A : nat -> nat -> T) (r s : nat) (i j : nat) : T := if i =? r then A s j else if i =? s then A r j else A i j.
  Fixpoint pivoted (i : nat) (p : list Z) (A : nat -> nat -> T) : nat -> nat -> T :=
    match p with [] => A | q :: p => pivoted (S i) p (exchanged A i (Z.to_nat (q - 1))) end.
  (** [F] and [p] are LAPACK's factorisation of [A]: P A = L U, with L (unit lower) and U stored in [F], U with a nonzero diagonal *)
  Definition lu_factored (n : nat) (A F : nat -> nat -> T) (p : list Z) : Prop :=
    length p = n /\ Forall (fun q => 1 <= q <= Z.of_nat n)%Z p /\
    (forall i j, i < n -> j < n -> product zero add mul n (triangular zero one Lower true F) (triangular zero one Upper false F) i j = pivoted 0 p A i j) /\
    forall i, i < n -> F i i <> zero.
End Determinants.

(** Sign and modulus: [scale x r] is the product of a scalar and a real number, [exp] and [log] turn sums into products of moduli. *)
Definition polar {T R} (zero one : T) (mul : T -> T -> T) (opp sgn : T -> T) (abs : T -> R) (radd rmul : R -> R -> R) (rzero rone : R) (log exp : R -> R) (scale : T -> R -> T) : Prop :=
  (forall x, scale (sgn x) (abs x) = x) /\
  (forall x y, sgn (mul x y) = mul (sgn x) (sgn y)) /\ sgn one = one /\ (forall x, sgn (opp x) = opp (sgn x)) /\
  (forall x y, abs (mul x y) = rmul (abs x) (abs y)) /\ abs one = rone /\ (forall x, abs (opp x) = abs x) /\
  (forall a b, exp (radd a b) = rmul (exp a) (exp b)) /\ exp rzero = rone /\ (forall x, x <> zero -> exp (log (abs x)) = abs x).

(** The singular values above the tolerance atol + rtol * (the largest of them) are the first [r] of [k]. *)
Definition cut_off {R} (radd rmul : R -> R -> R) (rmax : R -> R -> R) (rlow : R) (k : nat) (s : nat -> R) (atol rtol : R) : R := radd atol (rmul rtol (total rlow rmax (map s (seq 0 k)))).
Definition numerical_rank {R} (rgt : R -> R -> bool) (k : nat) (s : nat -> R) (cut : R) (r : nat) : Prop :=
  r <= k /\ (forall l, l < r -> rgt (s l) cut = true) /\ (r = k \/ rgt (s r) cut = false).
