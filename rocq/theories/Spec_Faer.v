(** What the linear algebra functions of the faer device promise. *)
From Verif Require Import Base Spec Spec_Matmul Spec_Tri Spec_Blas Spec_Linalg M_Layout M_Tensor M_Faer.

(** The degree of parallelism inside a call: that of the device's pool, on a thread of rayon's the global one. *)
Definition active (pool : option nat) (g : par) : par := match pool with Some n => ParRayon n | None => g end.
(** A function whose main step is a call of faer's with outcome [r]: with a result [x], it returns some [y] related to it and the global degree of parallelism
    is [g] as before; an error becomes a FaerError and a panic goes through. *)
Definition outcome {X Y} (r : res X) (pool : option nat) (g : par) (run : globally Y) (P : X -> Y -> Prop) : Prop :=
  match r with
  | Ok x => exists y, run g = (Ok y, g) /\ P x y
  | Err _ => run g = (Err FaerError, active pool g)
  | Panic => run g = (Panic, active pool g)
  end.
(** A successful call leaves the global degree as it was. *)
Definition restores {X} (run : globally X) : Prop := forall g x g', run g = (Ok x, g') -> g' = g.
(** A call leaves it as it was, whatever its outcome. *)
Definition always_restores {X} (run : globally X) : Prop := forall g r g', run g = (r, g') -> g' = g.
Definition lower {T} (zero : T) (n : nat) (L : nat -> nat -> T) : Prop := forall i j, i < n -> j < n -> i < j -> L i j = zero.
Definition upper {T} (zero : T) (n : nat) (L : nat -> nat -> T) : Prop := forall i j, i < n -> j < n -> j < i -> L i j = zero.
(** [L] is the Cholesky factor of [B]: lower, with a nonzero diagonal, and L L^H = B *)
Definition cholesky_of {T} (zero : T) (add mul : T -> T -> T) (conj : T -> T) (n : nat) (B L : nat -> nat -> T) : Prop :=
  lower zero n L /\ (forall i, i < n -> L i i <> zero) /\ forall i j, i < n -> j < n -> product zero add mul n L (op_of conj ConjTrans L) i j = B i j.
(** The routine solves triangular systems with a nonzero diagonal. *)
Definition solves_triangles {T} (zero one : T) (add mul : T -> T -> T) (tri_lib : par -> uplo -> nat -> nat -> list (list T) -> nat -> nat -> list (list T) -> option (nat -> nat -> T)) : Prop :=
  forall g u n p L B, (forall i, i < n -> L i i <> zero) -> exists X, tri_lib g u n n (rows n n (triangular zero one u false L)) n p (rows n p B) = Some X /\
    solves zero add mul SLeft n p (triangular zero one u false L) X B.
(** A comparison of real numbers: always defined (no NaN), total and transitive.  [Some Gt]: greater. *)
Definition ordered {R} (rcmp : R -> R -> option comparison) : Prop :=
  (forall a b, rcmp a b <> None) /\ (forall a b, rcmp a b = Some Gt -> rcmp b a <> Some Gt) /\ forall a b c, rcmp a b <> Some Gt -> rcmp b c <> Some Gt -> rcmp a c <> Some Gt.
(** the greatest of [k] numbers *)
Definition greatest {R} (rcmp : R -> R -> option comparison) (k : nat) (s : nat -> R) (m : R) : Prop := (exists l, l < k /\ m = s l) /\ forall l, l < k -> rcmp (s l) m <> Some Gt.
