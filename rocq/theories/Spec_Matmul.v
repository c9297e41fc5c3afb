(** Independent specification of matrix products. *)
From Verif Require Import Base Spec.

(** A stack of matrices (a stack of vectors), as a shape or as an index: the matrix axes come last for row-major, first for column-major;
    [b] are the batch axes. *)
Definition mat (o : order) (b : list nat) (i j : nat) : list nat := match o with RowMajor => b ++ [i; j] | ColMajor => i :: j :: b end.
Definition vec (o : order) (b : list nat) (i : nat) : list nat := match o with RowMajor => b ++ [i] | ColMajor => i :: b end.

(** The array API's rules for the shape of a product (column-major: the same rules with the batch axes behind the matrix axes). *)
Inductive product_shape (o : order) : list nat -> list nat -> list nat -> Prop :=
| ps_dot : forall K, product_shape o [K] [K] []
| ps_vecmat : forall B K N, product_shape o [K] (mat o B K N) (vec o B N)
| ps_matvec : forall B M K, product_shape o (mat o B M K) [K] (vec o B M)
| ps_matmat : forall BA BB BC M K N, broadcasts o BA BB BC -> product_shape o (mat o BA M K) (mat o BB K N) (mat o BC M N).

(** [contracts o sa sb cx ts]: the element at [cx] of the product of arrays of shapes [sa] and [sb] is the sum over the pairs [(ax, bx)] of [ts] of
    a[ax] * b[bx]. *)
Inductive contracts (o : order) : list nat -> list nat -> list nat -> list (list nat * list nat) -> Prop :=
| ct_dot : forall K, contracts o [K] [K] [] (map (fun k => ([k], [k])) (seq 0 K))
| ct_vecmat : forall B K N bx n, contracts o [K] (mat o B K N) (vec o bx n) (map (fun k => ([k], mat o bx k n)) (seq 0 K))
| ct_matvec : forall B M K bx m, contracts o (mat o B M K) [K] (vec o bx m) (map (fun k => (mat o bx m k, [k])) (seq 0 K))
| ct_matmat : forall BA BB M K N bx m n, contracts o (mat o BA M K) (mat o BB K N) (mat o bx m n)
    (map (fun k => (mat o (source_index o BA bx) m k, mat o (source_index o BB bx) k n)) (seq 0 K)).

(** [vs] are the products a[ax] * b[bx] of the listed pairs. *)
Definition products {A B C} (mab : A -> B -> C) (a : list A) (la : layout) (b : list B) (lb : layout) (ts : list (list nat * list nat)) (vs : list C) : Prop :=
  Forall2 (fun t v => exists x y, elem a la (fst t) = Some x /\ elem b lb (snd t) = Some y /\ v = mab x y) ts vs.

Definition comm_semiring {C} (zero : C) (add mul : C -> C -> C) : Prop :=
  comm_monoid zero add /\ (forall x y, mul x y = mul y x) /\ (forall x y z, mul x (add y z) = add (mul x y) (mul x z)) /\ (forall x, mul zero x = zero).

(** An empty view may carry any offset and strides; this one does not point below the storage. *)
Definition anchored (l : layout) : Prop := size (l_shape l) = 0 -> (0 <= l_offset l)%Z /\ Forall (fun t => 0 <= t)%Z (l_stride l).
(** The batch ranks of two stacks of matrices agree. *)
Definition same_batch_rank (sa sb : list nat) : Prop := 3 <= length sa -> 3 <= length sb -> length sa = length sb.

(** The storage [c'] holds beta * c + alpha * a b, where [c] is the storage before; nothing else of the storage changed. *)
Definition is_product {A B C} (o : order) (mab : A -> B -> C) (zero : C) (add mul : C -> C -> C) (alpha beta : C)
  (a : list A) (la : layout) (b : list B) (lb : layout) (c : list C) (lc : layout) (c' : list C) : Prop :=
  untouched_outside lc c c' /\
  forall cx, valid (l_shape lc) cx -> exists ts vs z,
    contracts o (l_shape la) (l_shape lb) cx ts /\ products mab a la b lb ts vs /\ elem c lc cx = Some z /\
    elem c' lc cx = Some (add (mul beta z) (mul alpha (total zero add vs))).
(** The same for arithmetic without laws: the new entry is in relation [E] to the old one and the products that go into it, in the
    order of the summation index. *)
Definition is_product_by {A B C} (o : order) (mab : A -> B -> C) (E : C -> list C -> C -> Prop)
  (a : list A) (la : layout) (b : list B) (lb : layout) (c : list C) (lc : layout) (c' : list C) : Prop :=
  untouched_outside lc c c' /\
  forall cx, valid (l_shape lc) cx -> exists ts vs z v,
    contracts o (l_shape la) (l_shape lb) cx ts /\ products mab a la b lb ts vs /\ elem c lc cx = Some z /\
    elem c' lc cx = Some v /\ E z vs v.
