(** Independent specification of tables of distances and of the metrics. *)
From Verif Require Import Base Spec Spec_Blas M_Layout M_Tensor.

(** The first [k] entries of row [i]. *)
Definition row {T} (k : nat) (A : nat -> nat -> T) (i : nat) : list T := map (A i) (seq 0 k).
(** The storage [d] under the layout [l] holds the list [ws]. *)
Definition lists {T} (d : list T) (l : layout) (ws : list T) : Prop := l_shape l = [length ws] /\ forall j, j < length ws -> elem d l [j] = nth_error ws j.
(** The storage of a vector [l] of length [k] has no further cells, or the vector does not lie at the start of it with stride 1 (then it is copied before use). *)
Definition own_storage (l : layout) (cells k : nat) : Prop := cells = k \/ l_offset l <> 0%Z \/ (k <> 1 /\ l_stride l <> [1%Z]).
(** The operands of a table of distances: [a] holds the [m] by [k] matrix [A], [b] the [n] by [k] matrix [B], and the weights [w] (if any) hold the list [ws]
    of [k] numbers; without weights every entry weighs [one]. *)
Definition given {T W} (one : W) (a b : tensor T) (w : option (tensor W)) (m n k : nat) (A B : nat -> nat -> T) (ws : list W) : Prop :=
  tensor_ok a /\ tensor_ok b /\ holds (t_data a) (t_layout a) m k A /\ holds (t_data b) (t_layout b) n k B /\ k <> 0 /\
  match w with
  | None => ws = repeat one k
  | Some w => length ws = k /\ tensor_ok w /\ lists (t_data w) (t_layout w) ws /\ own_storage (t_layout w) (length (t_data w)) k
  end.
Definition weighted {T} (w : option T) : bool := match w with Some _ => true | None => false end.
(** The result is a new [m] by [n] tensor, contiguous in the order [o], whose entry [i, j] is [V i j]. *)
Definition gives {T} (r : res (tensor T)) (o : order) (m n : nat) (V : nat -> nat -> T) : Prop :=
  exists t, r = Ok t /\ tensor_ok t /\ length (t_data t) = m * n /\ addrs o (t_layout t) = consecutive 0 (m * n) /\ holds (t_data t) (t_layout t) m n V.
(** Some order in which every cell is computed once. *)
Definition schedule (sigma : list (nat * nat) -> list (nat * nat)) : Prop := forall cells, Permutation (sigma cells) cells.

Section Formulas.
  Context {T R : Type} (zero one two : R) (add sub mul div max : R -> R -> R) (is_zero : R -> bool).
  Definition sum_list (xs : list R) : R := fold_left add xs zero.
  (** corresponding entries of [u] and [v] with their weights *)
  Definition triples (u v : list T) (w : list R) : list (T * T * R) := combine (combine u v) w.
  (** the sum over corresponding entries *)
  Definition sum_over_pairs (f : T -> T -> R -> R) (u v : list T) (w : list R) : R :=
    sum_list (map (fun x => f (fst (fst x)) (snd (fst x)) (snd x)) (triples u v w)).
  (** the total weight of the corresponding entries with a property; without weights (all one) their number *)
  Definition amount (p : T -> T -> bool) (u v : list T) (w : list R) : R :=
    sum_list (map snd (filter (fun x => p (fst (fst x)) (snd (fst x))) (triples u v w))).
  Definition greatest (xs : list R) : R := fold_left max xs zero.
  (** the total weight: the number of entries without weights *)
  Definition total {X} (of_size : nat -> R) (w : option X) (k : nat) (ws : list R) : R := if weighted w then sum_list ws else of_size k.
End Formulas.
