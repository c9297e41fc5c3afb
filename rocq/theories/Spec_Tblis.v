(** Specification vocabulary for einsum and tensordot. *)
From Coq Require Import Ascii Permutation.
From Verif Require Import Base Spec Spec_Tensordot M_Layout M_Tensor M_Tblis.
Local Open Scope nat_scope.

(** [combined u f l x]: x is obtained from all the entries of [l], each used once, by applications of [f], in any order and grouping; from no
    entries one obtains [u]. *)
Inductive combined {T} (u : T) (f : T -> T -> T) : list T -> T -> Prop :=
| combined_none : combined u f [] u
| combined_one x : combined u f [x] x
| combined_two l l1 l2 x1 x2 : l1 <> [] -> l2 <> [] -> Permutation l (l1 ++ l2) -> combined u f l1 x1 -> combined u f l2 x2 -> combined u f l (f x1 x2).
(** an associative and commutative operation with a unit *)
Definition commutative_monoid {T} (u : T) (f : T -> T -> T) : Prop := (forall x y, f x y = f y x) /\ (forall x y z, f x (f y z) = f (f x y) z) /\ (forall x, f u x = x).

(** The subscripts [sub] name the axes of the operands by [ins] and those of the result by [out]: "ab,bc->ac"; blanks do not matter. *)
Fixpoint joined (ins : list (list ascii)) : list ascii :=
  match ins with [] => [] | [l] => l | l :: r => l ++ [","%char] ++ joined r end.
Definition spells (sub : list ascii) (ins : list (list ascii)) (out : list ascii) : Prop :=
  filter (fun c => negb (Ascii.eqb c " "%char)) sub = joined ins ++ ["-"%char; ">"%char] ++ out.
(** Names are letters (Spec_Tensordot); those of the result are distinct and occur in the operands. *)
Definition well_named (ins : list (list ascii)) (out : list ascii) : Prop :=
  Forall is_letter (concat ins) /\ NoDup out /\ forall c, In c out -> In c (concat ins).
(** the value of a name *)
Fixpoint value_of (names : list ascii) (ix : list nat) (c : ascii) : nat :=
  match names, ix with n :: names', i :: ix' => if Ascii.eqb n c then i else value_of names' ix' c | _, _ => 0 end.
(** [read k ix]: the element of operand k at index ix.  [x] is the entry at [ix] of the result: the sum, over all the values of the names that do
    not occur in the result, of the products of the operands' elements.  (The names are summed over in the order [summed], any order will do.) *)
Definition is_einsum {T} (zero one : T) (add mul : T -> T -> T) (ext : ascii -> nat) (ins : list (list ascii)) (out : list ascii)
    (read : nat -> list nat -> option T) (ix : list nat) (x : T) : Prop :=
  forall summed, NoDup summed -> (forall c, In c summed <-> In c (concat ins) /\ ~ In c out) ->
    exists terms, combined zero add terms x /\
      Forall2 (fun kx t => exists factors, combined one mul factors t /\ length factors = length ins /\
                 forall k names, nth_error ins k = Some names -> nth_error factors k = read k (map (value_of (out ++ summed) (ix ++ kx)) names))
              (row_major (map ext summed)) terms.

(** row- or column-major strides of a shape *)
Fixpoint row_strides (s : list nat) : list Z := match s with [] => [] | _ :: s' => Z.of_nat (size s') :: row_strides s' end.
Definition contiguous (o : order) (s : list nat) : layout := mkLayout s (match o with RowMajor => row_strides s | ColMajor => rev (row_strides (rev s)) end) 0%Z.
(** the memory TBLIS is given for one tensor *)
Definition tblis_layout {T} (t : tblis_tensor T) : layout := mkLayout (map Z.to_nat (tt_shape t)) (tt_stride t) (tt_ptr t).
Definition readable {T} (t : tblis_tensor T) (s : list nat) : Prop := tt_shape t = map Z.of_nat s /\ length (tt_stride t) = length s /\ inside (tblis_layout t) (length (tt_data t)).
Definition tblis_read {T} (ops : list (tblis_tensor T)) (k : nat) (ix : list nat) : option T :=
  match nth_error ops k with Some t => elem (tt_data t) (tblis_layout t) ix | None => None end.

(** What is assumed of TBLIS: given subscripts that fit the operands it succeeds; without an output it returns a vector in the requested order with
    the entries of the einsum, with an output of the right shape whose elements have distinct places it writes the entries there and nothing else. *)
Definition einsum_library {T} (zero one : T) (add mul : T -> T -> T) (lib : nat -> list ascii -> list (tblis_tensor T) -> bool -> option (tblis_tensor T) -> option (answer T)) : Prop :=
  forall threads sub ins out ext ops (rowmajor : bool), 0 < threads -> spells sub ins out -> well_named ins out -> ins <> [] ->
    Forall2 (fun names t => readable t (map ext names)) ins ops ->
    (exists v, let l := contiguous (if rowmajor then RowMajor else ColMajor) (map ext out) in
       lib threads sub ops rowmajor None = Some (Fresh v (map Z.of_nat (l_shape l)) (l_stride l)) /\ length v = size (map ext out) /\
       forall ix, valid (map ext out) ix -> exists x, elem v l ix = Some x /\ is_einsum zero one add mul ext ins out (tblis_read ops) ix x) /\
    (forall o, readable o (map ext out) -> injective (tblis_layout o) ->
       exists v, lib threads sub ops rowmajor (Some o) = Some (Wrote v) /\ untouched_outside (tblis_layout o) (tt_data o) v /\
       forall ix, valid (map ext out) ix -> exists x, elem v (tblis_layout o) ix = Some x /\ is_einsum zero one add mul ext ins out (tblis_read ops) ix x).

(** The elements of tensors. *)
Definition read_tensors {T} (ts : list (tensor T)) (k : nat) (ix : list nat) : option T := match nth_error ts k with Some t => at_ t ix | None => None end.
(** The entry of the tensor dot product over the axes [pa] of a and [pb] of b, at the index [ia] of the other axes of a and [ib] of those of b: the
    sum of the products over all the values of the contracted axes. *)
Definition is_tensordot {T} (zero : T) (add mul : T -> T -> T) (a b : tensor T) (pa pb ia ib : list nat) (x : T) : Prop :=
  exists terms, combined zero add terms x /\
    Forall2 (fun kx t => exists y z, at_ a (merge (length (t_shape a)) pa kx ia) = Some y /\ at_ b (merge (length (t_shape b)) pb kx ib) = Some z /\ (t = mul y z \/ t = mul z y))
            (row_major (pick pa 0 (t_shape a))) terms.
