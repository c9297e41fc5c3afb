(** Specification vocabulary for vecdot. *)
From Verif Require Import Base Spec M_Layout M_Tensor Spec_Views Spec_Tensordot.
Local Open Scope nat_scope.

(** What the axes argument of vecdot means for tensors of rank [da] and [db]: the axes [pa] of a are contracted with the axes [pb]
    of b, in order.  Nothing stands for the last axis of each; one number for the same axis of each, counted from the front if it is
    not negative and from the end if it is. *)
Inductive dot_axes (da db : nat) : axes_pair -> list nat -> list nat -> Prop :=
| dot_last : 1 <= da -> 1 <= db -> dot_axes da db PairNone [da - 1] [db - 1]
| dot_front n : n < da -> n < db -> dot_axes da db (PairVal (Z.of_nat n)) [n] [n]
| dot_back n : 1 <= n -> n <= da -> n <= db -> dot_axes da db (PairVal (- Z.of_nat n)) [da - n] [db - n]
| dot_lists a b va vb pa pb : lists_axes a va -> lists_axes b vb -> Forall2 (axis_denotes da) va pa -> Forall2 (axis_denotes db) vb pb ->
    NoDup pa -> NoDup pb -> length pa = length pb -> dot_axes da db (PairOf a b) pa pb.
(** The indices of an array of shape [s] with entries [mx] at all axes except [ax], in row-major order of the entries at [ax]. *)
Definition fibre (s ax mx : list nat) : list (list nat) := map (fun sx => merge (length s) ax sx mx) (row_major (pick ax 0 s)).
(** The extents of the axes other than [ax]. *)
Definition rest_of (s ax : list nat) : list nat := pick (axes_except (length s) ax) 0 s.
(** [v] is the sum over the contracted axes of [cmul] of the elements of a and b that belong to the index [mx] of the result: the
    elements of a whose remaining index broadcasts to [mx], paired with those of b. *)
Definition is_dot {A B C} (zero : C) (add : C -> C -> C) (cmul : A -> B -> C) (o : order) (a : tensor A) (b : tensor B) (pa pb mx : list nat) (v : C) : Prop :=
  exists xs ys,
    elements (t_data a) (t_layout a) (fibre (t_shape a) pa (source_index o (rest_of (t_shape a) pa) mx)) xs /\
    elements (t_data b) (t_layout b) (fibre (t_shape b) pb (source_index o (rest_of (t_shape b) pb) mx)) ys /\
    v = total zero add (map (fun p => cmul (fst p) (snd p)) (combine xs ys)).
(** The contraction is defined and has the shape [s]. *)
Definition contractible (o : order) (sa sb : list nat) (axes : axes_pair) (pa pb s : list nat) : Prop :=
  dot_axes (length sa) (length sb) axes pa pb /\ pick pa 0 sa = pick pb 0 sb /\ broadcasts o (rest_of sa pa) (rest_of sb pb) s.
