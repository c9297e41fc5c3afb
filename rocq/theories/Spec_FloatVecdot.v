(** Which products add up to an entry of the dot product of two floating-point tensors. *)
From Coq Require Import List.
From Verif Require Import Base Spec Spec_Tensordot Spec_Vecdot M_Layout M_Tensor P_Tensor M_Float.
Import ListNotations.

(** the pairs of elements of a and b that are multiplied for the entry [mx] of the result: along the axes [pa] of a and [pb] of b, at the
    position that mx gives on the axes left *)
Definition paired {t} (o : order) (a b : tensor (float t)) (pa pb mx : list nat) (ps : list (float t * float t)) : Prop :=
  exists xs ys, elements (t_data a) (t_layout a) (fibre (t_shape a) pa (source_index o (rest_of (t_shape a) pa) mx)) xs /\
    elements (t_data b) (t_layout b) (fibre (t_shape b) pb (source_index o (rest_of (t_shape b) pb) mx)) ys /\ ps = combine xs ys.
