(** Model of the conversions of integers and ranges to indexers, rstsr-common/src/layout/slice.rs:37-90 and indexer.rs:23-53, on a 64-bit platform. *)
From Verif Require Import Base Spec Spec_Range M_Layout M_Indexer.
Local Open Scope Z_scope.

(** [v as isize] for a value of one of the six types: the bits are kept, u32 and i32 are extended *)
Definition as_isize (v : Z) : Z := if v <? 2 ^ 63 then v else v - 2 ^ 64.
(** From<Slice<t>> for Slice<isize>, slice.rs:37-49 *)
Definition slice_from (s : slice) : slice := mkSlice (option_map as_isize (sl_start s)) (option_map as_isize (sl_stop s)) (option_map as_isize (sl_step s)).
(** From<Range<T>>, From<RangeFrom<T>>, From<RangeTo<T>> and From<RangeFull> for SliceI, slice.rs:53-90.  Range<isize> goes through From<T> for T, the identity,
    which [as_isize] is on isize. *)
Definition slice_of_range (r : range) : slice :=
  match r with
  | Between a b => slice_from (mkSlice (Some a) (Some b) None)
  | From a => slice_from (mkSlice (Some a) None None)
  | To b => slice_from (mkSlice None (Some b) None)
  | Everything => mkSlice None None None
  end.
(** From<R> and From<t> for Indexer, indexer.rs:23-30, 41-53 *)
Definition indexer_of_range (r : range) : indexer := ISlice (slice_of_range r).
Definition indexer_of_int (v : Z) : indexer := ISelect (as_isize v).
