(** Property theorems about indices and ranges of Rust's integer types (C120).  Statements use Spec.v, Spec_Range.v, [accepted] and the entry points
    of M_Indexer.v and M_Range.v only. *)
From Verif Require Import Base Spec Spec_Range M_Layout M_Indexer M_Range Q_Range.
Local Open Scope Z_scope.

(** C120: a range without negative bounds, of any of the integer types, selects the indices in it that exist, as long as its bounds are at most isize::MAX. *)
Theorem C120_range : forall t r l axis a, accepted l -> axis_denotes (ndim l) axis a -> bounds r (has_value t) -> bounds r (fun z => 0 <= z < 2 ^ 63) ->
  exists l', dim_narrow l axis (slice_of_range r) = Ok l' /\ l_shape l' = upd (l_shape l) a (count_of r (nth a (l_shape l) 0%nat)) /\
    forall jx, valid (l_shape l') jx -> let ix := upd jx a (first_of r + nth a jx 0)%nat in valid (l_shape l) ix /\ addr l' jx = addr l ix.
Proof. exact l_range. Qed.
Example C120_range_example : let l := mkLayout [2; 5]%nat [1; 2] 3 in accepted l /\ axis_denotes (ndim l) (-1) 1 /\ bounds (Between 2 4000000000) (has_value U32) /\
  dim_narrow l (-1) (slice_of_range (Between 2 4000000000)) = Ok (mkLayout [2; 3]%nat [1; 2] 7) /\ count_of (Between 2 4000000000) 5 = 3%nat.
Proof.
  cbv zeta. split; [split; [split; [reflexivity|cbn; lia]|reflexivity]|]. split; [split; [cbn; lia|cbn; lia]|]. split; [split; intros x; cbn; intros [= <-]; lia|].
  split; vm_compute; reflexivity.
Qed.
Print Assumptions C120_range.

(** C120: a range with any bounds up to isize::MAX, of a signed or unsigned type, selects what the Python slice with these bounds selects; negative bounds count from the end. *)
Theorem C120_range_python : forall t r l axis a, accepted l -> axis_denotes (ndim l) axis a -> bounds r (has_value t) -> bounds r (fun z => z < 2 ^ 63) ->
  let positions := py_slice (lower r) (upper r) 1 (nth a (l_shape l) 0%nat) in
  exists l', dim_narrow l axis (slice_of_range r) = Ok l' /\ l_shape l' = upd (l_shape l) a (length positions) /\
    forall jx, valid (l_shape l') jx -> exists i, nth_error positions (nth a jx 0%nat) = Some (Z.of_nat i) /\ valid (l_shape l) (upd jx a i) /\ addr l' jx = addr l (upd jx a i).
Proof. exact l_range_python. Qed.
Example C120_range_python_example : bounds (Between (-3) (-1)) (has_value I32) /\ py_slice (Some (-3)) (Some (-1)) 1 5 = [2; 3] /\
  dim_narrow (mkLayout [5]%nat [1] 0) 0 (slice_of_range (Between (-3) (-1))) = Ok (mkLayout [2]%nat [1] 2).
Proof. split; [split; intros x; cbn; intros [= <-]; lia|]. split; vm_compute; reflexivity. Qed.
Print Assumptions C120_range_python.

(** C120: a non-negative index up to isize::MAX selects its position, and is an error if the axis has no such position. *)
Theorem C120_index : forall t l axis a i, accepted l -> axis_denotes (ndim l) axis a -> has_value t i -> 0 <= i < 2 ^ 63 ->
  (i < Z.of_nat (nth a (l_shape l) 0%nat) -> exists l', dim_select l axis (as_isize i) = Ok l' /\ l_shape l' = remove_at (l_shape l) a /\
     forall jx, valid (l_shape l') jx -> addr l' jx = addr l (insert_at jx a (Z.to_nat i))) /\
  (Z.of_nat (nth a (l_shape l) 0%nat) <= i -> exists e, dim_select l axis (as_isize i) = Err e).
Proof. exact l_index. Qed.
Example C120_index_example : has_value U64 3 /\ dim_select (mkLayout [2; 5]%nat [1; 2] 3) 1 (as_isize 3) = Ok (mkLayout [2%nat] [1] 9) /\
  dim_select (mkLayout [2; 5]%nat [1; 2] 3) 1 (as_isize 5) = Err IndexError.
Proof. split; [unfold has_value; lia|]. split; vm_compute; reflexivity. Qed.
Print Assumptions C120_index.

(** C120, refuted beyond isize::MAX: an upper bound beyond the extent selects up to the end.  The usize or u64 bound is reinterpreted as a negative number: ..usize::MAX leaves out the last element. *)
Theorem C120_range_refuted : exists t b l, accepted l /\ has_value t b /\ Z.of_nat (nth 0 (l_shape l) 0%nat) < b /\
  exists l', dim_narrow l 0 (slice_of_range (To b)) = Ok l' /\ nth 0 (l_shape l') 0%nat = (nth 0 (l_shape l) 0 - 1)%nat.
Proof. exact l_range_refuted. Qed.
Print Assumptions C120_range_refuted.

(** C120, refuted beyond isize::MAX: an index beyond the extent is an error.  usize::MAX selects the last element. *)
Theorem C120_index_refuted : exists t i l, accepted l /\ has_value t i /\ Z.of_nat (nth 0 (l_shape l) 0%nat) < i /\ exists l', dim_select l 0 (as_isize i) = Ok l'.
Proof. exact l_index_refuted. Qed.
Print Assumptions C120_index_refuted.
