(** Property theorems about layouts (C01-C08, C12, C42, C46).  Statements use the vocabulary of Spec.v
    and the modelled entry points of M_Layout.v only. *)
From Verif Require Import Base Spec M_Layout Q_Layout.
Local Open Scope Z_scope.

(** C01: a layout accepted by Layout::new gives distinct indices distinct positions, except along stride-0 axes. *)
Theorem C01_new_layout_does_not_alias : forall sh st off l, 0 <= off -> layout_new sh st off = Ok l ->
  l = mkLayout sh st off /\ length st = length sh /\
  (forall i j, valid sh i -> valid sh j -> addr l i = addr l j ->
     forall k, (k < length sh)%nat -> nth k st 0 <> 0 -> nth k i 0%nat = nth k j 0%nat) /\
  ((forall k, (k < length sh)%nat -> (1 < nth k sh 0)%nat -> nth k st 0 <> 0) -> injective l).
Proof. exact new_no_alias. Qed.
Example C01_example : layout_new [3; 4]%nat [-8; 2] 20 = Ok (mkLayout [3; 4]%nat [-8; 2] 20).
Proof. reflexivity. Qed.
Example C01_example_rejected : layout_new [3; 4]%nat [3; 1] 0 = Err InvalidLayout.
Proof. reflexivity. Qed.
Print Assumptions C01_new_layout_does_not_alias.

(** C01, converse direction is false: some alias-free layouts are rejected. *)
Theorem C01_every_injective_layout_accepted_refuted : exists sh st off, 0 <= off /\ injective (mkLayout sh st off) /\ nonneg (mkLayout sh st off) /\
  layout_new sh st off = Err InvalidLayout.
Proof. exact new_incomplete. Qed.
Print Assumptions C01_every_injective_layout_accepted_refuted.

(** C02: bounds_index is the tight range of positions; it fails exactly when some element would lie below 0. *)
Theorem C02_bounds_are_exact : forall l, wf l ->
  (forall lo hi, bounds_index l = Ok (lo, hi) ->
     (size (l_shape l) <> 0%nat -> 0 <= lo) /\ (forall ix, valid (l_shape l) ix -> lo <= addr l ix < hi) /\
     (size (l_shape l) = 0%nat -> lo = hi) /\
     (size (l_shape l) <> 0%nat ->
        (exists ix, valid (l_shape l) ix /\ addr l ix = lo) /\ (exists ix, valid (l_shape l) ix /\ addr l ix = hi - 1))) /\
  ((exists e, bounds_index l = Err e) <-> exists ix, valid (l_shape l) ix /\ addr l ix < 0) /\
  bounds_index l <> Panic.
Proof. exact bounds_exact. Qed.
Example C02_example : bounds_index (mkLayout [3; 2; 6]%nat [3; -180; 15] 782) = Ok (602, 864).
Proof. reflexivity. Qed.
Print Assumptions C02_bounds_are_exact.

(** C03: indexing succeeds exactly for in-range Python indices and returns the element position. *)
Theorem C03_index_follows_python_rules : forall l ix, wf l -> nonneg l ->
  (forall r, index_f l ix = Ok r <->
     exists kx, length ix = ndim l /\
       Forall2 (fun id k => index_denotes (fst id) (snd id) k) (combine ix (l_shape l)) kx /\ r = addr l kx) /\
  index_f l ix <> Panic.
Proof. exact index_python. Qed.
Example C03_example : index_f (mkLayout [3; 4]%nat [-8; 2] 20) [-1; 1] = Ok 6.
Proof. reflexivity. Qed.
Example C03_example_out : index_f (mkLayout [3; 4]%nat [-8; 2] 20) [-4; 1] = Err IndexError.
Proof. reflexivity. Qed.
Print Assumptions C03_index_follows_python_rules.

(** C04: C/F-contiguous constructors number the elements consecutively in row-/column-major order. *)
Theorem C04_contiguous_layouts_enumerate_storage : forall ty s off, 0 <= off ->
  map (addr (new_c_contig ty s off)) (row_major s) = consecutive off (size s) /\
  map (addr (new_f_contig ty s off)) (col_major s) = consecutive off (size s) /\
  (forall o, wf (new_contig ty s off o) /\ l_shape (new_contig ty s off o) = s /\ injective (new_contig ty s off o)).
Proof. exact contig_bijection. Qed.
Example C04_example : map (addr (new_c_contig Fixed [2; 3]%nat 5)) (row_major [2; 3]%nat) = [5; 6; 7; 8; 9; 10].
Proof. reflexivity. Qed.
Print Assumptions C04_contiguous_layouts_enumerate_storage.

(** C05: c_contig / f_contig and the leading/trailing contiguous axis counts mean what they say. *)
Theorem C05_contiguity_predicates : forall l, wf l -> size (l_shape l) <> 0%nat ->
  (c_contig l = true <-> map (addr l) (row_major (l_shape l)) = consecutive (l_offset l) (size (l_shape l))) /\
  (f_contig l = true <-> map (addr l) (col_major (l_shape l)) = consecutive (l_offset l) (size (l_shape l))) /\
  (forall m, (m <= ndim l)%nat -> (m <= ndim_of_f_contig l)%nat <->
     f_contig (mkLayout (firstn m (l_shape l)) (firstn m (l_stride l)) (l_offset l)) = true) /\
  (forall m, (m <= ndim l)%nat -> (m <= ndim_of_c_contig l)%nat <->
     c_contig (mkLayout (skipn (ndim l - m) (l_shape l)) (skipn (ndim l - m) (l_stride l)) (l_offset l)) = true).
Proof. exact contig_predicates. Qed.
Example C05_example : c_contig (mkLayout [2; 1; 3]%nat [3; 77; 1] 4) = true /\ c_contig (mkLayout [2; 1; 3]%nat [4; 77; 1] 4) = false
  /\ ndim_of_c_contig (mkLayout [2; 1; 3]%nat [4; 77; 1] 4) = 2%nat.
Proof. repeat split. Qed.
Print Assumptions C05_contiguity_predicates.

(** C06: unravel_index_{f,c} is the enumeration of indices in column/row-major order, for both dimension types. *)
Theorem C06_unravel_enumerates : forall ty s k, (k < size s)%nat ->
  (forall ix, unravel_index_f ty s k = Ok ix <-> nth_error (col_major s) k = Some ix) /\
  (forall ix, unravel_index_c ty s k = Ok ix <-> nth_error (row_major s) k = Some ix).
Proof. exact unravel_enumerates. Qed.
Example C06_example : unravel_index_c Fixed [2; 3; 4; 5]%nat 77 = Ok [1; 0; 3; 2]%nat.
Proof. reflexivity. Qed.
Print Assumptions C06_unravel_enumerates.

(** C06: unravelling inverts the position map of the contiguous layout (row-major). *)
Theorem C06_unravel_inverts_c_position : forall ty s ix, valid s ix ->
  exists k, (k < size s)%nat /\ addr (new_c_contig ty s 0) ix = Z.of_nat k /\ unravel_index_c ty s k = Ok ix.
Proof. exact unravel_contig_position. Qed.
Print Assumptions C06_unravel_inverts_c_position.

(** C06: unravelling inverts the position map of the contiguous layout (column-major). *)
Theorem C06_unravel_inverts_f_position : forall ty s ix, valid s ix ->
  exists k, (k < size s)%nat /\ addr (new_f_contig ty s 0) ix = Z.of_nat k /\ unravel_index_f ty s k = Ok ix.
Proof. exact unravel_contig_position_f. Qed.
Print Assumptions C06_unravel_inverts_f_position.

(** C07: transpose gives the same elements under permuted indices, bijectively. *)
Theorem C07_transpose_relabels : forall l axes l', wf l -> transpose l axes = Ok l' ->
  wf l' /\ exists ax, Forall2 (axis_denotes (ndim l)) axes ax /\ Permutation ax (seq 0 (ndim l)) /\
  l_shape l' = pick ax 0%nat (l_shape l) /\
  (forall ix, valid (l_shape l) ix ->
     valid (l_shape l') (pick ax 0%nat ix) /\ addr l' (pick ax 0%nat ix) = addr l ix) /\
  (forall jx, valid (l_shape l') jx -> exists ix, valid (l_shape l) ix /\ jx = pick ax 0%nat ix).
Proof. exact transpose_full. Qed.
Example C07_example : transpose (mkLayout [2; 3; 4]%nat [12; 4; 1] 0) [-1; 0; 1] = Ok (mkLayout [4; 2; 3]%nat [1; 12; 4] 0).
Proof. reflexivity. Qed.
Print Assumptions C07_transpose_relabels.

(** C07: transpose accepts exactly the lists naming every axis once. *)
Theorem C07_transpose_accepts_exactly_permutations : forall l axes, wf l ->
  (exists l', transpose l axes = Ok l') <->
  (exists ax, Forall2 (axis_denotes (ndim l)) axes ax /\ Permutation ax (seq 0 (ndim l))).
Proof. exact transpose_accepts. Qed.
Print Assumptions C07_transpose_accepts_exactly_permutations.

(** C07: swapaxes exchanges two index positions and undoes itself. *)
Theorem C07_swapaxes_relabels : forall l a b l', wf l -> swapaxes l a b = Ok l' ->
  exists i j, axis_denotes (ndim l) a i /\ axis_denotes (ndim l) b j /\
  (forall ix jx, valid (l_shape l) ix -> length jx = ndim l ->
     nth i jx 0%nat = nth j ix 0%nat -> nth j jx 0%nat = nth i ix 0%nat ->
     (forall k, k <> i -> k <> j -> nth k jx 0%nat = nth k ix 0%nat) ->
     valid (l_shape l') jx /\ addr l' jx = addr l ix) /\
  swapaxes l' a b = Ok l.
Proof. exact swapaxes_elems. Qed.
Example C07_swap_example : swapaxes (mkLayout [2; 3; 4]%nat [12; 4; 1] 0) 0 (-1) = Ok (mkLayout [4; 3; 2]%nat [1; 4; 12] 0).
Proof. reflexivity. Qed.
Print Assumptions C07_swapaxes_relabels.

(** C07: reverse_axes reverses index tuples and undoes itself. *)
Theorem C07_reverse_axes_relabels : forall l, wf l -> reverse_axes (reverse_axes l) = l /\
  forall ix, valid (l_shape l) ix -> valid (l_shape (reverse_axes l)) (rev ix) /\ addr (reverse_axes l) (rev ix) = addr l ix.
Proof. exact reverse_full. Qed.
Print Assumptions C07_reverse_axes_relabels.

(** C08: permuting by ax and then by its inverse restores the layout. *)
Theorem C08_permutation_can_be_undone : forall l ax, wf l -> Permutation ax (seq 0 (ndim l)) ->
  exists l' ax', transpose l (map Z.of_nat ax) = Ok l' /\ Permutation ax' (seq 0 (ndim l)) /\
    pick ax' 0%nat ax = seq 0 (ndim l) /\ transpose l' (map Z.of_nat ax') = Ok l.
Proof. exact permutation_undo. Qed.
Example C08_example : Permutation [2; 0; 1]%nat (seq 0 (ndim (mkLayout [2; 3; 4]%nat [12; 4; 1] 7))).
Proof. cbn. apply perm_trans with [0; 2; 1]%nat; repeat constructor. Qed.
Print Assumptions C08_permutation_can_be_undone.

(** C12 (partial: excludes offsets strictly between the two extents, see the two refutations): diagonal is the sub-array of elements with (index along axis2) - (index along axis1) = offset. *)
Theorem C12_diagonal_partial : forall l off ax1 ax2 a1 a2 l', wf l ->
  let o := match off with Some o => o | None => 0 end in
  axis_denotes (ndim l) (match ax1 with Some a => a | None => 0 end) a1 ->
  axis_denotes (ndim l) (match ax2 with Some a => a | None => 1 end) a2 -> a1 <> a2 ->
  let d1 := Z.of_nat (nth a1 (l_shape l) 0%nat) in
  let d2 := Z.of_nat (nth a2 (l_shape l) 0%nat) in
  ~ (d1 <= o < d2) -> ~ (d2 < o < d1) ->
  diagonal l off ax1 ax2 = Ok l' ->
  let rest := axes_except (ndim l) [a1; a2] in
  (forall ix, valid (l_shape l) ix -> Z.of_nat (nth a2 ix 0%nat) - Z.of_nat (nth a1 ix 0%nat) = o ->
     let jx := pick rest 0%nat ix ++ [Nat.min (nth a1 ix 0%nat) (nth a2 ix 0%nat)] in
     valid (l_shape l') jx /\ addr l' jx = addr l ix) /\
  (forall jx, valid (l_shape l') jx -> exists ix, valid (l_shape l) ix /\
     Z.of_nat (nth a2 ix 0%nat) - Z.of_nat (nth a1 ix 0%nat) = o /\
     jx = pick rest 0%nat ix ++ [Nat.min (nth a1 ix 0%nat) (nth a2 ix 0%nat)]).
Proof. exact diagonal_diag. Qed.
Example C12_example : diagonal (mkLayout [3; 4; 5]%nat [20; 5; 1] 0) (Some (-1)) (Some 0) (Some (-1)) = Ok (mkLayout [4; 2]%nat [5; 21] 20).
Proof. reflexivity. Qed.
Print Assumptions C12_diagonal_partial.

(** C12 refuted for wide matrices: offset 3 of a 2x5 matrix gives an empty diagonal although elements exist. *)
Theorem C12_diagonal_wide_refuted : exists l l', wf l /\ l_shape l = [2; 5]%nat /\ diagonal l (Some 3) None None = Ok l' /\
  (exists ix, valid (l_shape l) ix /\ Z.of_nat (nth 1 ix 0%nat) - Z.of_nat (nth 0 ix 0%nat) = 3) /\
  forall jx, ~ valid (l_shape l') jx.
Proof. exact diagonal_wide_wrong. Qed.
Print Assumptions C12_diagonal_wide_refuted.

(** C12 refuted for tall matrices: offset 3 of a 5x2 matrix has no elements, but the result claims 2^64-1. *)
Theorem C12_diagonal_tall_refuted : exists l l', wf l /\ l_shape l = [5; 2]%nat /\ diagonal l (Some 3) None None = Ok l' /\
  (forall ix, valid (l_shape l) ix -> Z.of_nat (nth 1 ix 0%nat) - Z.of_nat (nth 0 ix 0%nat) <> 3) /\
  exists n, l_shape l' = [n] /\ Z.of_nat n = 2 ^ 64 - 1.
Proof. exact diagonal_tall_wrong. Qed.
Print Assumptions C12_diagonal_tall_refuted.

(** C42: axis lists are normalised by Python rules; duplicates rejected unless allowed; sorting sorts. *)
Theorem C42_normalize_axes_rules : forall nd v dup srt,
  (forall ax, normalize_axes_index (AxVec v) nd dup srt = Ok ax <->
     exists ax0, Forall2 (axis_denotes nd) v ax0 /\ (dup = true \/ NoDup ax0) /\
       (if srt then Permutation ax0 ax /\ StronglySorted le ax else ax = ax0)) /\
  normalize_axes_index (AxVec v) nd dup srt <> Panic.
Proof. exact normalize_axes_rules. Qed.
Example C42_example : normalize_axes_index (AxVec [-1; 0]) 3 false true = Ok [0; 2]%nat.
Proof. reflexivity. Qed.
Example C42_example_dup : normalize_axes_index (AxVec [-1; 2]) 3 false false = Err InvalidValue.
Proof. reflexivity. Qed.
Print Assumptions C42_normalize_axes_rules.

(** C46: == on layouts is an equivalence; equal layouts address the same elements; on non-empty layouts it is exactly that. *)
Theorem C46_layout_equality : forall a b, wf a -> wf b ->
  (layout_eqb a b = true -> l_shape a = l_shape b /\ forall ix, valid (l_shape a) ix -> addr a ix = addr b ix) /\
  (size (l_shape a) <> 0%nat -> l_shape a = l_shape b -> (forall ix, valid (l_shape a) ix -> addr a ix = addr b ix) ->
     layout_eqb a b = true) /\
  layout_eqb a a = true /\ (layout_eqb a b = true -> layout_eqb b a = true) /\
  (forall c, wf c -> layout_eqb a b = true -> layout_eqb b c = true -> layout_eqb a c = true).
Proof. exact layout_equality. Qed.
Example C46_example : layout_eqb (mkLayout [2; 1]%nat [1; 5] 0) (mkLayout [2; 1]%nat [1; 9] 0) = true.
Proof. reflexivity. Qed.
Print Assumptions C46_layout_equality.
