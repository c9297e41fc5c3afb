(** Property theorems about layout rearrangement (C21-C25).  Statements use Spec.v and the modelled entry points of
    M_Layout.v, M_Rearr.v and M_Iter.v only. *)
From Verif Require Import Base Spec M_Layout M_Rearr M_Iter Q_Rearr.
Local Open Scope Z_scope.

(** C21: a K-order (or G-order) iterator visits the same multiset of positions as row-major iteration. *)
Theorem C21_memory_order_visits_all : forall dflt k l o, accepted l -> o = OK \/ o = OG ->
  exists it ps, iter_layout_new dflt k l o = Ok it /\ collect it = Ok ps /\ Permutation ps (addrs RowMajor l).
Proof. exact l_k_order_iter. Qed.
Example C21_example : accepted (mkLayout [2; 3; 2]%nat [-6; 2; 0] 6)
  /\ (let* it := iter_layout_new RowMajor Fixed (mkLayout [2; 3; 2]%nat [-6; 2; 0] 6) OK in collect it) = Ok [0; 0; 2; 2; 4; 4; 6; 6; 8; 8; 10; 10]
  /\ addrs RowMajor (mkLayout [2; 3; 2]%nat [-6; 2; 0] 6) = [6; 6; 8; 8; 10; 10; 0; 0; 2; 2; 4; 4].
Proof. repeat split; cbn; lia. Qed.
Print Assumptions C21_memory_order_visits_all.

(** C21: translating to G order visits each reachable position once, whatever axes are broadcast. *)
Theorem C21_greedy_order_visits_distinct : forall dflt k l, accepted l -> size (l_shape l) <> 0%nat ->
  exists g ps, translate_unary dflt l OG = Ok g /\ dispatch_positions k g = Ok ps /\ NoDup ps /\ (forall z, In z ps <-> In z (addrs RowMajor l)).
Proof. exact l_g_order. Qed.
Example C21_example_g : accepted (mkLayout [2; 3; 2]%nat [-6; 2; 0] 6)
  /\ (let* g := translate_unary RowMajor (mkLayout [2; 3; 2]%nat [-6; 2; 0] 6) OG in dispatch_positions Dyn g) = Ok [6; 8; 10; 0; 2; 4].
Proof. repeat split; cbn; lia. Qed.
Print Assumptions C21_greedy_order_visits_distinct.

(** C22: joint iteration visits every logical index once and at each step all operands are at the same logical index; C (F) order is row-major (column-major) order. *)
Theorem C22_joint_iteration_aligned : forall dflt k ls o sh, ls <> [] -> Forall accepted ls -> Forall (fun l => l_shape l = sh) ls ->
  o = OC \/ o = OF \/ o = OK \/ (o = OA /\ sh <> []) ->
  exists ls' ixs, translate_to_col_major dflt ls o = Ok ls' /\ Permutation ixs (row_major sh) /\
    Forall2 (fun l l' => dispatch_positions k l' = Ok (map (addr l) ixs)) ls ls' /\
    (o = OC -> ixs = row_major sh) /\ (o = OF -> ixs = col_major sh).
Proof. exact l_joint. Qed.
Example C22_example : (let* ls := translate_to_col_major RowMajor [mkLayout [2; 3]%nat [-1; 2] 1; mkLayout [2; 3]%nat [3; 1] 0; mkLayout [2; 3]%nat [0; 1] 5] OK in map_res (dispatch_positions Fixed) ls)
   = Ok [[1; 3; 5; 0; 2; 4]; [0; 1; 2; 3; 4; 5]; [5; 6; 7; 5; 6; 7]]
   /\ Forall accepted [mkLayout [2; 3]%nat [-1; 2] 1; mkLayout [2; 3]%nat [3; 1] 0; mkLayout [2; 3]%nat [0; 1] 5].
Proof. split; [reflexivity|]. repeat constructor; cbn; lia. Qed.
Print Assumptions C22_joint_iteration_aligned.

(** C22: layouts of different shapes are rejected. *)
Theorem C22_shape_mismatch_rejected : forall dflt l1 l2 ls o, l_shape l1 <> l_shape l2 -> translate_to_col_major dflt (l1 :: l2 :: ls) o = Err InvalidLayout.
Proof. exact l_joint_mismatch. Qed.
Print Assumptions C22_shape_mismatch_rejected.

(** C22: order A is covered above except for 0-dimensional operands, where the code panics (shape[0] of an empty shape). *)
Theorem C22_order_a_scalar_refuted : exists l, accepted l /\ translate_to_col_major RowMajor [l; l] OA = Panic.
Proof. exact l_joint_order_a_refuted. Qed.
Print Assumptions C22_order_a_scalar_refuted.

(** C22: why order B is excluded from the claim: with a reversed operand it visits positions that belong to no logical index. *)
Theorem C22_order_b_refuted : exists l1 l2 ls' p1 p2, accepted l1 /\ accepted l2 /\ l_shape l1 = l_shape l2 /\
  translate_to_col_major RowMajor [l1; l2] OB = Ok ls' /\ map_res (dispatch_positions Fixed) ls' = Ok [p1; p2] /\
  ~ exists ixs, Forall (valid (l_shape l1)) ixs /\ p1 = map (addr l1) ixs /\ p2 = map (addr l2) ixs.
Proof. exact l_joint_order_b_refuted. Qed.
Print Assumptions C22_order_b_refuted.

(** C23: outer iteration with a contiguous inner run of length n visits, for every operand, the same positions in the same order as elementwise iteration. *)
Theorem C23_chunked_iteration : forall k ls ls' n sh, Forall (fun l => wf l /\ nonneg l) ls -> Forall (fun l => l_shape l = sh) ls ->
  with_contig ls = (ls', n) -> n <> 0%nat ->
  Forall2 (fun l l' => exists ps, dispatch_positions k l' = Ok ps /\ dispatch_positions k l = Ok (flat_map (fun p => consecutive p n) ps)) ls ls'.
Proof. exact l_contig. Qed.
Example C23_example : with_contig [mkLayout [2; 3; 2]%nat [1; 2; 6] 4; mkLayout [2; 3; 2]%nat [1; 2; 0] 0] = ([mkLayout [2]%nat [6] 4; mkLayout [2]%nat [0] 0], 6%nat).
Proof. reflexivity. Qed.
Print Assumptions C23_chunked_iteration.

(** C24: the result layout has the common shape, starts at 0, has non-negative strides, aliases only along axes broadcast in both operands, and covers exactly 0..n-1. *)
Theorem C24_binary_result_layout : forall la lb o, wf la -> wf lb -> l_shape la = l_shape lb ->
  exists lo, get_layout_for_binary_op la lb o = Ok lo /\ l_shape lo = l_shape la /\ l_offset lo = 0 /\ length (l_stride lo) = length (l_shape la) /\
    Forall (fun z => 0 <= z) (l_stride lo) /\
    (forall i j, valid (l_shape la) i -> valid (l_shape la) j ->
       (addr lo i = addr lo j <-> forall k, (k < ndim la)%nat -> both_broadcast la lb k = false -> nth k i 0%nat = nth k j 0%nat)) /\
    (size (l_shape la) <> 0%nat -> forall z, (exists ix, valid (l_shape la) ix /\ addr lo ix = z) <-> 0 <= z < Z.of_nat (size (own_extents la lb))).
Proof. exact l_binop_layout. Qed.
Example C24_example : get_layout_for_binary_op (mkLayout [2; 3; 1; 4]%nat [1; 0; 7; 2] 3) (mkLayout [2; 3; 1; 4]%nat [1; 0; 0; -2] 9) RowMajor = Ok (mkLayout [2; 3; 1; 4]%nat [1; 0; 2; 2] 0)
  /\ own_extents (mkLayout [2; 3; 1; 4]%nat [1; 0; 7; 2] 3) (mkLayout [2; 3; 1; 4]%nat [1; 0; 0; -2] 9) = [2; 1; 1; 4]%nat.
Proof. split; reflexivity. Qed.
Print Assumptions C24_binary_result_layout.

(** C24: operands of different shapes are rejected. *)
Theorem C24_shape_mismatch_rejected : forall la lb o, l_shape la <> l_shape lb -> get_layout_for_binary_op la lb o = Err InvalidLayout.
Proof. exact l_binop_mismatch. Qed.
Print Assumptions C24_shape_mismatch_rejected.

(** C25: the layout used for a copy has the source's shape and numbers the elements 0..size-1, each once. *)
Theorem C25_copy_layout_bijective : forall k dflt l o, accepted l -> o = OC \/ o = OF \/ o = OA \/ o = OK ->
  exists l', layout_for_array_copy k dflt l o = Ok l' /\ l_shape l' = l_shape l /\ l_offset l' = 0 /\
    Permutation (addrs RowMajor l') (consecutive 0 (size (l_shape l))).
Proof. exact l_copy_layout. Qed.
Example C25_example : layout_for_array_copy Fixed RowMajor (mkLayout [2; 3; 2]%nat [-6; 2; 0] 6) OK = Ok (mkLayout [2; 3; 2]%nat [6; 2; 1] 0)
  /\ addrs RowMajor (mkLayout [2; 3; 2]%nat [6; 2; 1] 0) = consecutive 0 12.
Proof. split; reflexivity. Qed.
Print Assumptions C25_copy_layout_bijective.
