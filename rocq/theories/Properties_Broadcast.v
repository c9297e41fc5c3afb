(** Property theorems about broadcasting and reshaping (C13-C16).  Statements use Spec.v and the modelled entry points
    of M_Broadcast.v and M_Reshape.v only. *)
From Verif Require Import Base Spec M_Layout M_Broadcast M_Reshape Q_Broadcast Q_Reshape.
Local Open Scope Z_scope.

(** C13: the common shape is exactly the one NumPy's rule gives, aligned at the last (row-major) or first (column-major) axis. *)
Theorem C13_broadcast_shape_is_numpy_rule : forall o s1 s2 s, broadcast2 o s1 s2 = Ok s <-> broadcasts o s1 s2 s.
Proof. exact l_broadcast_spec. Qed.
Example C13_example : broadcast2 RowMajor [4; 1; 3]%nat [2; 3]%nat = Ok [4; 2; 3]%nat /\ broadcast2 ColMajor [3; 1; 4]%nat [3; 2]%nat = Ok [3; 2; 4]%nat
  /\ broadcast2 RowMajor [1; 0]%nat [5; 1]%nat = Ok [5; 0]%nat.
Proof. repeat split. Qed.
Print Assumptions C13_broadcast_shape_is_numpy_rule.

(** C13: broadcasting two shapes never panics and succeeds exactly when every aligned pair of extents is equal or contains a 1. *)
Theorem C13_broadcast_shape_defined : forall o s1 s2,
  broadcast2 o s1 s2 <> Panic /\
  (is_ok (broadcast2 o s1 s2) = true <-> (forall k, ext o s1 k = ext o s2 k \/ ext o s1 k = 1%nat \/ ext o s2 k = 1%nat)).
Proof. exact l_broadcast_defined. Qed.
Example C13_example_undefined : is_ok (broadcast2 RowMajor [2; 3]%nat [2; 1; 4]%nat) = false.
Proof. reflexivity. Qed.
Print Assumptions C13_broadcast_shape_defined.

(** C13: operand order does not matter, neither for the shape nor for failing. *)
Theorem C13_broadcast_shape_commutative : forall o s1 s2, broadcast2 o s1 s2 = broadcast2 o s2 s1.
Proof. exact l_broadcast_comm. Qed.
Print Assumptions C13_broadcast_shape_commutative.

(** C13: grouping does not matter, neither for the shape nor for failing. *)
Theorem C13_broadcast_shape_associative : forall o a b c,
  (let* ab := broadcast2 o a b in broadcast2 o ab c) = (let* bc := broadcast2 o b c in broadcast2 o a bc).
Proof. exact l_broadcast_assoc. Qed.
Example C13_example_assoc : (let* ab := broadcast2 RowMajor [3; 1]%nat [1; 4]%nat in broadcast2 RowMajor ab [2; 1; 1]%nat) = Ok [2; 3; 4]%nat.
Proof. reflexivity. Qed.
Print Assumptions C13_broadcast_shape_associative.

(** C13: broadcasting a list of shapes gives the shape in which every extent is the common value of the aligned extents different from 1. *)
Theorem C13_broadcast_shapes_rule : forall o shapes out, shapes <> [] ->
  (broadcast_shapes shapes o = Ok out <->
   (length out = fold_right Nat.max 0%nat (map (@length nat) shapes) /\
    forall k, (forall s, In s shapes -> ext o s k = 1%nat \/ ext o s k = ext o out k) /\
              (ext o out k = 1%nat \/ exists s, In s shapes /\ ext o s k = ext o out k))).
Proof. exact l_broadcast_many. Qed.
Example C13_example_many : broadcast_shapes [[3; 1]; [1; 4]; [2; 1; 1]]%nat RowMajor = Ok [2; 3; 4]%nat.
Proof. reflexivity. Qed.
Print Assumptions C13_broadcast_shapes_rule.

(** C13: the order of the list does not matter. *)
Theorem C13_broadcast_shapes_order_independent : forall o p q, Permutation p q -> broadcast_shapes p o = broadcast_shapes q o.
Proof. exact l_broadcast_perm. Qed.
Print Assumptions C13_broadcast_shapes_order_independent.

(** C13: the predicate 'can be broadcast to'. *)
Theorem C13_broadcastable_to : forall s1 s2, broadcastable_to s1 s2 = true <-> broadcasts RowMajor s1 s2 s2.
Proof. exact l_broadcastable_to. Qed.
Example C13_example_to : broadcastable_to [3; 1]%nat [2; 3; 4]%nat = true /\ broadcastable_to [2; 3; 4]%nat [3; 1]%nat = false.
Proof. split; reflexivity. Qed.
Print Assumptions C13_broadcastable_to.

(** C13: the predicate 'can be broadcast from'. *)
Theorem C13_broadcastable_from : forall s1 s2, broadcastable_from s1 s2 = true <-> broadcasts RowMajor s2 s1 s1.
Proof. exact l_broadcastable_from. Qed.
Print Assumptions C13_broadcastable_from.

(** C14: broadcasting two arrays against each other succeeds exactly when their shapes are compatible; both results have the common shape and show, at every index, the element of the source at the truncated/zeroed index. *)
Theorem C14_broadcast_operands : forall o l1 l2, wf l1 -> wf l2 ->
  match broadcast_layout l1 l2 o with
  | Ok (r1, r2) =>
      exists s, broadcasts o (l_shape l1) (l_shape l2) s /\ l_shape r1 = s /\ l_shape r2 = s /\ wf r1 /\ wf r2 /\
      forall ix, valid s ix ->
        valid (l_shape l1) (source_index o (l_shape l1) ix) /\ addr r1 ix = addr l1 (source_index o (l_shape l1) ix) /\
        valid (l_shape l2) (source_index o (l_shape l2) ix) /\ addr r2 ix = addr l2 (source_index o (l_shape l2) ix)
  | Err _ => forall s, ~ broadcasts o (l_shape l1) (l_shape l2) s
  | Panic => False
  end.
Proof. exact l_broadcast_layout. Qed.
Example C14_example : exists r1 r2, broadcast_layout (mkLayout [3; 1]%nat [2; 5] 1) (mkLayout [2; 1; 4]%nat [4; 4; 1] 0) RowMajor = Ok (r1, r2)
  /\ r1 = mkLayout [2; 3; 4]%nat [0; 2; 0] 1 /\ r2 = mkLayout [2; 3; 4]%nat [4; 0; 1] 0 /\ source_index RowMajor [3; 1]%nat [1; 2; 3]%nat = [2; 0]%nat.
Proof. do 2 eexists. repeat split. Qed.
Print Assumptions C14_broadcast_operands.

(** C14: broadcasting one array to a requested shape succeeds exactly when that shape is the common shape, and shows the same elements. *)
Theorem C14_broadcast_to_shape : forall o l shape, wf l ->
  match into_broadcast l shape o with
  | Ok r => broadcasts o (l_shape l) shape shape /\ l_shape r = shape /\ wf r /\
      forall ix, valid shape ix -> valid (l_shape l) (source_index o (l_shape l) ix) /\ addr r ix = addr l (source_index o (l_shape l) ix)
  | Err _ => ~ broadcasts o (l_shape l) shape shape
  | Panic => False
  end.
Proof. exact l_into_broadcast. Qed.
Example C14_example_to : into_broadcast (mkLayout [3]%nat [-1] 2) [2; 3]%nat RowMajor = Ok (mkLayout [2; 3]%nat [0; -1] 2)
  /\ into_broadcast (mkLayout [3]%nat [-1] 2) [3; 2]%nat RowMajor = Err InvalidLayout /\ into_broadcast (mkLayout [3]%nat [-1] 2) [3; 2]%nat ColMajor = Ok (mkLayout [3; 2]%nat [-1; 0] 2).
Proof. repeat split. Qed.
Print Assumptions C14_broadcast_to_shape.

(** C14/C40: broadcast operands stay inside the storage of their sources. *)
Theorem C14_broadcast_stays_inside : forall o l1 l2 r1 r2 m1 m2, wf l1 -> wf l2 -> broadcast_layout l1 l2 o = Ok (r1, r2) ->
  inside l1 m1 -> inside l2 m2 -> inside r1 m1 /\ inside r2 m2.
Proof. exact l_broadcast_inside. Qed.
Print Assumptions C14_broadcast_stays_inside.

(** C15: a reshape served without copying has the requested shape, and lists the same elements in the same order as the source. *)
Theorem C15_reshape_preserves_order : forall o l shape l', wf l -> layout_reshapeable l shape o = Ok (Some l') ->
  l_shape l' = shape /\ wf l' /\ addrs o l' = addrs o l.
Proof. exact l_reshape_order. Qed.
Example C15_example : layout_reshapeable (mkLayout [4; 6; 2]%nat [20; -3; 1] 30) [2; 2; 3; 4]%nat RowMajor = Ok None
  /\ layout_reshapeable (mkLayout [4; 6; 2]%nat [20; -6; -3] 60) [2; 2; 3; 1; 4]%nat RowMajor = Ok (Some (mkLayout [2; 2; 3; 1; 4]%nat [40; 20; -12; -12; -3] 60))
  /\ layout_reshapeable (mkLayout [4; 6]%nat [20; 3] 0) [4; 2; 3]%nat ColMajor = Ok (Some (mkLayout [4; 2; 3]%nat [20; 3; 6] 0)).
Proof. repeat split. Qed.
Print Assumptions C15_reshape_preserves_order.

(** C15/C40: the result stays inside the storage of the source. *)
Theorem C15_reshape_stays_inside : forall o l shape l' n, wf l -> layout_reshapeable l shape o = Ok (Some l') -> inside l n -> inside l' n.
Proof. exact l_reshape_inside. Qed.
Print Assumptions C15_reshape_stays_inside.

(** C16: a fully given shape is accepted exactly when it has the size of the source; no panic. *)
Theorem C16_reshape_accepts_same_size : forall o l shape, wf l ->
  (is_ok (layout_reshapeable l shape o) = true <-> size shape = size (l_shape l)) /\ layout_reshapeable l shape o <> Panic.
Proof. exact l_reshape_same_size. Qed.
Print Assumptions C16_reshape_accepts_same_size.

(** C16: the shape is filled in with the unique extent that makes the sizes equal; otherwise an error.  Missing: a requested shape with a -1 and a 0 extent, where the code panics - see the refutation. *)
Theorem C16_inferred_extent_partial : forall shape n, ~ (In (-1) shape /\ In 0 shape) ->
  match reshape_substitute_negatives shape n with
  | Ok s => fills shape s /\ (In (-1) shape -> size s = n /\ forall s', fills shape s' -> size s' = n -> s' = s)
  | Err _ => (exists v, In v shape /\ v < -1) \/ (2 <= count_occ Z.eq_dec shape (-1)%Z)%nat \/ (forall s', fills shape s' -> size s' <> n)
  | Panic => False
  end.
Proof. exact l_substitute. Qed.
Example C16_example : reshape_substitute_negatives [2; -1; 3] 24 = Ok [2; 4; 3]%nat /\ (exists e, reshape_substitute_negatives [2; -1; 5] 24 = Err e)
  /\ ~ (In (-1) [2; -1; 3] /\ In 0 [2; -1; 3]).
Proof. split; [reflexivity|]. split; [eexists; reflexivity|]. cbn. lia. Qed.
Print Assumptions C16_inferred_extent_partial.

(** C16: an extent below -1, or more than one -1, is an error. *)
Theorem C16_bad_negatives_rejected : forall shape n,
  (exists v, In v shape /\ v < -1) \/ (2 <= count_occ Z.eq_dec shape (-1)%Z)%nat -> exists e, reshape_substitute_negatives shape n = Err e.
Proof. exact l_substitute_rejects. Qed.
Print Assumptions C16_bad_negatives_rejected.

(** C16 is false of the code for a shape like (-1, 0): the remainder by zero panics. *)
Theorem C16_inferred_extent_panics_refuted : exists shape n, (count_occ Z.eq_dec shape (-1)%Z = 1)%nat /\ (forall v, In v shape -> -1 <= v) /\ reshape_substitute_negatives shape n = Panic.
Proof. exact l_substitute_panics. Qed.
Print Assumptions C16_inferred_extent_panics_refuted.

(** C16: the whole request (extent inference, size check, zero-copy layout).  Missing as above. *)
Theorem C16_reshape_request_partial : forall o l shape, wf l -> ~ (In (-1) shape /\ In 0 shape) ->
  match reshapeable_without_copy l shape o with
  | Ok (Some l') => fills shape (l_shape l') /\ size (l_shape l') = size (l_shape l) /\ addrs o l' = addrs o l
  | Ok None => exists s, fills shape s /\ size s = size (l_shape l)
  | Err _ => (exists v, In v shape /\ v < -1) \/ (2 <= count_occ Z.eq_dec shape (-1)%Z)%nat \/ (forall s, fills shape s -> size s <> size (l_shape l))
  | Panic => False
  end.
Proof. exact l_reshape_total. Qed.
Print Assumptions C16_reshape_request_partial.
