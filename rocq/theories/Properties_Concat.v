(** Property theorems about joining tensors (C37, C56, C57).  Statements use Spec.v, Spec_Concat.v and the modelled entry points of
    M_Concat.v only. *)
From Verif Require Import Base Spec Spec_Concat P_Index M_Layout M_Rearr M_Iter M_Kernel M_Tensor M_Matmul M_Manip M_Concat P_Strides P_Tensor P_Rearr P_Concat P_Concat2 Q_Concat.
Local Open Scope Z_scope.

Definition ex_left : tensor Z := mkTensor [1; 2; 3; 4] (mkLayout [2; 2]%nat [1; 2] 0).
Definition ex_right : tensor Z := mkTensor [0; 5; 0; 6] (mkLayout [2; 1]%nat [2; 7] 1).
Definition ex_vecs : list (tensor Z) := [mkTensor [1; 2; 3] (mkLayout [3]%nat [1] 0); mkTensor [6; 5; 4] (mkLayout [3]%nat [-1] 2)].

(** C37: concat along an axis is the operands side by side, and an error exactly when the operands cannot be joined: none given, an axis out of range, or extents that differ off the axis. *)
Theorem C37_concat : forall (T : Type) o (ts : list (tensor T)) axis, Forall tensor_ok ts ->
  (forall a, can_concat (map t_shape ts) axis a -> exists r, concat_f o ts axis = Ok r /\ tensor_ok r /\ side_by_side a ts r) /\
  ((~ exists a, can_concat (map t_shape ts) axis a) -> exists e, concat_f o ts axis = Err e).
Proof. exact l_concat. Qed.
Example C37_example : Forall tensor_ok [ex_left; ex_right] /\ can_concat (map t_shape [ex_left; ex_right]) (-1) 1 /\ concat_f RowMajor [ex_left; ex_right] (-1) = Ok (mkTensor [1; 3; 5; 2; 4; 6] (mkLayout [2; 3]%nat [3; 1] 0)) /\
  concat_f ColMajor [ex_left; ex_right] 1 = Ok (mkTensor [1; 2; 3; 4; 5; 6] (mkLayout [2; 3]%nat [1; 2] 0)) /\ concat_f RowMajor [ex_left; ex_right] 0 = Err InvalidLayout.
Proof. split; [repeat (apply Forall_cons; [concrete_tensor|]); apply Forall_nil|]. split; [|repeat split; vm_compute; reflexivity]. exists [2; 2]%nat, [[2; 1]%nat]. split; [reflexivity|]. split; [split; [cbn; lia|cbn; lia]|].
  repeat constructor; intros [|[|[|k]]] N; try reflexivity; congruence. Qed.
Print Assumptions C37_concat.

(** C37: read from the operands' side: element ix of the i-th operand is the element of the result whose position along the axis is shifted by the extents of the operands before it. *)
Theorem C37_concat_element : forall (T : Type) a (ts : list (tensor T)) r i t ix, side_by_side a ts r -> nth_error ts i = Some t -> (a < length (t_shape t))%nat -> valid (t_shape t) ix ->
  let jx := upd ix a (start a ts i + nth a ix 0)%nat in valid (t_shape r) jx /\ at_ r jx = at_ t ix.
Proof. exact l_concat_element. Qed.
Example C37_example_element : start 1 [ex_left; ex_right] 1 = 2%nat /\ at_ ex_right [1; 0]%nat = Some 6 /\ at_ (mkTensor [1; 3; 5; 2; 4; 6] (mkLayout [2; 3]%nat [3; 1] 0)) [1; 2]%nat = Some 6.
Proof. repeat split; reflexivity. Qed.
Print Assumptions C37_concat_element.

(** C37: whatever order rayon copies the parts of each operand in, concat gives what the serial device gives. *)
Theorem C37_concat_rayon : forall (T : Type) pool o (ts : list (tensor T)) axis r, Forall tensor_ok ts -> concat_rayon pool o ts axis r -> r = concat_f o ts axis.
Proof. exact l_concat_rayon. Qed.
Example C37_example_rayon : concat_rayon true RowMajor [ex_left; ex_right] 1 (Ok (mkTensor [1; 3; 5; 2; 4; 6] (mkLayout [2; 3]%nat [3; 1] 0))).
Proof. exists (Ok (map Some [1; 3; 5; 2; 4; 6], 3%nat)). split; [|vm_compute; reflexivity]. eexists. split; [vm_compute; reflexivity|]. eexists. split; vm_compute; reflexivity. Qed.
Print Assumptions C37_concat_rayon.

(** C37: stack of tensors of one shape is the tensor with a new axis that counts the operands, and an error exactly when none are given, shapes differ or the new axis is out of range. *)
Theorem C37_stack : forall (T : Type) o (ts : list (tensor T)) axis, Forall tensor_ok ts ->
  (forall s a, ts <> [] -> Forall (fun t => t_shape t = s) ts -> insert_denotes (length s) axis a ->
     exists r, stack_f o ts axis = Ok r /\ tensor_ok r /\ stacked a ts r) /\
  ((~ exists s a, ts <> [] /\ Forall (fun t => t_shape t = s) ts /\ insert_denotes (length s) axis a) -> exists e, stack_f o ts axis = Err e).
Proof. exact l_stack. Qed.
Example C37_example_stack : Forall tensor_ok ex_vecs /\ Forall (fun t => t_shape t = [3]%nat) ex_vecs /\ insert_denotes 1 (-1) 1 /\ stack_f RowMajor ex_vecs (-1) = Ok (mkTensor [1; 4; 2; 5; 3; 6] (mkLayout [3; 2]%nat [2; 1] 0)) /\
  stack_f RowMajor ex_vecs 0 = Ok (mkTensor [1; 2; 3; 4; 5; 6] (mkLayout [2; 3]%nat [3; 1] 0)) /\ (exists e, stack_f RowMajor ex_vecs 2 = Err e) /\ exists e, stack_f RowMajor [ex_left; ex_right] 0 = Err e.
Proof. split; [repeat (apply Forall_cons; [concrete_tensor|]); apply Forall_nil|]. split; [repeat constructor|]. split; [split; lia|]. repeat split; try (vm_compute; reflexivity); eexists; reflexivity. Qed.
Print Assumptions C37_stack.

(** C37: joining no tensors is an error, not a panic. *)
Theorem C37_empty : forall (T : Type) o axis, (exists e, concat_f (T := T) o [] axis = Err e) /\ (exists e, stack_f (T := T) o [] axis = Err e) /\ (exists e, hstack_f (T := T) o [] = Err e) /\ (exists e, vstack_f (T := T) o [] = Err e).
Proof. exact l_stack_empty. Qed.
Print Assumptions C37_empty.

(** C56: unstack gives one view for each position along the axis, sharing the storage and holding exactly the elements there; it is an error exactly when the axis is out of range (a 0-dimensional tensor has none). *)
Theorem C56_unstack : forall (T : Type) (t : tensor T) axis, tensor_ok t ->
  (forall a, axis_denotes (length (t_shape t)) axis a ->
     exists vs, unstack_f t axis = Ok vs /\ length vs = along a t /\
       forall i v, nth_error vs i = Some v -> tensor_ok v /\ t_data v = t_data t /\ t_shape v = remove_at (t_shape t) a /\ forall ix, valid (t_shape v) ix -> valid (t_shape t) (insert_at ix a i) /\ at_ v ix = at_ t (insert_at ix a i)) /\
  ((~ exists a, axis_denotes (length (t_shape t)) axis a) -> exists e, unstack_f t axis = Err e).
Proof. exact l_unstack. Qed.
Example C56_example : tensor_ok ex_left /\ axis_denotes 2 (-1) 1 /\ unstack_f ex_left (-1) = Ok [mkTensor [1; 2; 3; 4] (mkLayout [2]%nat [1] 0); mkTensor [1; 2; 3; 4] (mkLayout [2]%nat [1] 2)].
Proof. split; [concrete_tensor|]. split; [split; lia|vm_compute; reflexivity]. Qed.
Print Assumptions C56_unstack.

(** C56: stacking what unstack gives, along the same axis, gives a tensor equal to the original (if the axis is not empty: an empty list cannot be stacked). *)
Theorem C56_stack_of_unstack : forall (T : Type) o (t : tensor T) axis a, tensor_ok t -> axis_denotes (length (t_shape t)) axis a -> along a t <> 0%nat ->
  exists vs r, unstack_f t axis = Ok vs /\ stack_f o vs axis = Ok r /\ t_shape r = t_shape t /\ forall ix, valid (t_shape t) ix -> at_ r ix = at_ t ix.
Proof. exact l_unstack_stack. Qed.
Example C56_example_round : (let* vs := unstack_f ex_left 0 in stack_f ColMajor vs 0) = Ok (mkTensor [1; 2; 3; 4] (mkLayout [2; 2]%nat [1; 2] 0)) /\ along 0 ex_left <> 0%nat.
Proof. split; [reflexivity|discriminate]. Qed.
Print Assumptions C56_stack_of_unstack.

(** C56: unstacking a stack gives tensors equal to the operands, in order. *)
Theorem C56_unstack_of_stack : forall (T : Type) o (ts : list (tensor T)) axis s a, Forall tensor_ok ts -> ts <> [] -> Forall (fun t => t_shape t = s) ts -> insert_denotes (length s) axis a ->
  exists r vs, stack_f o ts axis = Ok r /\ unstack_f r axis = Ok vs /\ Forall2 (fun t v => t_shape v = t_shape t /\ forall ix, valid (t_shape t) ix -> at_ v ix = at_ t ix) ts vs.
Proof. exact l_stack_unstack. Qed.
Example C56_example_round2 : (let* r := stack_f RowMajor ex_vecs 1 in unstack_f r 1) = Ok [mkTensor [1; 4; 2; 5; 3; 6] (mkLayout [3]%nat [2] 0); mkTensor [1; 4; 2; 5; 3; 6] (mkLayout [3]%nat [2] 1)].
Proof. reflexivity. Qed.
Print Assumptions C56_unstack_of_stack.

(** C57: atleast_1d, atleast_2d and atleast_3d add axes of extent 1 at the documented positions and only when the rank is too small. *)
Theorem C57_atleast : forall (T : Type) (t : tensor T), tensor_ok t -> let n := length (t_shape t) in
  (exists u, atleast_1d t = Ok u /\ tensor_ok u /\ with_unit_axes (match n with 0 => [0] | _ => [] end)%nat t u) /\
  (exists u, atleast_2d t = Ok u /\ tensor_ok u /\ with_unit_axes (match n with 0 => [0; 1] | 1 => [0] | _ => [] end)%nat t u) /\
  (exists u, atleast_3d t = Ok u /\ tensor_ok u /\ with_unit_axes (match n with 0 => [0; 1; 2] | 1 => [0; 2] | 2 => [2] | _ => [] end)%nat t u).
Proof. exact l_atleast. Qed.
Example C57_example : atleast_3d (mkTensor [6; 5; 4] (mkLayout [3]%nat [-1] 2)) = Ok (mkTensor [6; 5; 4] (mkLayout [1; 3; 1]%nat [3; -1; 1] 2)) \/ exists st, atleast_3d (mkTensor [6; 5; 4] (mkLayout [3]%nat [-1] 2)) = Ok (mkTensor [6; 5; 4] (mkLayout [1; 3; 1]%nat st 2)).
Proof. right. eexists. vm_compute. reflexivity. Qed.
Print Assumptions C57_atleast.

(** C57: hstack makes scalars vectors and joins along axis 1, or along axis 0 if the first operand is a vector or scalar; it fails exactly when these cannot be joined. *)
Theorem C57_hstack : forall (T : Type) o (t0 : tensor T) rest, let ts := t0 :: rest in Forall tensor_ok ts ->
  exists us, Forall2 (fun t u => with_unit_axes (match length (t_shape t) with 0 => [0] | _ => [] end)%nat t u) ts us /\
    let a := match length (t_shape t0) with 0 | 1 => 0 | _ => 1 end%nat in
    (can_concat (map t_shape us) (Z.of_nat a) a -> exists r, hstack_f o ts = Ok r /\ tensor_ok r /\ side_by_side a us r) /\
    (~ can_concat (map t_shape us) (Z.of_nat a) a -> exists e, hstack_f o ts = Err e).
Proof. exact l_hstack. Qed.
Example C57_example_hstack : hstack_f RowMajor [ex_left; ex_right] = Ok (mkTensor [1; 3; 5; 2; 4; 6] (mkLayout [2; 3]%nat [3; 1] 0)) /\ hstack_f RowMajor ex_vecs = Ok (mkTensor [1; 2; 3; 4; 5; 6] (mkLayout [6]%nat [1] 0)).
Proof. split; reflexivity. Qed.
Print Assumptions C57_hstack.

(** C57: vstack makes vectors rows and joins along axis 0; it fails exactly when these cannot be joined. *)
Theorem C57_vstack : forall (T : Type) o (t0 : tensor T) rest, let ts := t0 :: rest in Forall tensor_ok ts ->
  exists us, Forall2 (fun t u => with_unit_axes (match length (t_shape t) with 0 => [0; 1] | 1 => [0] | _ => [] end)%nat t u) ts us /\
    (can_concat (map t_shape us) 0 0 -> exists r, vstack_f o ts = Ok r /\ tensor_ok r /\ side_by_side 0 us r) /\
    (~ can_concat (map t_shape us) 0 0 -> exists e, vstack_f o ts = Err e).
Proof. exact l_vstack. Qed.
Example C57_example_vstack : vstack_f RowMajor ex_vecs = Ok (mkTensor [1; 2; 3; 4; 5; 6] (mkLayout [2; 3]%nat [3; 1] 0)) /\ (exists e, vstack_f RowMajor [ex_left; ex_right] = Err e).
Proof. split; [reflexivity|eexists; reflexivity]. Qed.
Print Assumptions C57_vstack.
