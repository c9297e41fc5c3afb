(** Property theorems about joint broadcasting and coordinate grids (C14, C60).  Statements use Spec.v, Spec_Mesh.v and the modelled
    entry points of M_Mesh.v only. *)
From Coq Require Import String.
From Verif Require Import Base Spec Spec_Mesh P_Index M_Layout M_Rearr M_Iter M_Kernel M_Tensor M_Matmul M_Manip M_Mesh P_Strides P_Tensor P_Rearr P_Concat Q_Mesh.
Local Open Scope Z_scope.

Definition ex_x : tensor Z := mkTensor [1; 2; 3] (mkLayout [3]%nat [-1] 2).
Definition ex_y : tensor Z := mkTensor [4; 0; 5] (mkLayout [2]%nat [2] 0).
Definition ex_col : tensor Z := mkTensor [7; 8] (mkLayout [2; 1]%nat [1; 5] 0).

(** C14: broadcast_arrays gives every operand the common shape and shows its own elements there; it fails exactly when there is no common shape. *)
Theorem C14_broadcast_arrays : forall (T : Type) o (ts : list (tensor T)), Forall tensor_ok ts ->
  match broadcast_arrays o ts with
  | Ok rs => ts = [] /\ rs = [] \/ exists s, common_shape o (map t_shape ts) s /\ Forall2 (shown_as o s) ts rs
  | Err _ => ~ exists s, common_shape o (map t_shape ts) s
  | Panic => False
  end.
Proof. exact l_broadcast_arrays. Qed.
Example C14_example_arrays : Forall tensor_ok [ex_x; ex_col] /\ broadcast_arrays RowMajor [ex_x; ex_col] = Ok [mkTensor [1; 2; 3] (mkLayout [2; 3]%nat [0; -1] 2); mkTensor [7; 8] (mkLayout [2; 3]%nat [1; 0] 0)] /\
  broadcast_arrays RowMajor [ex_x; ex_y] = Err InvalidLayout.
Proof. split; [repeat (apply Forall_cons; [concrete_tensor|]); apply Forall_nil|]. split; reflexivity. Qed.
Print Assumptions C14_broadcast_arrays.

(** C60: meshgrid of vectors gives their coordinate grids, with matrix or Cartesian indexing, each stored contiguously if copies are asked for; it is an error exactly when the indexing is unknown or an operand is not one-dimensional; it never panics.  Offsets are unsigned in the code. *)
Theorem C60_meshgrid : forall (T : Type) o (ts : list (tensor T)) indexing copy, Forall (fun t => tensor_ok t /\ 0 <= l_offset (t_layout t)) ts ->
  match meshgrid o ts indexing copy with
  | Ok rs => (indexing = "ij" \/ indexing = "xy")%string /\ Forall (fun t => length (t_shape t) = 1%nat) ts /\ is_mesh (if string_dec indexing "xy" then true else false) ts rs /\
      (copy = true -> Forall (fun r => length (t_data r) = size (t_shape r) /\ ((2 <= length ts)%nat -> addrs o (t_layout r) = consecutive 0 (size (t_shape r)))) rs)
  | Err _ => (indexing <> "ij" /\ indexing <> "xy")%string \/ Exists (fun t => length (t_shape t) <> 1%nat) ts
  | Panic => False
  end.
Proof. exact l_meshgrid. Qed.
Example C60_example : Forall (fun t => tensor_ok t /\ 0 <= l_offset (t_layout t)) [ex_x; ex_y] /\
  meshgrid RowMajor [ex_x; ex_y] "xy" true = Ok [mkTensor [3; 2; 1; 3; 2; 1] (mkLayout [2; 3]%nat [3; 1] 0); mkTensor [4; 4; 4; 5; 5; 5] (mkLayout [2; 3]%nat [3; 1] 0)] /\
  meshgrid RowMajor [ex_x; ex_y] "ij" true = Ok [mkTensor [3; 3; 2; 2; 1; 1] (mkLayout [3; 2]%nat [2; 1] 0); mkTensor [4; 5; 4; 5; 4; 5] (mkLayout [3; 2]%nat [2; 1] 0)] /\
  meshgrid RowMajor [ex_x; ex_col] "ij" true = Err InvalidLayout /\ meshgrid RowMajor [ex_x] "yx" true = Err InvalidValue.
Proof. split; [repeat (apply Forall_cons; [split; [concrete_tensor|cbn; lia]|]); apply Forall_nil|]. repeat split; vm_compute; reflexivity. Qed.
Print Assumptions C60_meshgrid.
