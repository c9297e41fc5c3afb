(** Property theorems about the order in memory of packed and unpacked triangles (C35).  Statements use Spec.v, the entry points of M_Tri.v
    and the methods c_prefer and f_prefer of layouts (C04) only. *)
From Verif Require Import Base Spec Spec_Tri M_Layout M_Rearr M_Iter M_Kernel M_Tensor M_Matmul M_Tri P_Strides P_Tensor Q_TriOrder.
Local Open Scope Z_scope.

(** C35: the packed result is compact; it is stored in the order of the source if that prefers one order (c_prefer or f_prefer, not both), and otherwise in the default order of the device. *)
Theorem C35_pack_order : forall (T : Type) o (t : tensor T) u r, pack_tri_f o t u = Ok r ->
  (c_prefer (t_layout t) = true -> f_prefer (t_layout t) = false -> addrs RowMajor (t_layout r) = consecutive 0 (size (t_shape r))) /\
  (c_prefer (t_layout t) = false -> f_prefer (t_layout t) = true -> addrs ColMajor (t_layout r) = consecutive 0 (size (t_shape r))) /\
  (c_prefer (t_layout t) = f_prefer (t_layout t) -> addrs o (t_layout r) = consecutive 0 (size (t_shape r))).
Proof. exact l_pack_order. Qed.
Definition to_columns : tensor Z := mkTensor [1; 2; 2; 5; 10; 20; 20; 50] (mkLayout [2; 2; 2]%nat [1; 2; 4] 0).
Example C35_pack_order_example : c_prefer (t_layout to_columns) = false /\ f_prefer (t_layout to_columns) = true /\
  pack_tri_f RowMajor to_columns Lower = Ok (mkTensor [1; 2; 2; 5; 20; 50]%Z (mkLayout [2; 3]%nat [1; 2] 0)).
Proof. split; [reflexivity|]. split; [reflexivity|]. vm_compute. reflexivity. Qed.
Print Assumptions C35_pack_order.

(** C35: the same for the unpacked result. *)
Theorem C35_unpack_order : forall (T : Type) (zero : T) conj opp o (t : tensor T) u sy r, unpack_tri_f zero conj opp o t u sy = Ok r ->
  (c_prefer (t_layout t) = true -> f_prefer (t_layout t) = false -> addrs RowMajor (t_layout r) = consecutive 0 (size (t_shape r))) /\
  (c_prefer (t_layout t) = false -> f_prefer (t_layout t) = true -> addrs ColMajor (t_layout r) = consecutive 0 (size (t_shape r))) /\
  (c_prefer (t_layout t) = f_prefer (t_layout t) -> addrs o (t_layout r) = consecutive 0 (size (t_shape r))).
Proof. exact l_unpack_order. Qed.
Example C35_unpack_order_example : c_prefer (mkLayout [2; 3]%nat [1; 2] 0) = false /\ f_prefer (mkLayout [2; 3]%nat [1; 2] 0) = true /\
  unpack_tri_f 0 (fun x => x) Z.opp RowMajor (mkTensor [1; 2; 2; 5; 20; 50] (mkLayout [2; 3]%nat [1; 2] 0)) Lower Sy = Ok (mkTensor [1; 2; 2; 5; 2; 5; 20; 50] (mkLayout [2; 2; 2]%nat [1; 2; 4] 0)).
Proof. split; [reflexivity|]. split; [reflexivity|]. vm_compute. reflexivity. Qed.
Print Assumptions C35_unpack_order.
