(** Property theorems about vecdot (C54).  Statements use Spec.v, Spec_Tensordot.v, Spec_Vecdot.v and the modelled entry points of
    M_Vecdot.v only. *)
From Verif Require Import Base Spec Spec_Views Spec_Tensordot Spec_Vecdot M_Layout M_Kernel M_Tensor M_Vecdot P_Bounds P_Strides P_Tensor Q_Tensor Q_Vecdot.
Local Open Scope Z_scope.

(** C54: which axes are contracted: exactly the valid arguments are accepted, and they mean the axes that [dot_axes] says. *)
Theorem C54_axes : forall da db axes,
  match vecdot_axes da db axes with
  | Ok (xa, xb) => exists pa pb, dot_axes da db axes pa pb /\ xa = map Z.of_nat pa /\ xb = map Z.of_nat pb
  | Err _ => ~ exists pa pb, dot_axes da db axes pa pb
  | Panic => False
  end.
Proof. exact l_axes. Qed.
Example C54_example_axes : dot_axes 3 2 (PairVal (-2)) [1]%nat [0]%nat /\ vecdot_axes 3 2 (PairVal (-2)) = Ok ([1], [0]) /\ vecdot_axes 3 2 (PairVal (-3)) = Err InvalidValue.
Proof. split; [exact (dot_back 3 2 2 ltac:(lia) ltac:(lia) ltac:(lia))|]. split; vm_compute; reflexivity. Qed.
Print Assumptions C54_axes.

(** C54: for all non-empty tensors, layouts and axes arguments, and every commutative sum: the result has the broadcast remaining shape and at every index the sum over the contracted axes; an error exactly if the contraction is not defined, never a panic.  Partial: empty tensors are excluded (see C54_empty_refuted). *)
Theorem C54_vecdot_partial : forall (A B C : Type) (zero : C) (add : C -> C -> C) (cmul : A -> B -> C) (o : order) (a : tensor A) (b : tensor B) (axes : axes_pair),
  comm_monoid zero add -> tensor_ok a -> tensor_ok b -> size (t_shape a) <> 0%nat -> size (t_shape b) <> 0%nat ->
  match vecdot zero add cmul o a b axes with
  | Ok c => tensor_ok c /\ exists pa pb, contractible o (t_shape a) (t_shape b) axes pa pb (t_shape c) /\
      forall mx, valid (t_shape c) mx -> exists v, at_ c mx = Some v /\ is_dot zero add cmul o a b pa pb mx v
  | Err _ => ~ exists pa pb s, contractible o (t_shape a) (t_shape b) axes pa pb s
  | Panic => False
  end.
Proof. exact l_vecdot. Qed.
Example C54_example : (* 2 x 3 times 3 along the last axis; the first and the last axis of a 2 x 3 x 2 tensor against the axes of a 2 x 2 matrix, given in the other order *)
  let a := mkTensor [1; 2; 3; 4; 5; 6] (mkLayout [2; 3]%nat [3; 1] 0) in let b := mkTensor [1; 10; 100] (mkLayout [3]%nat [1] 0) in
  let c := mkTensor [1; 2; 3; 4; 5; 6; 7; 8; 9; 10; 11; 12] (mkLayout [2; 3; 2]%nat [6; 2; 1] 0) in let d := mkTensor [1; 10; 100; 1000] (mkLayout [2; 2]%nat [2; 1] 0) in
  tensor_ok a /\ tensor_ok b /\ tensor_ok c /\ tensor_ok d /\ injective (t_layout a) /\ injective (t_layout b) /\
  vecdot 0 Z.add Z.mul RowMajor a b PairNone = Ok (mkTensor [321; 654] (mkLayout [2]%nat [1] 0)) /\
  vecdot 0 Z.add Z.mul RowMajor c d (PairOf (AxVec [0; 2]) (AxVec [-1; 0])) = Ok (mkTensor [8271; 10493; 12715] (mkLayout [3]%nat [1] 0)) /\
  vecdot 0 Z.add Z.mul RowMajor a b (PairVal 0) = Err InvalidLayout /\ vecdot 0 Z.add Z.mul RowMajor a b (PairVal 1) = Err InvalidValue.
Proof. cbv zeta. split; [concrete_tensor|]. split; [concrete_tensor|]. split; [concrete_tensor|]. split; [concrete_tensor|]. split; [apply not_broadcasted; [apply (good_new [2; 3]%nat [3; 1] 0); [lia|vm_compute; reflexivity]|reflexivity]|]. split; [apply not_broadcasted; [apply (good_new [3]%nat [1] 0); [lia|vm_compute; reflexivity]|reflexivity]|]. split; [vm_compute; reflexivity|]. split; [vm_compute; reflexivity|]. split; vm_compute; reflexivity. Qed.
Print Assumptions C54_vecdot_partial.

(** C54: the same written into an existing tensor without aliased elements: nothing else is changed, whatever it contained.  Partial: non-empty operands. *)
Theorem C54_from_partial : forall (A B C : Type) (zero : C) (add : C -> C -> C) (cmul : A -> B -> C) (o : order) (c : tensor C) (a : tensor A) (b : tensor B) (axes : axes_pair),
  comm_monoid zero add -> tensor_ok c -> tensor_ok a -> tensor_ok b -> size (t_shape a) <> 0%nat -> size (t_shape b) <> 0%nat -> injective (t_layout c) ->
  match vecdot_from zero add cmul o c a b axes with
  | Ok c' => t_layout c' = t_layout c /\ untouched_outside (t_layout c) (t_data c) (t_data c') /\
      exists pa pb, contractible o (t_shape a) (t_shape b) axes pa pb (t_shape c) /\
        forall mx, valid (t_shape c) mx -> exists v, at_ c' mx = Some v /\ is_dot zero add cmul o a b pa pb mx v
  | Err _ => ~ exists pa pb, contractible o (t_shape a) (t_shape b) axes pa pb (t_shape c)
  | Panic => False
  end.
Proof. exact l_vecdot_from. Qed.
Example C54_example_from : (* written into every other cell *)
  let a := mkTensor [1; 2; 3; 4; 5; 6] (mkLayout [2; 3]%nat [3; 1] 0) in let b := mkTensor [1; 10; 100] (mkLayout [3]%nat [1] 0) in let c := mkTensor [7; 7; 7; 7] (mkLayout [2]%nat [2] 1) in
  tensor_ok c /\ injective (t_layout c) /\ vecdot_from 0 Z.add Z.mul RowMajor c a b PairNone = Ok (mkTensor [7; 321; 7; 654] (mkLayout [2]%nat [2] 1)).
Proof. cbv zeta. split; [concrete_tensor|]. split; [apply not_broadcasted; [apply (good_new [2]%nat [2] 1); [lia|vm_compute; reflexivity]|reflexivity]|vm_compute; reflexivity]. Qed.
Print Assumptions C54_from_partial.

(** C54: the rayon device gives the same result in every schedule, if no two indices of an operand share a cell; then no two indices of the result do, so the steps write different cells.  Partial: non-empty operands. *)
Theorem C54_rayon_partial : forall (A B C : Type) (zero : C) (add : C -> C -> C) (cmul : A -> B -> C) (switch : nat) (pool : bool) (o : order) (a : tensor A) (b : tensor B) (axes : axes_pair) (r : res (tensor C)),
  comm_monoid zero add -> tensor_ok a -> tensor_ok b -> size (t_shape a) <> 0%nat -> size (t_shape b) <> 0%nat -> injective (t_layout a) -> injective (t_layout b) ->
  vecdot_on_rayon zero add cmul switch pool o a b axes r -> r = vecdot zero add cmul o a b axes /\ forall c, r = Ok c -> injective (t_layout c).
Proof. exact l_vecdot_rayon. Qed.
Print Assumptions C54_rayon_partial.

(** C54: contracting an axis of length 0 of row-major tensors panics, although the sums are all zero. *)
Theorem C54_empty_refuted : tensor_ok empty_matrix /\ contractible RowMajor [3; 0]%nat [3; 0]%nat (PairVal (-1)) [1]%nat [1]%nat [3]%nat /\
  (forall mx, valid [3]%nat mx -> is_dot 0 Z.add Z.mul RowMajor empty_matrix empty_matrix [1]%nat [1]%nat mx 0) /\
  vecdot 0 Z.add Z.mul RowMajor empty_matrix empty_matrix (PairVal (-1)) = Panic.
Proof. exact l_empty_refuted. Qed.
Print Assumptions C54_empty_refuted.
