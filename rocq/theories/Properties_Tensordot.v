(** Property theorems about the subscripts of tensordot (C43).  Statements use Spec.v, Spec_Tensordot.v and the modelled entry point of
    M_Tensordot.v only. *)
From Coq Require Import Ascii String.
From Verif Require Import Base Spec Spec_Views Spec_Tensordot M_Layout M_Tensordot Q_Tensordot.
Local Open Scope nat_scope.

(** C43: for all ranks and all axes arguments with as many axes of a as of b: equal labels exactly on paired axes, distinct labels within each operand, output = free axes of a then of b.  It fails exactly if the argument is not a valid pairing or more than 52 labels are needed; it never panics. *)
Theorem C43_tensordot_labels : forall da db axes,
  (forall pa pb, contracts da db axes pa pb -> length pa = length pb ->
     (da + db - length pa <= 52 -> exists la lb lo, tensordot_to_einsum_str da db axes = Ok (subscripts la lb lo) /\ labelled da db pa pb la lb lo /\ Forall is_letter (la ++ lb ++ lo)) /\
     (52 < da + db - length pa -> tensordot_to_einsum_str da db axes = Err InvalidValue)) /\
  ((~ exists pa pb, contracts da db axes pa pb) -> exists e, tensordot_to_einsum_str da db axes = Err e).
Proof. exact l_tensordot. Qed.
Example C43_example : contracts 3 4 (PairOf (AxVec [-1; 0]%Z) (AxVec [1; -1]%Z)) [2; 0] [1; 3] /\ tensordot_to_einsum_str 3 4 (PairOf (AxVec [-1; 0]%Z) (AxVec [1; -1]%Z)) = Ok (list_ascii_of_string "bca, daeb -> cde") /\
  contracts 3 2 PairNone [1; 2] [0; 1] /\ tensordot_to_einsum_str 3 2 PairNone = Ok (list_ascii_of_string "cab, ab -> c") /\ tensordot_to_einsum_str 1 2 PairNone = Err InvalidLayout /\ tensordot_to_einsum_str 30 30 (PairVal 7) = Err InvalidValue.
Proof. split. { apply (contract_lists 3 4 _ _ [-1; 0]%Z [1; -1]%Z); [constructor|constructor| | | |]; repeat constructor; cbn; intuition lia. } split; [vm_compute; reflexivity|]. split. { apply (contract_two 3 2); lia. } repeat split; vm_compute; reflexivity. Qed.
Print Assumptions C43_tensordot_labels.

(** C43: the text handed to einsum determines the three label lists. *)
Theorem C43_subscripts_determine : forall a b o a' b' o', Forall is_letter (a ++ b ++ o) -> Forall is_letter (a' ++ b' ++ o') -> subscripts a b o = subscripts a' b' o' -> a = a' /\ b = b' /\ o = o'.
Proof. exact l_subscripts. Qed.
Print Assumptions C43_subscripts_determine.

(** C43: whenever more axes of a than of b are listed, the call is accepted and some listed axis of a carries a label that occurs neither in b nor in the output: it is summed on its own. *)
Theorem C43_unequal_refuted : forall da db axes pa pb, contracts da db axes pa pb -> length pb < length pa -> da + db - length pb <= 52 ->
  exists la lb lo, tensordot_to_einsum_str da db axes = Ok (subscripts la lb lo) /\ exists i x, In i pa /\ nth_error la i = Some x /\ ~ In x lb /\ ~ In x lo.
Proof. exact l_unequal_refuted. Qed.
Example C43_example_unequal : contracts 2 1 (PairOf (AxVec [0; 1]%Z) (AxVec [0]%Z)) [0; 1] [0] /\ tensordot_to_einsum_str 2 1 (PairOf (AxVec [0; 1]%Z) (AxVec [0]%Z)) = Ok (list_ascii_of_string "ab, a -> ").
Proof. split; [|vm_compute; reflexivity]. apply (contract_lists 2 1 _ _ [0; 1]%Z [0]%Z); [constructor|constructor| | | |]; repeat constructor; cbn; intuition lia. Qed.
Print Assumptions C43_unequal_refuted.
