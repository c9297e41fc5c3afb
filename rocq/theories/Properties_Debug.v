(** Property theorems about preferred memory orders (C05) and the Debug text of layouts and tensors (C119).  Statements use Spec.v, Spec_Format.v,
    Spec_Debug.v and the entry points of M_Layout.v, M_Format.v and M_Debug.v only. *)
From Coq Require Import Ascii String.
From Verif Require Import Base Spec Spec_Format Spec_Debug M_Layout M_Tensor M_Format M_Debug P_Tensor Q_Format Q_Debug.
From Coq Require Import List.
Local Open Scope nat_scope.
Local Open Scope list_scope.

Definition text_lines (xs : list string) : text := join [newline] (map str xs).

(** C05: f_prefer says that strides are positive and do not decrease from one axis of extent other than 1 to the next, and that the first axis, if its extent is not 1, has stride 1; c_prefer the same from the last axis to the first. *)
Theorem C05_prefer : forall l, wf l -> size (l_shape l) <> 0 -> (f_prefer l = true <-> column_preferred l) /\ (c_prefer l = true <-> row_preferred l).
Proof. exact l_prefer. Qed.
Example C05_prefer_example : let l := mkLayout [1; 3; 2] [9; 5; 7]%Z 4%Z in wf l /\ size (l_shape l) <> 0 /\ f_prefer l = true /\ c_prefer l = false /\
  f_prefer (mkLayout [3; 2] [5; 7]%Z 4%Z) = false.
Proof. cbv zeta. split; [split; [reflexivity|cbn; lia]|]. split; [discriminate|]. repeat split. Qed.
Print Assumptions C05_prefer.

(** C05: contiguous layouts are preferred in the same order. *)
Theorem C05_contig_prefers : forall l, wf l -> size (l_shape l) <> 0 -> (f_contig l = true -> column_preferred l) /\ (c_contig l = true -> row_preferred l).
Proof. exact l_contig_prefers. Qed.
Example C05_contig_prefers_example : f_contig (mkLayout [1; 3; 2] [9; 1; 3]%Z 4%Z) = true /\ c_contig (mkLayout [2; 3; 1] [3; 1; 9]%Z 4%Z) = true.
Proof. split; reflexivity. Qed.
Print Assumptions C05_contig_prefers.

(** C119: the Debug text of a layout gives the number of axes, shape, strides and offset, and its word on contiguity is true. *)
Theorem C119_layout_text : forall ty l, wf l -> (0 <= l_offset l)%Z -> exists word, truthful l word /\ layout_debug ty l = layout_lines (match ty with Dyn => true | Fixed => false end) word l.
Proof. exact l_layout_text. Qed.
Example C119_layout_text_example : wf (mkLayout [2; 3] [-1; 2]%Z 11%Z) /\
  layout_debug Dyn (mkLayout [2; 3] [-1; 2]%Z 11%Z) = text_lines ["2-Dim (dyn), contiguous: Custom"; "shape: [2, 3], stride: [-1, 2], offset: 11"]%string /\
  layout_debug Fixed (mkLayout [2; 3] [3; 1]%Z 0%Z) = text_lines ["2-Dim, contiguous: Cc"; "shape: [2, 3], stride: [3, 1], offset: 0"]%string /\
  layout_debug Fixed (mkLayout [] [] 7%Z) = text_lines ["0-Dim, contiguous: CcFf"; "shape: [], stride: [], offset: 7"]%string.
Proof. split; [split; [reflexivity|cbn; lia]|]. split; [vm_compute; reflexivity|]. split; vm_compute; reflexivity. Qed.
Print Assumptions C119_layout_text.

(** C119: layouts with the same Debug text are equal, and so are their kinds of dimension. *)
Theorem C119_layout_text_unique : forall ty ty' l l', fits (l_offset l) -> fits (l_offset l') -> layout_debug ty l = layout_debug ty' l' -> ty = ty' /\ l = l'.
Proof. exact l_layout_text_unique. Qed.
Example C119_layout_text_unique_example : fits (-3) /\ layout_debug Fixed (mkLayout [1; 23] [1; 1]%Z 0%Z) <> layout_debug Fixed (mkLayout [12; 3] [1; 1]%Z 0%Z).
Proof. split; [unfold fits; lia|vm_compute; discriminate]. Qed.
Print Assumptions C119_layout_text_unique.

(** C119: the Debug text of a tensor is printed without a panic: a heading, the elements as by Display (C77), the device, the layout, the type and a closing line. *)
Theorem C119_debug : forall T (show : T -> text) (device type_name : text) (ty : dimty) (mx mn : nat) (t : tensor T), tensor_ok t -> 1 <= mn ->
  exists enough, forall fuel, enough <= fuel ->
  tensor_debug show device type_name ty fuel mx mn t = Some (Ok (report (display show mx mn (t_shape t) (at_ t)) device (layout_debug ty (t_layout t)) type_name)).
Proof. exact l_debug. Qed.
Definition small : tensor nat := mkTensor [7; 1; 2; 3; 4] (mkLayout [2; 2] [2; 1]%Z 1%Z).
Definition digit_of (n : nat) : text := [ascii_of_nat (48 + n)].
Example C119_debug_example : tensor_ok small /\ tensor_debug digit_of (str "DeviceCpuSerial") (str "Tensor<usize>") Fixed 40 MAX_PRINT MIN_PRINT small = Some (Ok (text_lines
  [""; "=== Debug Tensor Print ==="; "[[ 1 2]"; " [ 3 4]]"; "DeviceCpuSerial"; "2-Dim, contiguous: Cc"; "shape: [2, 2], stride: [2, 1], offset: 1"; "Type: Tensor<usize>";
   "=========================="; ""]%string)).
Proof. split; [unfold small; concrete_tensor|vm_compute; reflexivity]. Qed.
Print Assumptions C119_debug.

(** C119: tensors with the same Debug text have the same shape, strides, offset and type, whatever their elements and devices print. *)
Theorem C119_debug_unique : forall T T' (show : T -> text) (show' : T' -> text) (d d' n n' : text) (ty ty' : dimty) (fuel fuel' mx mx' mn mn' : nat) (t : tensor T) (t' : tensor T') x,
  one_line n -> one_line n' -> fits (l_offset (t_layout t)) -> fits (l_offset (t_layout t')) ->
  tensor_debug show d n ty fuel mx mn t = Some (Ok x) -> tensor_debug show' d' n' ty' fuel' mx' mn' t' = Some (Ok x) -> ty = ty' /\ t_layout t = t_layout t' /\ n = n'.
Proof. exact l_debug_unique. Qed.
Example C119_debug_unique_example : one_line (str "Tensor<usize>") /\ exists x, tensor_debug digit_of (str "DeviceCpuSerial") (str "Tensor<usize>") Fixed 40 MAX_PRINT MIN_PRINT small = Some (Ok x).
Proof.
  split; [|eexists; vm_compute; reflexivity]. unfold one_line. intro I. cbn in I. repeat (destruct I as [I|I]; [vm_compute in I; discriminate I|]). destruct I.
Qed.
Print Assumptions C119_debug_unique.
