(** The unary operators - and ! of tensors: rstsr-core/src/tensor/operators/op_unary_arithmetic.rs and
    rstsr-core/src/device_cpu_serial/operators/op_binary_arithmetic.rs:94-116 (the rayon device has the same two functions on its own kernels, see C53). *)
From Verif Require Import Base Spec Spec_Unary M_Layout M_Rearr M_Kernel M_Tensor.
Local Open Scope Z_scope.

(** An operator of the elements that panics where it returns [None].  A panic unwinds from the kernel, so that no tensor is returned: the results
    of all visited elements are put together here, and the kernel has panicked when one of them is missing. *)
Definition unwound {A} (d : list (option A)) : res (list A) := map_res (fun x => match x with Some v => Ok v | None => Panic end) d.
(** TensorOpAPI::op_f of &TensorAny and of TensorView, op_unary_arithmetic.rs:110-146; op_muta_refb, op_binary_arithmetic.rs:107-109 *)
Definition unary_ref {A B} (k : dimty) (dflt : order) (h : A -> option B) (b : tensor A) : res (tensor B) :=
  let lb := t_layout b in
  let* la := layout_for_array_copy k dflt lb OK in
  let* bd := bounds_index la in
  let* c := op_muta_refb k (uninit (option B) (snd bd)) la (t_data b) lb (fun _ x => Some (h x)) in
  let* c := assume_init c in
  let* t := tensor_new c la in
  let* d := unwound (t_data t) in
  Ok (mkTensor d la).
(** TensorOpAPI::op_f of Tensor, op_unary_arithmetic.rs:149-163; op_muta, op_binary_arithmetic.rs:111-114 *)
Definition unary_owned {A} (k : dimty) (h : A -> option A) (a : tensor A) : res (tensor A) :=
  let la := t_layout a in
  let* c := op_muta k (map Some (t_data a)) la (fun x => match x with Some v => h v | None => None end) in
  let* d := unwound c in
  Ok (mkTensor d la).
(** [- x] of Rust's signed integers of [w] bits: the lowest number overflows, which panics with overflow checks and wraps around otherwise. *)
Definition int_neg (checks : bool) (w x : Z) : option Z :=
  if x =? - 2 ^ (w - 1) then (if checks then None else Some x) else Some (- x).
(** [! x] of Rust's integers *)
Definition int_not (t : int_kind) (x : Z) : option Z :=
  Some (match t with Signed _ => - x - 1 | Unsigned w => 2 ^ w - 1 - x end).
Definition neg_ref (k : dimty) (dflt : order) (checks : bool) (w : Z) : tensor Z -> res (tensor Z) := unary_ref k dflt (int_neg checks w).
Definition neg_owned (k : dimty) (checks : bool) (w : Z) : tensor Z -> res (tensor Z) := unary_owned k (int_neg checks w).
Definition not_ref (k : dimty) (dflt : order) (t : int_kind) : tensor Z -> res (tensor Z) := unary_ref k dflt (int_not t).
Definition not_owned (k : dimty) (t : int_kind) : tensor Z -> res (tensor Z) := unary_owned k (int_not t).
