(** Model of Debug for layouts, rstsr-common/src/format_layout.rs, and for tensors, rstsr-core/src/format/format_tensor.rs:268-291, with the plain format
    [{:?}].  Writing to the formatter never fails. *)
From Coq Require Import Ascii String DecimalString.
From Verif Require Import Base Spec Spec_Format M_Layout M_Tensor M_Format.
From Coq Require Import List.
Local Open Scope nat_scope.
Local Open Scope list_scope.

(** Display and Debug of usize and isize in the standard library: decimal digits without leading zeros *)
Definition show_usize (n : nat) : text := str (NilZero.string_of_uint (Nat.to_uint n)).
Definition show_isize (z : Z) : text := str (NilZero.string_of_int (Z.to_int z)).
(** Debug of a slice in the standard library: entries separated by a comma and a space *)
Fixpoint show_entries (first : bool) (xs : list text) : text :=
  match xs with [] => [] | x :: r => (if first then [] else str ", ") ++ x ++ show_entries false r end.
Definition show_slice (xs : list text) : text := str "[" ++ show_entries true xs ++ str "]".
(** the variable [contig], format_layout.rs:15-34 *)
Definition contig_word (l : layout) : text :=
  if l_size l =? 0 then str "Empty"
  else
    let w := if c_contig l then str "C" else [] in
    let w := if c_prefer l then w ++ str "c" else w in
    let w := if f_contig l then w ++ str "F" else w in
    let w := if f_prefer l then w ++ str "f" else w in
    match w with [] => str "Custom" | _ => w end.
(** Debug::fmt of Layout, format_layout.rs:7-46; [ty]: const_ndim() is None for dynamic dimensions.  The offset is a usize. *)
Definition layout_debug (ty : dimty) (l : layout) : text :=
  show_usize (ndim l) ++ str "-Dim" ++ match ty with Dyn => str " (dyn)" | Fixed => [] end ++ str ", contiguous: " ++ contig_word l ++ [newline] ++
  str "shape: " ++ show_slice (map show_usize (l_shape l)) ++ str ", stride: " ++ show_slice (map show_isize (l_stride l)) ++
  str ", offset: " ++ show_isize (as_usize (l_offset l)).
(** Debug::fmt of TensorAny, format_tensor.rs:275-291; [device] and [type_name] are the texts of Debug of the device and of core::any::type_name.
    to_cpu_vec of the CPU devices copies the data and does not fail. *)
Definition tensor_debug {T} (show : T -> text) (device type_name : text) (ty : dimty) (fuel mx mn : nat) (t : tensor T) : option (res text) :=
  match print_tensor show fuel mx mn t with
  | Some (Ok x) => Some (Ok (
      [newline] ++ str "=== Debug Tensor Print ===" ++ [newline] ++ x ++ [newline] ++ device ++ [newline] ++ layout_debug ty (t_layout t) ++ [newline] ++
      str "Type: " ++ type_name ++ [newline] ++ str "==========================" ++ [newline]))
  | other => other
  end.
