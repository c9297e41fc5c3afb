(** Model of rstsr-core/src/tensor/manipulation/into_compatible_shape.rs: reshaping without a copy, or an error.  The storage is moved (into_) or borrowed
    (to_): in both cases the result has the same storage, so one definition serves both. *)
From Verif Require Import Base Spec M_Layout M_Reshape M_Tensor.
Local Open Scope Z_scope.

(** into_compatible_shape_f, :8-26; to_compatible_shape_f, :47-58 *)
Definition into_compatible_shape {A} (a : tensor A) (shape : list Z) (ord : order) : res (tensor A) :=
  let* s := reshape_substitute_negatives shape (l_size (t_layout a)) in
  let* v := layout_reshapeable (t_layout a) s ord in
  match v with
  | Some l => Ok (mkTensor (t_data a) l)
  | None => Err InvalidLayout
  end.
(** into_shape_assume_contig_f, :248-274 (deprecated); [dflt] is the default order of the device *)
Definition into_shape_assume_contig {A} (k : dimty) (dflt : order) (a : tensor A) (s : list nat) : res (tensor A) :=
  let l := t_layout a in
  let* _ := check (l_size l =? size s)%nat InvalidLayout in
  match dflt with
  | RowMajor => if c_contig l then Ok (mkTensor (t_data a) (new_c_contig k s (l_offset l))) else Err InvalidLayout
  | ColMajor => if f_contig l then Ok (mkTensor (t_data a) (new_f_contig k s (l_offset l))) else Err InvalidLayout
  end.
