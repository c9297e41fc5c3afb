(** Model of broadcast_arrays (rstsr-core/src/tensor/manipulation/broadcast.rs) and of meshgrid
    (rstsr-core/src/tensor/creation_from_tensor.rs) on the CPU devices.  As in M_Tensor.v all tensors live on the same device. *)
From Coq Require Import String.
From Verif Require Import Base Spec M_Layout M_Broadcast M_Reshape M_Tensor.
Local Open Scope Z_scope.

(** into_broadcast_f on a tensor, manipulation/broadcast.rs:272-294: the storage is kept *)
Definition tensor_broadcast {T} (o : order) (s : list nat) (t : tensor T) : res (tensor T) :=
  let* l := into_broadcast (t_layout t) s o in Ok (mkTensor (t_data t) l).
(** broadcast_arrays_f, manipulation/broadcast.rs:239-263 *)
Definition broadcast_arrays {T} (o : order) (ts : list (tensor T)) : res (list (tensor T)) :=
  if (length ts <=? 1)%nat then Ok ts
  else let* s := broadcast_shapes (map t_shape ts) o in map_res (tensor_broadcast o s) ts.

(** into_shape_f, manipulation/reshape.rs:188-209: change_shape in the device's order, then into_owned *)
Definition into_shape {T} (o : order) (t : tensor T) (shape : list Z) : res (tensor T) :=
  let* v := change_shape Dyn t shape o None in into_owned Dyn o v.
(** into_contig_f, manipulation/to_contig.rs:105-118: change_contig_f, then into_owned *)
Definition into_contig {T} (o : order) (t : tensor T) (ord : order) : res (tensor T) :=
  let* v := change_contig Dyn o t ord in into_owned Dyn o v.
(** the shape given to the [i]-th of [n] operands, creation_from_tensor.rs:176-190 *)
Definition mesh_request (indexing : string) (n i : nat) : list Z :=
  upd (repeat 1 n) (if (indexing =? "xy")%string && (i =? 0)%nat then 1%nat else if (indexing =? "xy")%string && (i =? 1)%nat then 0%nat else i) (-1).
(** meshgrid_f of (tensors, indexing, copy), creation_from_tensor.rs:145-206 *)
Definition meshgrid {T} (o : order) (ts : list (tensor T)) (indexing : string) (copy : bool) : res (list (tensor T)) :=
  let* _ := check ((indexing =? "ij") || (indexing =? "xy"))%string InvalidValue in
  match ts with
  | [] => Ok []
  | [t] => let* _ := check (ndim (t_layout t) =? 1)%nat InvalidLayout in let* r := into_owned Dyn o t in Ok [r]
  | _ =>
    let* _ := map_res (fun t => check (ndim (t_layout t) =? 1)%nat InvalidLayout) ts in
    let n := length ts in
    let* us := map_res (fun p => into_shape o (snd p) (mesh_request indexing n (fst p))) (combine (seq 0 n) ts) in
    let* bs := broadcast_arrays o us in
    if negb copy then Ok bs else map_res (fun b => into_contig o b o) bs
  end.
