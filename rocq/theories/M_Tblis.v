(** Model of crates-plugin/rstsr-tblis/src/einsum_impl.rs and tensordot_impl.rs.  The library TBLIS (with the crates tblis and opt-einsum-path) is a
    parameter; its process-wide number of threads is the state [nat] that is passed along.  Subscripts are strings of ASCII characters. *)
From Coq Require Import Ascii.
From Verif Require Import Base Spec Spec_Tensordot M_Layout M_Indexer M_Broadcast M_Reshape M_Rearr M_Iter M_Kernel M_Tensor M_Faer M_Tensordot.
Local Open Scope nat_scope.

(** struct TblisTensor: a pointer, that is a buffer and a position in it, extents and strides *)
Record tblis_tensor (T : Type) := mkTblis { tt_data : list T; tt_ptr : Z; tt_shape : list Z; tt_stride : list Z }.
Arguments mkTblis {T}. Arguments tt_data {T}. Arguments tt_ptr {T}. Arguments tt_shape {T}. Arguments tt_stride {T}.
(** what tblis_einsum_f returns: a vector with its extents and strides, or, with an output, nothing; then [Wrote] is the output's new buffer *)
Inductive answer (T : Type) := Fresh (v : list T) (shape stride : list Z) | Wrote (v : list T).
Arguments Fresh {T}. Arguments Wrote {T}.
(** to_tblis_tensor, einsum_impl.rs:102-108 *)
Definition to_tblis_tensor {T} (t : tensor T) : tblis_tensor T :=
  let shape := map Z.of_nat (l_shape (t_layout t)) in
  let stride := l_stride (t_layout t) in
  mkTblis (t_data t) (l_offset (t_layout t)) shape stride.
(** from_tblis_tensor, einsum_impl.rs:123-135 *)
Definition from_tblis_tensor {T} (v : list T) (shape stride : list Z) (dev : device) : res (placed T) :=
  let* l := layout_new (map Z.to_nat shape) stride 0%Z in
  let* t := tensor_new v l in
  Ok (mkPlaced t dev).

Section Einsum.
  Context {T : Type}.
  (** tblis_einsum_f: number of threads, subscripts, operands, row_major, output.  [None]: it reports an error *)
  Context (lib : nat -> list ascii -> list (tblis_tensor T) -> bool -> option (tblis_tensor T) -> option (answer T)).
  (** einsum_with_option_output_f, einsum_impl.rs:140-197.  [worker]: on a worker thread of rayon, where get_current_pool gives nothing; [g]: the
      library's number of threads before and after.  Returns the new tensor, or the new content of the output (that after an error is not modelled);
      the second line of the result tells which it was. *)
  Definition einsum_with_option_output (worker : bool) (sub : list ascii) (operands : list (placed T)) (output : option (placed T)) (g : nat) : res (option (placed T) * option (placed T)) * nat :=
    match operands with
    | [] => (Err InvalidValue, g)
    | first :: rest =>
      let dev := p_device first in
      if negb (forallb (fun t => same_device (p_device t) dev) rest) then (Err InvalidValue, g)
      else if match output with Some o => negb (same_device (p_device o) dev) | None => false end then (Err InvalidValue, g)
      else
        let ops := map (fun t => to_tblis_tensor (p_tensor t)) operands in
        let row_major := order_eqb (d_order dev) RowMajor in
        let out := match output with Some o => Some (to_tblis_tensor (p_tensor o)) | None => None end in
        let threads := if worker then 1 else d_threads dev in
        let original := g in
        match lib threads sub ops row_major out with
        | None => (Err InvalidValue, threads)
        | Some (Fresh v shape stride) => (let* t := from_tblis_tensor v shape stride dev in Ok (Some t, output), original)
        | Some (Wrote v) => (Ok (None, match output with Some o => Some (mkPlaced (mkTensor v (t_layout (p_tensor o))) (p_device o)) | None => None end), original)
        end
    end.
  (** einsum_f, einsum_impl.rs:202-212 *)
  Definition einsum_f (worker : bool) (sub : list ascii) (operands : list (placed T)) (g : nat) : res (placed T) * nat :=
    let '(r, g') := einsum_with_option_output worker sub operands None g in
    (let* '(t, _) := r in match t with Some t => Ok t | None => Panic end, g').
  (** einsum_with_output_f, einsum_impl.rs:217-228; einsum_from_f 270-278 is this function on the view of the whole tensor *)
  Definition einsum_with_output_f (worker : bool) (sub : list ascii) (operands : list (placed T)) (output : placed T) (g : nat) : res (placed T) * nat :=
    let '(r, g') := einsum_with_option_output worker sub operands (Some output) g in
    (let* '(_, o) := r in match o with Some o => Ok o | None => Ok output end, g').
  (** tensordot_with_option_output_f, tensordot_impl.rs:32-46 *)
  Definition tensordot_with_option_output (worker : bool) (a b : placed T) (axes : axes_pair) (output : option (placed T)) (g : nat) : res (option (placed T) * option (placed T)) * nat :=
    match tensordot_to_einsum_str (ndim (t_layout (p_tensor a))) (ndim (t_layout (p_tensor b))) axes with
    | Ok sub => einsum_with_option_output worker sub [a; b] output g
    | Err e => (Err e, g)
    | Panic => (Panic, g)
    end.
  (** tensordot_f, tensordot_impl.rs:61-71 *)
  Definition tensordot_f (worker : bool) (a b : placed T) (axes : axes_pair) (g : nat) : res (placed T) * nat :=
    let '(r, g') := tensordot_with_option_output worker a b axes None g in
    (let* '(t, _) := r in match t with Some t => Ok t | None => Panic end, g').
  (** tensordot_with_output_f, tensordot_impl.rs:48-59 *)
  Definition tensordot_with_output_f (worker : bool) (a b : placed T) (axes : axes_pair) (output : placed T) (g : nat) : res (placed T) * nat :=
    let '(r, g') := tensordot_with_option_output worker a b axes (Some output) g in
    (let* '(_, o) := r in match o with Some o => Ok o | None => Ok output end, g').
End Einsum.
