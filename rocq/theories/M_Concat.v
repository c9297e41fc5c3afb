(** Model of the functions that build a tensor out of other tensors: rstsr-core/src/tensor/creation_from_tensor.rs (concat, hstack,
    vstack, stack, unstack, atleast_1d/2d/3d, diag) on the CPU devices.  As in M_Tensor.v all tensors live on the same device. *)
From Verif Require Import Base Spec M_Layout M_Indexer M_Broadcast M_Reshape M_Rearr M_Iter M_Kernel M_Tensor M_Manip M_Matmul.
Local Open Scope Z_scope.

(** the checks and the extent of the result along the axis, creation_from_tensor.rs:333-370.  Returns the axis, the other extents
    and the total extent. *)
Definition concat_shape {T} (ts : list (tensor T)) (axis : Z) : res (nat * list nat * nat) :=
  match ts with
  | [] => Err InvalidValue
  | t0 :: _ =>
    let nd := ndim (t_layout t0) in
    let* _ := check (0 <? nd)%nat InvalidLayout in
    let* _ := map_res (fun t => check (ndim (t_layout t) =? nd)%nat InvalidLayout) ts in
    let* a := check_axis axis nd in
    let other := remove_at (t_shape t0) a in
    let* n := fold_res (fun n t => let* _ := check (same_shape (remove_at (t_shape t) a) other) InvalidLayout in
                                   Ok (n + extent (t_layout t) a)%nat) ts 0%nat in
    Ok (a, other, n)
  end.
(** the part of the result that one operand goes to: [result.layout().dim_narrow(axis, slice!(offset, offset + axis_size))],
    creation_from_tensor.rs:380 *)
Definition concat_part (l : layout) (a off e : nat) : res layout :=
  dim_narrow l (Z.of_nat a) (mkSlice (Some (Z.of_nat off)) (Some (Z.of_nat (off + e))) None).
(** the body of the loop over the operands, creation_from_tensor.rs:375-383; the state is the new storage and [offset] *)
Definition concat_step {T} (l : layout) (a : nat) (s : list (option T) * nat) (t : tensor T) : res (list (option T) * nat) :=
  let e := extent (t_layout t) a in
  let* lr := concat_part l a (snd s) e in
  let* c := assign Dyn Some (fst s) lr (t_data t) (t_layout t) in
  Ok (c, snd s + e)%nat.
(** concat_f, creation_from_tensor.rs:330-386.  [empty_f] gives storage without values in the device's default order [o]; the code
    returns it as a tensor once the operands are copied in, which is [assume_init] here. *)
Definition concat_f {T} (o : order) (ts : list (tensor T)) (axis : Z) : res (tensor T) :=
  let* p := concat_shape ts axis in
  let '(a, other, n) := p in
  let l := new_contig Dyn (insert_at other a n) 0 o in
  let* b := bounds_index l in
  let* s := fold_res (concat_step l a) ts (uninit T (snd b), 0%nat) in
  let* d := assume_init (fst s) in
  Ok (mkTensor d l).

(** the same on the rayon device: each operand is copied in by assign_cpu_rayon *)
Fixpoint concat_loop_rayon {T} (pool : bool) (l : layout) (a : nat) (ts : list (tensor T)) (s : list (option T) * nat) (r : res (list (option T) * nat)) : Prop :=
  match ts with
  | [] => r = Ok s
  | t :: ts' =>
    let e := extent (t_layout t) a in
    match concat_part l a (snd s) e with
    | Ok lr => exists rc, assign_rayon pool Dyn Some (fst s) lr (t_data t) (t_layout t) rc /\
        match rc with
        | Ok c => concat_loop_rayon pool l a ts' (c, snd s + e)%nat r
        | Err x => r = Err x
        | Panic => r = Panic
        end
    | Err x => r = Err x
    | Panic => r = Panic
    end
  end.
Definition concat_rayon {T} (pool : bool) (o : order) (ts : list (tensor T)) (axis : Z) (r : res (tensor T)) : Prop :=
  match concat_shape ts axis with
  | Ok (a, other, n) =>
    let l := new_contig Dyn (insert_at other a n) 0 o in
    match bounds_index l with
    | Ok b => exists rs, concat_loop_rayon pool l a ts (uninit T (snd b), 0%nat) rs /\
        r = (let* s := rs in let* d := assume_init (fst s) in Ok (mkTensor d l))
    | Err x => r = Err x
    | Panic => r = Panic
    end
  | Err x => r = Err x
  | Panic => r = Panic
  end.

(** into_expand_dims_f on a tensor, expand_dims.rs:7-25 *)
Definition expand_dims_f {T} (t : tensor T) (axes : axes_index) : res (tensor T) :=
  let* l := expand_dims (t_layout t) axes in Ok (mkTensor (t_data t) l).
(** into_atleast_1d_f / 2d / 3d, creation_from_tensor.rs:871-926 *)
Definition atleast_1d {T} (t : tensor T) : res (tensor T) :=
  match ndim (t_layout t) with O => expand_dims_f t (AxVec [0]) | _ => Ok t end.
Definition atleast_2d {T} (t : tensor T) : res (tensor T) :=
  match ndim (t_layout t) with
  | O => expand_dims_f t (AxVec [0; 1])
  | S O => expand_dims_f t (AxVec [0])
  | _ => Ok t
  end.
Definition atleast_3d {T} (t : tensor T) : res (tensor T) :=
  match ndim (t_layout t) with
  | O => expand_dims_f t (AxVec [0; 1; 2])
  | S O => expand_dims_f t (AxVec [0; 2])
  | S (S O) => expand_dims_f t (AxVec [2])
  | _ => Ok t
  end.
(** hstack_f, creation_from_tensor.rs:510-526 *)
Definition hstack_f {T} (o : order) (ts : list (tensor T)) : res (tensor T) :=
  match ts with
  | [] => Err InvalidValue
  | _ =>
    let* us := map_res atleast_1d ts in
    match us with
    | u :: _ => if (ndim (t_layout u) =? 1)%nat then concat_f o us 0 else concat_f o us 1
    | [] => Panic
    end
  end.
(** vstack_f, creation_from_tensor.rs:585-597 *)
Definition vstack_f {T} (o : order) (ts : list (tensor T)) : res (tensor T) :=
  match ts with
  | [] => Err InvalidValue
  | _ => let* us := map_res atleast_2d ts in concat_f o us 0
  end.
(** stack_f, creation_from_tensor.rs:648-680 *)
Definition stack_f {T} (o : order) (ts : list (tensor T)) (axis : Z) : res (tensor T) :=
  match ts with
  | [] => Err InvalidValue
  | t0 :: _ =>
    let* _ := map_res (fun t => check (same_shape (t_shape t) (t_shape t0)) InvalidLayout) ts in
    let* a := check_axis_insert axis (ndim (t_layout t0)) in
    let* us := map_res (fun t => expand_dims_f t (AxVal (Z.of_nat a))) ts in
    concat_f o us (Z.of_nat a)
  end.
(** unstack_f, creation_from_tensor.rs:791-812; the views share the storage *)
Definition unstack_f {T} (t : tensor T) (axis : Z) : res (list (tensor T)) :=
  let* _ := check (0 <? ndim (t_layout t))%nat InvalidLayout in
  let* a := check_axis axis (ndim (t_layout t)) in
  map_res (fun i => let* l := dim_select (t_layout t) (Z.of_nat a) (Z.of_nat i) in Ok (mkTensor (t_data t) l)) (seq 0 (extent (t_layout t) a)).

(** diag_f, creation_from_tensor.rs:57-81.  [dflt] is T::default(), [o] the device's default order; the 2-D case copies into storage
    without values. *)
Definition diag_f {T} (dflt : T) (o : order) (t : tensor T) (offset : Z) : res (tensor T) :=
  match ndim (t_layout t) with
  | S O =>
    let n := (l_size (t_layout t) + Z.to_nat (Z.abs offset))%nat in
    let l := new_contig Fixed [n; n] 0 o in
    let result := repeat dflt (l_size l) in
    let* lr := diagonal l (Some offset) (Some 0) (Some 1) in
    let* d := assign Fixed (fun x => x) result lr (t_data t) (t_layout t) in
    Ok (mkTensor d l)
  | S (S O) =>
    let* ld := diagonal (t_layout t) (Some offset) (Some 0) (Some 1) in
    let l := new_contig Fixed [l_size ld] 0 o in
    let* b := bounds_index l in
    let* c := assign Fixed Some (uninit T (snd b)) l (t_data t) ld in
    let* d := assume_init c in
    Ok (mkTensor d l)
  | _ => Err InvalidLayout
  end.
