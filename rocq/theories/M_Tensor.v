(** Model of tensors and of the tensor-level elementwise operations: rstsr-core/src/tensorbase.rs, tensor/assignment.rs,
    tensor/operators/op_with_func.rs and op_binary_arithmetic.rs, tensor/map_elementwise.rs, tensor/asarray.rs,
    tensor/ownership_conversion.rs, tensor/manipulation/{to_layout,to_contig,reshape}.rs, for the CPU devices.
    Every tensor is assumed to live on the same device (the DeviceMismatch checks are not modelled). *)
From Verif Require Import Base Spec M_Layout M_Indexer M_Broadcast M_Reshape M_Rearr M_Iter M_Kernel.
Local Open Scope Z_scope.

(** struct TensorBase, tensorbase.rs:10-20: a storage and a layout.  Owned tensors and views are the same here; an
    operation on a mutable view returns the new content of the storage. *)
Record tensor (T : Type) := mkTensor { t_data : list T; t_layout : layout }.
Arguments mkTensor {T} _ _.
Arguments t_data {T} _.
Arguments t_layout {T} _.
Definition t_shape {T} (t : tensor T) : list nat := l_shape (t_layout t).
(** the element at an index *)
Definition at_ {T} (t : tensor T) (ix : list nat) : option T := elem (t_data t) (t_layout t) ix.
(** A tensor as TensorBase::new_f accepts it. *)
Definition tensor_ok {T} (t : tensor T) : Prop := accepted (t_layout t) /\ inside (t_layout t) (length (t_data t)).

(** TensorBase::new_f, tensorbase.rs:120-129 *)
Definition tensor_new {T} (data : list T) (l : layout) : res (tensor T) :=
  let* _ := check_strides l true in
  let* b := bounds_index l in
  let* _ := check (snd b <=? Z.of_nat (length data)) ValueOutOfRange in
  Ok (mkTensor data l).
(** uninit_impl, device_cpu_serial/creation.rs:32-38: storage whose cells hold no value *)
Definition uninit (T : Type) (n : Z) : list (option T) := repeat None (Z.to_nat n).
(** assume_init_impl, device_cpu_serial/creation.rs:40-52.  A cell that was never written is undefined behaviour in the
    code; here it is [Panic], so that proving the absence of [Panic] proves that every cell was written. *)
Definition assume_init {T} (l : list (option T)) : res (list T) :=
  map_res (fun x => match x with Some v => Ok v | None => Panic end) l.

(** op_refa_refb_func, op_with_func.rs:45-82; the closure writes [g a b] into an uninitialised cell.  Also the [&a op &b]
    operators, op_binary_arithmetic.rs:188-210, and mapb_fnmut_f, map_elementwise.rs:124-160.  [k] is the dimension type
    of the result, [o] the device's default order.  TensorIterOrder::default() is K. *)
Definition op_refa_refb_func {A B C} (k : dimty) (o : order) (g : A -> B -> C) (a : tensor A) (b : tensor B) : res (tensor C) :=
  let* p := broadcast_layout (t_layout a) (t_layout b) o in
  let '(la, lb) := p in
  let* lc := get_layout_for_binary_op la lb o in
  let* bd := bounds_index lc in
  let* c := op_mutc_refa_refb k (uninit C (snd bd)) lc (t_data a) la (t_data b) lb (fun _ x y => Some (g x y)) in
  let* c := assume_init c in
  tensor_new c lc.
(** op_mutc_refa_refb_func, op_with_func.rs:6-43, and add_with_output_f etc., op_binary_arithmetic.rs:579-621; returns
    the new storage of [c] *)
Definition op_mutc_refa_refb_func {A B C} (k : dimty) (o : order) (g : C -> A -> B -> C) (c : tensor C) (a : tensor A) (b : tensor B) : res (tensor C) :=
  let lc := t_layout c in
  let* p := broadcast_layout_to_first k lc (t_layout a) o in
  let* _ := check (layout_eqb (fst p) lc) InvalidLayout in
  let* q := broadcast_layout_to_first k lc (t_layout b) o in
  let* _ := check (layout_eqb (fst q) lc) InvalidLayout in
  let* d := op_mutc_refa_refb k (t_data c) (fst q) (t_data a) (snd p) (t_data b) (snd q) g in
  Ok (mkTensor d lc).
(** op_muta_refb_func, op_with_func.rs:84-117 *)
Definition op_muta_refb_func {A B} (k : dimty) (o : order) (g : A -> B -> A) (a : tensor A) (b : tensor B) : res (tensor A) :=
  let la := t_layout a in
  let* p := broadcast_layout_to_first k la (t_layout b) o in
  let* _ := check (layout_eqb (fst p) la) InvalidLayout in
  let* d := op_muta_refb k (t_data a) (fst p) (t_data b) (snd p) g in
  Ok (mkTensor d la).
(** op_muta_func, op_with_func.rs:119-132 *)
Definition op_muta_func {A} (k : dimty) (g : A -> A) (a : tensor A) : res (tensor A) :=
  let* d := op_muta k (t_data a) (t_layout a) g in Ok (mkTensor d (t_layout a)).
(** [a op &b] with [a] owned, op_binary_arithmetic.rs:280-306: the storage of [a] is reused when its layout can hold the
    result.  (k: dimension type of [a]; the result's is converted by into_dim_f, which cannot fail here.) *)
Definition op_consume_l {A B} (k : dimty) (o : order) (g : A -> B -> A) (a : tensor A) (b : tensor B) : res (tensor A) :=
  match broadcast_layout_to_first k (t_layout a) (t_layout b) o with
  | Panic => Panic
  | Err _ => op_refa_refb_func k o g a b
  | Ok p =>
    if is_broadcasted (t_layout a) then op_refa_refb_func k o g a b
    else if negb (layout_eqb (fst p) (t_layout a)) then op_refa_refb_func k o g a b
    else let* d := op_muta_refb k (t_data a) (fst p) (t_data b) (snd p) g in Ok (mkTensor d (fst p))
  end.
(** [&a op b] with [b] owned, op_binary_arithmetic.rs:330-354 *)
Definition op_consume_r {A B} (k : dimty) (o : order) (g : A -> B -> B) (a : tensor A) (b : tensor B) : res (tensor B) :=
  match broadcast_layout_to_first k (t_layout b) (t_layout a) o with
  | Panic => Panic
  | Err _ => op_refa_refb_func k o g a b
  | Ok p =>
    if is_broadcasted (t_layout b) then op_refa_refb_func k o g a b
    else if negb (layout_eqb (fst p) (t_layout b)) then op_refa_refb_func k o g a b
    else let* d := op_muta_refb k (t_data b) (fst p) (t_data a) (snd p) (fun y x => g x y) in Ok (mkTensor d (fst p))
  end.
(** [a op b] with both owned, op_binary_arithmetic.rs:426-450 *)
Definition op_consume_lr {A} (k : dimty) (o : order) (g : A -> A -> A) (a b : tensor A) : res (tensor A) :=
  let fits x y := match broadcast_layout_to_first k (t_layout x) (t_layout y) o with
                  | Ok p => negb (is_broadcasted (t_layout x)) && layout_eqb (fst p) (t_layout x)
                  | _ => false end in
  if fits a b then op_consume_l k o g a b
  else if fits b a then op_consume_r k o g a b
  else op_refa_refb_func k o g a b.

(** [a op= &b], op_binary_assign.rs:120-131: as op_muta_refb_func, but the broadcast is computed in IxD (to_dim back to the
    target's dimension type cannot fail once the layouts are equal) *)
Definition op_assign {A B} (k : dimty) (o : order) (g : A -> B -> A) (a : tensor A) (b : tensor B) : res (tensor A) :=
  let la := t_layout a in
  let* p := broadcast_layout_to_first Dyn la (t_layout b) o in
  let* _ := check (layout_eqb (fst p) la) InvalidLayout in
  let* d := op_muta_refb k (t_data a) (fst p) (t_data b) (snd p) g in
  Ok (mkTensor d la).
(** comparison and math functions of two tensors (equal_f, less_f, maximum_f, pow_f, ...), op_binary_common.rs:76-108 *)
Definition op_common {A B C} (k : dimty) (dflt o : order) (g : A -> B -> C) (a : tensor A) (b : tensor B) : res (tensor C) :=
  let* p := broadcast_layout (t_layout a) (t_layout b) o in
  let '(la, lb) := p in
  let* lc_a := layout_for_array_copy k dflt la OK in
  let* lc_b := layout_for_array_copy k dflt lb OK in
  let lc := if layout_eqb lc_a lc_b then lc_a else new_contig k (l_shape la) 0 o in
  let* bd := bounds_index lc in
  let* c := op_mutc_refa_refb k (uninit C (snd bd)) lc (t_data a) la (t_data b) lb (fun _ x y => Some (g x y)) in
  let* c := assume_init c in
  tensor_new c lc.
(** [&a op num], op_binary_arithmetic.rs:907-918, op_binary_common.rs:137-149 *)
Definition op_refa_numb {A B C} (k : dimty) (dflt : order) (g : A -> B -> C) (a : tensor A) (b : B) : res (tensor C) :=
  let* lc := layout_for_array_copy k dflt (t_layout a) OK in
  let* bd := bounds_index lc in
  let* c := op_mutc_refa_numb k (uninit C (snd bd)) lc (t_data a) (t_layout a) b (fun _ x y => Some (g x y)) in
  let* c := assume_init c in
  tensor_new c lc.
(** [num op &b], op_binary_arithmetic.rs:672-681, 713-722, op_binary_common.rs:177-189 *)
Definition op_numa_refb {A B C} (k : dimty) (dflt : order) (g : A -> B -> C) (a : A) (b : tensor B) : res (tensor C) :=
  let* lc := layout_for_array_copy k dflt (t_layout b) OK in
  let* bd := bounds_index lc in
  let* c := op_mutc_numa_refb k (uninit C (snd bd)) lc a (t_data b) (t_layout b) (fun _ x y => Some (g x y)) in
  let* c := assume_init c in
  tensor_new c lc.
(** [a op num] and [num op a] with [a] owned, and [a op= num]: op_binary_arithmetic.rs:747-753, 958-964,
    op_binary_assign.rs:169-173 *)
Definition op_muta_numb_f {A B} (k : dimty) (g : A -> B -> A) (a : tensor A) (b : B) : res (tensor A) :=
  let* d := op_muta_numb k (t_data a) (t_layout a) b g in Ok (mkTensor d (t_layout a)).

(** assign_f, assignment.rs:36-57.  The broadcast is computed in IxD and converted back to the target's dimension type. *)
Definition assign_f {A B} (k : dimty) (o : order) (cast : B -> A) (a : tensor A) (b : tensor B) : res (tensor A) :=
  let la := t_layout a in
  let* _ := check (negb (is_broadcasted la)) InvalidLayout in
  let* p := broadcast_layout_to_first Dyn la (t_layout b) o in
  let* _ := match k with Dyn => Ok tt | Fixed => check (ndim (fst p) =? ndim la)%nat InvalidLayout end in
  let* d := assign k cast (t_data a) (fst p) (t_data b) (snd p) in
  Ok (mkTensor d la).
(** fill_f, assignment.rs:120-126 *)
Definition fill_f {A B} (k : dimty) (cast : B -> A) (a : tensor A) (v : B) : res (tensor A) :=
  let* _ := check (negb (is_broadcasted (t_layout a))) InvalidLayout in
  let* d := fill k cast (t_data a) (t_layout a) v in
  Ok (mkTensor d (t_layout a)).

(** map_f / map_fnmut_f, map_elementwise.rs:16-33, 235-252; [dflt] is the compile-time default order *)
Definition map_f {A B} (k : dimty) (dflt : order) (g : A -> B) (a : tensor A) : res (tensor B) :=
  let* lc := layout_for_array_copy k dflt (t_layout a) OK in
  let* bd := bounds_index lc in
  let* c := op_muta_refb k (uninit B (snd bd)) lc (t_data a) (t_layout a) (fun _ x => Some (g x)) in
  let* c := assume_init c in
  tensor_new c lc.
(** mapi_f / mapi_fnmut_f, map_elementwise.rs:67-84 *)
Definition mapi_f {A} (k : dimty) (g : A -> A) (a : tensor A) : res (tensor A) :=
  let* l := greedy_layout (t_layout a) false in
  let* d := op_muta k (t_data a) (fst l) g in
  Ok (mkTensor d (t_layout a)).

(** asarray_f of (&tensor, order), asarray.rs:329-340 *)
Definition asarray {A} (k : dimty) (dflt : order) (a : tensor A) (ord : iter_order) : res (tensor A) :=
  let* lc := layout_for_array_copy k dflt (t_layout a) ord in
  let* c := assign k Some (uninit A (Z.of_nat (l_size lc))) lc (t_data a) (t_layout a) in
  let* c := assume_init c in
  tensor_new c lc.
(** asarray_f of (owned tensor, order), asarray.rs:365-380 *)
Definition asarray_owned {A} (k : dimty) (dflt : order) (a : tensor A) (ord : iter_order) : res (tensor A) :=
  let* lc := layout_for_array_copy k dflt (t_layout a) ord in
  if layout_eqb lc (t_layout a) then Ok a else asarray k dflt a ord.
(** into_owned / to_owned / clone, ownership_conversion.rs:96-103, 114-134 *)
Definition into_owned {A} (k : dimty) (dflt : order) (a : tensor A) : res (tensor A) :=
  let* b := unwrap (bounds_index (t_layout a)) in
  if (fst b =? 0) && (snd b =? Z.of_nat (length (t_data a))) && (snd b =? Z.of_nat (l_size (t_layout a)))
  then Ok a
  else unwrap (asarray k dflt a OK).
(** to_raw_f / to_vec of a one-dimensional tensor, ownership_conversion.rs:177-187 *)
Definition to_vec {A} (a : tensor A) : res (list A) :=
  let* _ := check (ndim (t_layout a) =? 1)%nat InvalidLayout in
  let n := l_size (t_layout a) in
  let* c := assign Fixed Some (uninit A (Z.of_nat n)) (new_c_contig Fixed [n] 0) (t_data a) (t_layout a) in
  assume_init c.
(** into_raw_f / into_vec_f of an owned one-dimensional tensor, ownership_conversion.rs:200-211, 225-237 *)
Definition into_vec {A} (a : tensor A) : res (list A) :=
  let* _ := check (ndim (t_layout a) =? 1)%nat InvalidLayout in
  let* b := bounds_index (t_layout a) in
  if (fst b =? 0) && (snd b =? Z.of_nat (length (t_data a))) && (snd b =? Z.of_nat (l_size (t_layout a))) && (0 <? hd 0 (l_stride (t_layout a)))
  then Ok (t_data a) else to_vec a.
(** to_scalar_f, ownership_conversion.rs:255-265 *)
Definition to_scalar {A} (a : tensor A) : res A :=
  let* _ := check (l_size (t_layout a) =? 1)%nat InvalidLayout in zget (t_data a) (l_offset (t_layout a)).

(** change_layout_f, manipulation/to_layout.rs:8-40.  [o] is the device's default order; [k] the dimension type used by
    the iterators (the code's two dimension types are merged). *)
Definition change_layout {A} (k : dimty) (o : order) (a : tensor A) (l : layout) : res (tensor A) :=
  let* _ := check (l_size (t_layout a) =? l_size l)%nat InvalidLayout in
  if layout_eqb (t_layout a) l then Ok (mkTensor (t_data a) l)
  else let* b := bounds_index l in
       let* c := assign_arbitary k Some (uninit A (snd b)) l (t_data a) (t_layout a) o in
       let* c := assume_init c in
       Ok (mkTensor c l).
(** change_contig_f, manipulation/to_contig.rs:8-23 *)
Definition change_contig {A} (k : dimty) (o : order) (a : tensor A) (ord : order) : res (tensor A) :=
  change_layout k o a (new_contig k (l_shape (t_layout a)) 0 ord).
(** change_prefer_f, manipulation/to_contig.rs:229-243 *)
Definition change_prefer {A} (k : dimty) (o : order) (a : tensor A) (ord : order) : res (tensor A) :=
  if match ord with RowMajor => c_prefer (t_layout a) | ColMajor => f_prefer (t_layout a) end then Ok a
  else change_contig k o a ord.
(** change_shape_with_args_f, manipulation/reshape.rs:113-163; [ord] is the requested order (the device's when absent),
    [copy] the copy argument *)
Definition change_shape {A} (k : dimty) (a : tensor A) (shape : list Z) (ord : order) (copy : option bool) : res (tensor A) :=
  let* s := reshape_substitute_negatives shape (l_size (t_layout a)) in
  let may_view := match copy with Some true => false | _ => true end in
  let* v := (if may_view then layout_reshapeable (t_layout a) s ord else Ok None) in
  match v with
  | Some l => Ok (mkTensor (t_data a) l)
  | None =>
    let* _ := check (match copy with Some false => false | _ => true end) InvalidValue in
    let l := new_contig Dyn s 0 ord in
    let* c := assign_arbitary k Some (uninit A (Z.of_nat (l_size l))) l (t_data a) (t_layout a) ord in
    let* c := assume_init c in
    Ok (mkTensor c l)
  end.
