(** Model of rstsr-common/src/pack_array.rs and rstsr-core/src/tensor/pack_array.rs.  An array [T; N] is a list of N elements; the
    reinterpretation of the same memory ([Vec::from_raw_parts] with another element type) cuts the list into pieces of N, or joins
    them.  The owned, borrowed and mutable variants differ only in ownership. *)
From Verif Require Import Base Spec M_Layout M_Indexer M_Tensor.
Local Open Scope Z_scope.

(** pack_array_f of Vec<T>, &[T] and &mut [T], pack_array.rs:36-47, 71-80, 102-112; [len % 0] panics *)
Definition pack_array_f {T} (n : nat) (xs : list T) : res (list (list T)) :=
  if (n =? 0)%nat then Panic else
  let* _ := check (length xs mod n =? 0)%nat InvalidValue in
  Ok (map (fun q => firstn n (skipn (q * n)%nat xs)) (seq 0 (length xs / n))).
(** unpack_array, pack_array.rs:50-58, 83-90, 115-122 *)
Definition unpack_array {T} (ys : list (list T)) : list T := concat ys.

(** into_pack_array_f, tensor/pack_array.rs:125-162.  (isize division truncates: [Z.quot].) *)
Definition into_pack_array_f {T} (n : nat) (t : tensor T) (axis : Z) : res (tensor (list T)) :=
  let l := t_layout t in
  let* a := check_axis axis (ndim l) in
  let* _ := check (nth a (l_stride l) 0 =? 1) InvalidLayout in
  let* _ := check (nth a (l_shape l) 0 =? n)%nat InvalidLayout in
  if (n =? 0)%nat then Panic else
  let* _ := check (as_usize (l_offset l) mod Z.of_nat n =? 0) InvalidLayout in
  let* data := pack_array_f n (t_data t) in
  let* l' := dim_chop l (Z.of_nat a) in
  let stride := map (fun s => Z.quot s (Z.of_nat n)) (l_stride l') in
  Ok (mkTensor data (mkLayout (l_shape l') stride (as_usize (l_offset l') / Z.of_nat n))).
(** into_unpack_array_f, tensor/pack_array.rs:188-217; N is a parameter of the element type *)
Definition into_unpack_array_f {T} (n : nat) (t : tensor (list T)) (axis : Z) : res (tensor T) :=
  let l := t_layout t in
  let* a := check_axis_insert axis (ndim l) in
  let data := unpack_array (t_data t) in
  let shape := insert_at (l_shape l) a n in
  let stride := insert_at (map (fun s => s * Z.of_nat n) (l_stride l)) a 1 in
  Ok (mkTensor data (mkLayout shape stride (l_offset l * Z.of_nat n))).
