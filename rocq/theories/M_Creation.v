(** Model of the creation functions: rstsr-core/src/tensor/creation.rs (full, zeros, ones, empty, their _like forms, eye, linspace)
    on the CPU devices.  The storage functions of the device (full_impl, zeros_impl, ones_impl, device_cpu_serial/creation.rs:13-69
    and feature_rayon/auto_impl/creation.rs:15-73) are [repeat].  diag is in M_Concat.v. *)
From Coq Require Import QArith.
From Verif Require Import Base Spec M_Layout M_Rearr M_Iter M_Kernel M_Tensor.
Local Open Scope Z_scope.

(** full_f for (Layout, fill, device), creation.rs:544-549: as many cells as the layout has elements *)
Definition full_layout {T} (l : layout) (x : T) : res (tensor T) := Ok (mkTensor (repeat x (l_size l)) l).
(** full_f for (shape, fill, order, device) and (shape, fill, device), creation.rs:560-564, 575-580 *)
Definition full_shape {T} (k : dimty) (sh : list nat) (x : T) (o : order) : res (tensor T) := full_layout (new_contig k sh 0 o) x.
(** zeros_f / ones_f for (Layout, device), creation.rs:1235-1240, 867-872: cells up to the upper bound of the layout.  [x] is
    T::zero() or T::one(). *)
Definition const_layout {T} (l : layout) (x : T) : res (tensor T) :=
  let* b := bounds_index l in Ok (mkTensor (repeat x (Z.to_nat (snd b))) l).
(** zeros_f / ones_f for (shape, order, device) and (shape, device), creation.rs:1251-1255, 883-887 *)
Definition const_shape {T} (k : dimty) (sh : list nat) (x : T) (o : order) : res (tensor T) := const_layout (new_contig k sh 0 o) x.
(** full_like_f, zeros_like_f, ones_like_f for (tensor, .., order, device), creation.rs:656-662, 1346-1352, 978-984.  [dflt] is
    TensorOrder::default(). *)
Definition like {T U} (k : dimty) (dflt : order) (t : tensor U) (x : T) (o : iter_order) : res (tensor T) :=
  let* l := layout_for_array_copy k dflt (t_layout t) o in Ok (mkTensor (repeat x (l_size l)) l).

(** eye_f for (n_rows, n_cols, k, order, device), creation.rs:416-426 *)
Definition eye_f {T} (zero one : T) (n_rows n_cols : nat) (k : Z) (o : order) : res (tensor T) :=
  let l := match o with RowMajor => new_contig Fixed [n_rows; n_cols] 0 RowMajor | ColMajor => new_contig Fixed [n_cols; n_rows] 0 ColMajor end in
  let storage := repeat zero (l_size l) in
  let* ld := diagonal l (Some k) (Some 0) (Some 1) in
  let* d := fill Fixed (fun x => x) storage ld one in
  Ok (mkTensor d l).

(** linspace_impl, device_cpu_serial/creation.rs:88-116 with exact rational numbers in place of floating-point
    numbers. *)
Fixpoint linspace_loop (n : nat) (v step : Q) : list Q :=
  match n with O => [] | S n' => v :: linspace_loop n' (v + step)%Q step end.
Definition linspace_f (start stop : Q) (n : nat) (endpoint : bool) : list Q :=
  match n with
  | O => []
  | S O => [start]
  | _ => let step := ((stop - start) / inject_Z (if endpoint then Z.of_nat n - 1 else Z.of_nat n))%Q in linspace_loop n start step
  end.
(** linspace_cpu_rayon, rstsr-native-impl/src/cpu_rayon/creation.rs:108-131; the parallel collect keeps the order of the indices *)
Definition linspace_rayon (start stop : Q) (n : nat) (endpoint : bool) : list Q :=
  match n with
  | O => []
  | S O => [start]
  | _ => let step := ((stop - start) / inject_Z (if endpoint then Z.of_nat n - 1 else Z.of_nat n))%Q in
         map (fun i => (start + inject_Z (Z.of_nat i) * step)%Q) (seq 0 n)
  end.
