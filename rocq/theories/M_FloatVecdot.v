(** Model of vecdot of tensors of f32 and f64: M_Vecdot.v with floating-point multiplication and addition; ext_conj of a real number is
    the number, rstsr-dtype-traits/src/ext_num.rs:48-50. *)
From Verif Require Import Base Spec M_Layout M_Tensor M_Vecdot Spec_Tensordot M_Float.

(** vecdot_f, rstsr-core/src/tensor/linalg/vecdot.rs:160-244, on the serial device *)
Definition fvecdot {t} (o : order) (a b : tensor (float t)) (axes : axes_pair) : res (tensor (float t)) := vecdot fzero fadd fmul o a b axes.
(** the same on the rayon device: [r] is the result of some schedule *)
Definition fvecdot_rayon {t} (switch : nat) (pool : bool) (o : order) (a b : tensor (float t)) (axes : axes_pair) (r : res (tensor (float t))) : Prop :=
  vecdot_on_rayon fzero fadd fmul switch pool o a b axes r.
(** vecdot_from_f, vecdot.rs:249-329 *)
Definition fvecdot_from {t} (o : order) (c a b : tensor (float t)) (axes : axes_pair) : res (tensor (float t)) := vecdot_from fzero fadd fmul o c a b axes.
