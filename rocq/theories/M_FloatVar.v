(** Variances and standard deviations of tensors of f32 and f64 over axes: M_Stats.v with the arithmetic of M_Float.v; those of all elements
    are fvar_all and fstd_all of M_FloatReduce.v. *)
From Coq Require Import ZArith.
From Verif Require Import Base Spec M_Layout M_Iter M_Rearr M_Tensor M_Reduce M_Stats M_Float M_FloatReduce.

Section Variances.
  Context {t : float_type}.
  (** var_axes and std_axes, device_cpu_serial/reduction.rs:211-236, 262-287; auto_impl/reduction.rs:234-258, 289-314 *)
  Definition fvar_axes (dev : axes_kernel) (dflt : order) (a : tensor (float t)) (axes : list Z) (r : res (list (float t) * layout)) : Prop :=
    cvar_axes fzero fadd fmul same same div_count fzero fadd fsub div_count dev dflt a axes r.
  Definition fstd_axes (dev : axes_kernel) (dflt : order) (a : tensor (float t)) (axes : list Z) (r : res (list (float t) * layout)) : Prop :=
    std_axes fzero fadd fmul same same div_count fzero fadd fsub div_count fsqrt dev dflt a axes r.
End Variances.
