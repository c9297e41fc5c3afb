(** Products and norms of tensors of f32 and f64 on the CPU devices: M_Reduce.v and M_Stats.v with the arithmetic of M_Float.v. *)
From Coq Require Import ZArith.
From Verif Require Import Base Spec M_Layout M_Iter M_Rearr M_Tensor M_Reduce M_Stats M_Float M_FloatReduce.

Section Products.
  Context {t : float_type}.
  (** prod_all and prod_axes, device_cpu_serial/reduction.rs:125-147, auto_impl/reduction.rs:138-164 *)
  Definition fprod_all (dev : all_kernel) (k : dimty) (a : tensor (float t)) : res (float t) := run_all dev (of_int 1) fmul fmul same k a.
  Definition fprod_axes (dev : axes_kernel) (dflt : order) (a : tensor (float t)) (axes : list Z) (r : res (list (float t) * layout)) : Prop :=
    run_axes dev dflt (of_int 1) fmul fmul same a axes r.
  (** l2_norm_axes, device_cpu_serial/reduction.rs:306-320, auto_impl/reduction.rs:337-353; l2_norm_all is fnorm_all of M_FloatReduce.v *)
  Definition fnorm_axes (dev : axes_kernel) (dflt : order) (a : tensor (float t)) (axes : list Z) (r : res (list (float t) * layout)) : Prop :=
    l2_norm_axes fmul same same fzero fadd fsqrt dev dflt a axes r.
End Products.
