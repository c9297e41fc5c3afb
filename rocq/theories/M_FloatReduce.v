(** The reductions of the CPU devices for the element types f32 and f64: rstsr-core/src/device_cpu_serial/reduction.rs and
    feature_rayon/auto_impl/reduction.rs, with the kernels of M_Reduce.v and the arithmetic of M_Float.v, and the minimum and maximum of
    rstsr-dtype-traits/src/ext_real.rs:69-86.  A reduction over axes is a relation: [r] is a possible result. *)
From Coq Require Import ZArith.
From Flocq Require Import Core BinarySingleNaN.
From Verif Require Import Base Spec M_Layout M_Indexer M_Iter M_Rearr M_Tensor M_Reduce M_Stats M_Float.

Section Reductions.
  Context {t : float_type}.
  (** T::from_usize(n), and the division by it *)
  Definition div_count (x : float t) (n : nat) : float t := fdiv x (of_int (Z.of_nat n)).
  Definition fsqrt (x : float t) : float t := @Bsqrt _ _ (prec_ok t) (emax_ok t) mode_NE x.
  Definition same (x : float t) : float t := x.
  (** sum_all and sum_axes, device_cpu_serial/reduction.rs:14-36, auto_impl/reduction.rs:14-42 *)
  Definition fsum_all (dev : all_kernel) (k : dimty) (a : tensor (float t)) : res (float t) := run_all dev fzero fadd fadd same k a.
  Definition fsum_axes (dev : axes_kernel) (dflt : order) (a : tensor (float t)) (axes : list Z) (r : res (list (float t) * layout)) : Prop :=
    run_axes dev dflt fzero fadd fadd same a axes r.
  (** mean_all and mean_axes, device_cpu_serial/reduction.rs:157-184, auto_impl/reduction.rs:174-207 *)
  Definition fmean_all (dev : all_kernel) (k : dimty) (a : tensor (float t)) : res (float t) :=
    run_all dev fzero fadd fadd (fun x => div_count x (l_size (t_layout a))) k a.
  Definition fmean_axes (dev : axes_kernel) (dflt : order) (a : tensor (float t)) (axes : list Z) (r : res (list (float t) * layout)) : Prop :=
    match dim_split_axes (t_layout a) axes with
    | Ok p => run_axes dev dflt fzero fadd fadd (fun x => div_count x (l_size (fst p))) a axes r
    | Err e => r = Err e
    | Panic => r = Panic
    end.
  (** var_all, std_all and l2_norm_all, device_cpu_serial/reduction.rs:194-209, 244-260, 296-304 and their parallel versions; conj and re
      of a real number are the number *)
  Definition fvar_all (dev : all_kernel) (k : dimty) (a : tensor (float t)) : res (float t) :=
    cvar_all fzero fadd fmul same same div_count fzero fadd fsub div_count dev k a.
  Definition fstd_all (dev : all_kernel) (k : dimty) (a : tensor (float t)) : res (float t) :=
    std_all fzero fadd fmul same same div_count fzero fadd fsub div_count fsqrt dev k a.
  Definition fnorm_all (dev : all_kernel) (k : dimty) (a : tensor (float t)) : res (float t) := l2_norm_all fmul same same fzero fadd fsqrt dev k a.

  (** ext_min and ext_max, ext_real.rs:74-76, 80-82: the methods min and max of Rust, which return the other operand when one is a NaN.
      (Simplification: of two zeros of different sign the first is returned; Rust leaves it open.) *)
  Definition fmin (x y : float t) : float t := if is_nan x then y else if is_nan y then x else if flt y x then y else x.
  Definition fmax (x y : float t) : float t := if is_nan x then y else if is_nan y then x else if flt x y then y else x.
  (** ext_min_value and ext_max_value, ext_real.rs:77-79, 83-85: the constants MIN and MAX, the finite numbers of greatest magnitude *)
  Definition fhighest : float t := @Bmax_float _ _ (prec_ok t) (emax_ok t).
  Definition flowest : float t := Bopp fhighest.
  (** min_all, max_all, min_axes and max_axes, device_cpu_serial/reduction.rs:46-75, 84-115, auto_impl/reduction.rs:50-84, 94-128 *)
  Definition fextremum_all (worst : float t) (mn : float t -> float t -> float t) (dev : all_kernel) (k : dimty) (a : tensor (float t)) : res (float t) :=
    if (l_size (t_layout a) =? 0)%nat then Err InvalidValue else run_all dev worst mn mn same k a.
  Definition fmin_all := fextremum_all fhighest fmin.
  Definition fmax_all := fextremum_all flowest fmax.
  Definition fmin_axes := extremum_axes fhighest fmin.
  Definition fmax_axes := extremum_axes flowest fmax.
  (** the comparisons of argmin and argmax, device_cpu_serial/reduction.rs:528-541, 577-590, auto_impl/reduction.rs:582-596, 635-649 *)
  Definition better (greatest : bool) (y x : float t) : bool := if greatest then flt x y else flt y x.
  (** unraveled_argmin_all, unraveled_argmin_axes and those of argmax, device_cpu_serial/reduction.rs:524-620, and of the parallel device,
      auto_impl/reduction.rs:577-680: the kernels of M_Reduce.v with the comparison *)
  Definition farg_all (greatest : bool) (k : dimty) (a : tensor (float t)) : res (list nat) :=
    reduce_all_unraveled_arg (arg_comp (better greatest)) (arg_eq feq) k (t_data a) (t_layout a).
  Definition farg_all_rayon (greatest : bool) (switch : nat) (tr : split_tree) (k : dimty) (a : tensor (float t)) : res (list nat) :=
    reduce_all_unraveled_arg_rayon (arg_comp (better greatest)) (arg_eq feq) switch tr k (t_data a) (t_layout a).
  Definition farg_axes (greatest : bool) (dflt : order) (dio : iter_order) (k : dimty) (a : tensor (float t)) (axes : list Z) : res (list (list nat) * layout * layout) :=
    reduce_axes_unraveled_arg (arg_comp (better greatest)) (arg_eq feq) dflt dio k (t_data a) (t_layout a) axes.
  (** argmin_all, argmin_axes and those of argmax, device_cpu_serial/reduction.rs:322-425, and argmin_all and argmax_all of the parallel device,
      auto_impl/reduction.rs:389-410, 444-465 ([par]: its threshold and its schedule); both devices ravel with the order RowMajor *)
  Definition farg_all_flat (greatest : bool) (par : option (nat * split_tree)) (k : dimty) (a : tensor (float t)) (o : order) : res Z :=
    match par with
    | None => reduce_all_arg (arg_comp (better greatest)) (arg_eq feq) k (t_data a) (t_layout a) o
    | Some (switch, tr) => reduce_all_arg_rayon (arg_comp (better greatest)) (arg_eq feq) switch tr k (t_data a) (t_layout a) o
    end.
  Definition farg_axes_flat (greatest : bool) (dflt : order) (dio : iter_order) (k : dimty) (a : tensor (float t)) (axes : list Z) (o : order) : res (list Z * layout) :=
    reduce_axes_arg (arg_comp (better greatest)) (arg_eq feq) dflt dio k (t_data a) (t_layout a) axes o.
End Reductions.
