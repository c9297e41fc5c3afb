(** Sums, means, norms and dot products of tensors of Complex<f32> and Complex<f64> on the CPU devices: M_Stats.v and M_Vecdot.v with the
    arithmetic of the crate num-complex, which rstsr uses through the traits ComplexFloat and ExtNum, over that of M_Float.v. *)
From Coq Require Import ZArith.
From Flocq Require Import Core BinarySingleNaN.
From Verif Require Import Base Spec M_Layout M_Indexer M_Iter M_Rearr M_Tensor M_Reduce M_Stats M_Vecdot Spec_Tensordot M_Float M_FloatReduce.

(** real and imaginary part *)
Definition complex (t : float_type) : Type := float t * float t.
Section Complex.
  Context {t : float_type}.
  Definition czero : complex t := (fzero, fzero).
  (** the operators +, * and / of num-complex: by parts; (ac - bd) + (ad + bc)i; and (ac + bd) / |w|^2 + ((bc - ad) / |w|^2)i with
      |w|^2 = cc + dd *)
  Definition cadd (x y : complex t) : complex t := (fadd (fst x) (fst y), fadd (snd x) (snd y)).
  Definition cmul (x y : complex t) : complex t :=
    (fsub (fmul (fst x) (fst y)) (fmul (snd x) (snd y)), fadd (fmul (fst x) (snd y)) (fmul (snd x) (fst y))).
  Definition cdiv (x y : complex t) : complex t :=
    let n := fadd (fmul (fst y) (fst y)) (fmul (snd y) (snd y)) in
    (fdiv (fadd (fmul (fst x) (fst y)) (fmul (snd x) (snd y))) n, fdiv (fsub (fmul (snd x) (fst y)) (fmul (fst x) (snd y))) n).
  (** conj of num-complex, and ext_conj, rstsr-dtype-traits/src/ext_num.rs:293-295 *)
  Definition cconj (x : complex t) : complex t := (fst x, Bopp (snd x)).
  Definition csame (x : complex t) : complex t := x.
  (** the division by T::from_usize(n), device_cpu_serial/reduction.rs:162, 180: the complex division by n + 0i *)
  Definition cdiv_count (x : complex t) (n : nat) : complex t := cdiv x (of_int (Z.of_nat n), fzero).
  (** sum_all and sum_axes, device_cpu_serial/reduction.rs:14-36, auto_impl/reduction.rs:14-42 *)
  Definition csum_all (dev : all_kernel) (k : dimty) (a : tensor (complex t)) : res (complex t) := run_all dev czero cadd cadd csame k a.
  Definition csum_axes (dev : axes_kernel) (dflt : order) (a : tensor (complex t)) (axes : list Z) (r : res (list (complex t) * layout)) : Prop :=
    run_axes dev dflt czero cadd cadd csame a axes r.
  (** mean_all and mean_axes, device_cpu_serial/reduction.rs:157-184, auto_impl/reduction.rs:174-207 *)
  Definition cmean_all (dev : all_kernel) (k : dimty) (a : tensor (complex t)) : res (complex t) :=
    run_all dev czero cadd cadd (fun x => cdiv_count x (l_size (t_layout a))) k a.
  Definition cmean_axes (dev : axes_kernel) (dflt : order) (a : tensor (complex t)) (axes : list Z) (r : res (list (complex t) * layout)) : Prop :=
    match dim_split_axes (t_layout a) axes with
    | Ok p => run_axes dev dflt czero cadd cadd (fun x => cdiv_count x (l_size (fst p))) a axes r
    | Err e => r = Err e
    | Panic => r = Panic
    end.
  (** l2_norm_all and l2_norm_axes, device_cpu_serial/reduction.rs:296-320, auto_impl/reduction.rs:325-353 *)
  Definition cnorm_all (dev : all_kernel) (k : dimty) (a : tensor (complex t)) : res (float t) := l2_norm_all cmul cconj fst fzero fadd fsqrt dev k a.
  Definition cnorm_axes (dev : axes_kernel) (dflt : order) (a : tensor (complex t)) (axes : list Z) (r : res (list (float t) * layout)) : Prop :=
    l2_norm_axes cmul cconj fst fzero fadd fsqrt dev dflt a axes r.
  (** vecdot_f, rstsr-core/src/tensor/linalg/vecdot.rs:160-244, on the serial and the rayon device ([r] is the result of some schedule),
      and vecdot_from_f, vecdot.rs:249-329 *)
  Definition cdot_mul (x y : complex t) : complex t := cmul (cconj x) y.
  Definition cvecdot (o : order) (a b : tensor (complex t)) (axes : axes_pair) : res (tensor (complex t)) := vecdot czero cadd cdot_mul o a b axes.
  Definition cvecdot_rayon (switch : nat) (pool : bool) (o : order) (a b : tensor (complex t)) (axes : axes_pair) (r : res (tensor (complex t))) : Prop :=
    vecdot_on_rayon czero cadd cdot_mul switch pool o a b axes r.
  Definition cvecdot_from (o : order) (c a b : tensor (complex t)) (axes : axes_pair) : res (tensor (complex t)) := vecdot_from czero cadd cdot_mul o c a b axes.
End Complex.
