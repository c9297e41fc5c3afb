(** Tables of distances of vectors of f32 and f64, without weights: M_Dist.v with the arithmetic of M_Float.v.
    Simplification: powi(2) is one multiplication, as it is compiled; Rust leaves its precision open. *)
From Coq Require Import ZArith.
From Verif Require Import Base Spec M_Layout M_Tensor M_Dist M_Float M_FloatReduce M_FloatClose.

Section Distances.
  Context {t : float_type}.
  Definition fsquare (x : float t) : float t := fmul x x.
  (** MetricEuclidean, MetricSqEuclidean, MetricCityBlock, MetricChebyshev, rows 1, 4, 3 and 6 of the table, rstsr-sci-traits/src/distance/metric.rs:271-276, and
      inner_chebyshev, metric.rs:200-203; max is the method of Rust, which returns the other operand when one is a NaN *)
  Definition feuclidean : metric (float t) (float t) unit (float t) (float t) := euclidean fzero fadd fmul fsub false fsquare fsqrt.
  Definition fsq_euclidean : metric (float t) (float t) unit (float t) (float t) := sq_euclidean fzero fadd fmul fsub false fsquare.
  Definition fcity_block : metric (float t) (float t) unit (float t) (float t) := city_block fzero fadd fmul fsub fabs false.
  Definition fchebyshev : metric (float t) (float t) unit (float t) (float t) := chebyshev fzero fmax (fun w => feq w fzero) fsub fabs false.
  (** MetricHamming, row 8 of the table: counts and divides in f64 whatever the entries are *)
  Definition fhamming : metric (float t) (float F64) unit (float F64) (float F64) := hamming fzero fadd fdiv feq.
  (** cdist_f, impl_cpu_serial.rs:9-84, impl_faer.rs, auto_impl_rayon.rs: [sigma] is the order in which the cells are computed *)
  Definition fcdist (M : metric (float t) (float t) unit (float t) (float t)) (sigma : list (nat * nat) -> list (nat * nat)) (dev : order) (a b : tensor (float t)) : res (tensor (float t)) :=
    cdist M fzero (of_int 1) fadd (fun n => of_int (Z.of_nat n)) sigma (match t with F32 => 4 | F64 => 8 end) dev a b None.
  Definition fcdist_hamming (sigma : list (nat * nat) -> list (nat * nat)) (dev : order) (a b : tensor (float t)) : res (tensor (float F64)) :=
    cdist fhamming fzero (of_int 1) fadd (fun n => of_int (Z.of_nat n)) sigma (match t with F32 => 4 | F64 => 8 end) dev a b None.
End Distances.
