(** Products of matrices of Complex<f32> or Complex<f64>: the functions of M_Matmul.v with the arithmetic of num-complex (M_FloatComplex.v). *)
From Coq Require Import ZArith.
From Flocq Require Import Core BinarySingleNaN.
From Verif Require Import Base Spec M_Layout M_Tensor M_Reduce M_Matmul M_Float M_FloatComplex.

Section Complex.
  Context {t : float_type}.
  (** TC::one() of num-complex, as matmul.rs:72-97 passes it *)
  Definition cone : complex t := (of_int 1, fzero).
  (** matmul and %, tensor/linalg/matmul.rs:72-97, with alpha = 1; [junk] is what the uninitialised memory of the result holds *)
  Definition cmatmul (k : dimty) (o : order) (junk : nat -> complex t) (a b : tensor (complex t)) : res (tensor (complex t)) :=
    op_matmul k o cmul cmul cmul cadd czero junk a b cone.
  (** gemm_ix2_naive_cpu_rayon and inner_dot_naive_cpu_rayon, cpu_rayon/matmul_naive.rs:12-93, with alpha = 1 and beta = 0 as matmul calls them *)
  Definition cgemm_rayon (c : list (complex t)) (lc : layout) (a : list (complex t)) (la : layout) (b : list (complex t)) (lb : layout) (r : res (list (complex t))) : Prop :=
    gemm_rayon cmul cmul cadd czero c lc a la b lb cone czero r.
  Definition cinner_dot_rayon (tr : split_tree) (c : list (complex t)) (lc : layout) (a : list (complex t)) (la : layout) (b : list (complex t)) (lb : layout) : res (list (complex t)) :=
    inner_dot_rayon tr cmul cmul cadd czero c lc a la b lb cone czero.
End Complex.
