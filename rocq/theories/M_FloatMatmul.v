(** Products of matrices of f32 or f64 on the serial device: the functions of M_Matmul.v at these element types, for which the
    multiplication and the addition of Rust round. *)
From Coq Require Import ZArith.
From Flocq Require Import Core BinarySingleNaN.
From Verif Require Import Base Spec M_Layout M_Tensor M_Reduce M_Matmul M_Float.

(** matmul and %, tensor/linalg/matmul.rs:72-97, with alpha = 1; [junk] is what the uninitialised memory of the result holds *)
Definition fmatmul {t : float_type} (k : dimty) (o : order) (junk : nat -> float t) (a b : tensor (float t)) : res (tensor (float t)) :=
  op_matmul k o fmul fmul fmul fadd fzero junk a b (of_int 1).
(** matmul_from, tensor/linalg/matmul.rs:45-70 *)
Definition fmatmul_from {t : float_type} (o : order) (c a b : tensor (float t)) (alpha beta : float t) : res (tensor (float t)) :=
  op_mutc_matmul o fmul fmul fmul fadd c a b alpha beta.
(** gemm_ix2_naive_cpu_rayon and inner_dot_naive_cpu_rayon, cpu_rayon/matmul_naive.rs:12-93 *)
Definition fgemm_rayon {t : float_type} (c : list (float t)) (lc : layout) (a : list (float t)) (la : layout) (b : list (float t)) (lb : layout) (alpha beta : float t) (r : res (list (float t))) : Prop :=
  gemm_rayon fmul fmul fadd fzero c lc a la b lb alpha beta r.
Definition finner_dot_rayon {t : float_type} (tr : split_tree) (c : list (float t)) (lc : layout) (a : list (float t)) (la : layout) (b : list (float t)) (lb : layout) (alpha beta : float t) : res (list (float t)) :=
  inner_dot_rayon tr fmul fmul fadd fzero c lc a la b lb alpha beta.
