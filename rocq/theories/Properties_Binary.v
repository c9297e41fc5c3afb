(** Property theorems about allclose and isclose (C61, C62).  Statements use Spec.v and the modelled entry points of M_Binary.v
    only. *)
From Coq Require Import SpecFloat.
From Verif Require Import Base Spec P_Index M_Layout M_Rearr M_Iter M_Kernel M_Tensor M_Reduce M_Binary P_Strides P_Tensor P_Rearr Q_Binary.
Local Open Scope Z_scope.

Definition ex_a : tensor Z := mkTensor [1; 2; 3; 4; 5; 6; 7] (mkLayout [2; 3]%nat [-1; 2] 2).
Definition ex_b : tensor Z := mkTensor [3; 4; 6] (mkLayout [3]%nat [1] 0).
Definition near (x y : Z) : bool := Z.abs (x - y) <=? 1.
Definition ex_long : tensor Z := Eval vm_compute in mkTensor (map Z.of_nat (seq 0 120)) (mkLayout [3; 40]%nat [40; 1] 0).

(** C61: allclose broadcasts its operands to their common shape and is true exactly when every pair of elements is close; it is an error only if there is no common shape or it is empty; it never panics. *)
Theorem C61_allclose : forall (A B : Type) o (close : A -> B -> bool) (ta : tensor A) (tb : tensor B), tensor_ok ta -> tensor_ok tb ->
  match allclose o close ta tb with
  | Ok r => exists s, broadcasts o (t_shape ta) (t_shape tb) s /\ size s <> 0%nat /\
      (r = true <-> forall jx, valid s jx -> exists x y, at_ ta (source_index o (t_shape ta) jx) = Some x /\ at_ tb (source_index o (t_shape tb) jx) = Some y /\ close x y = true)
  | Err _ => forall s, broadcasts o (t_shape ta) (t_shape tb) s -> size s = 0%nat
  | Panic => False
  end.
Proof. exact l_allclose. Qed.
Example C61_example : tensor_ok ex_a /\ tensor_ok ex_b /\ allclose RowMajor near ex_a ex_b = Ok true /\ allclose RowMajor Z.eqb ex_a ex_b = Ok false /\
  tensor_ok ex_long /\ allclose RowMajor Z.eqb ex_long ex_long = Ok true.
Proof. split; [concrete_tensor|]. split; [concrete_tensor|]. split; [reflexivity|]. split; [reflexivity|]. split; [concrete_tensor|vm_compute; reflexivity]. Qed.
Print Assumptions C61_allclose.

(** C61, the claim that allclose of arrays without elements is true (there is no pair that is not close) is refuted: it is always an error. *)
Theorem C61_allclose_empty_refuted : forall (A B : Type) o (close : A -> B -> bool) (ta : tensor A) (tb : tensor B) s, tensor_ok ta -> tensor_ok tb ->
  broadcasts o (t_shape ta) (t_shape tb) s -> size s = 0%nat -> exists e, allclose o close ta tb = Err e.
Proof. exact l_allclose_empty. Qed.
Example C61_example_empty : let t := mkTensor (@nil Z) (mkLayout [0; 3]%nat [3; 1] 0) in tensor_ok t /\ broadcasts RowMajor (t_shape t) (t_shape ex_b) [0; 3]%nat /\ size [0; 3]%nat = 0%nat.
Proof. split; [concrete_tensor|]. split; [|reflexivity]. split; [reflexivity|]. intros [|[|k]]; cbn; auto. Qed.
Print Assumptions C61_allclose_empty_refuted.

(** C61: the parallel device gives the same answer, whatever the schedule and the chunk size. *)
Theorem C61_allclose_rayon : forall (A B : Type) chunk t ti o (close : A -> B -> bool) (ta : tensor A) (tb : tensor B), chunk <> 0%nat -> tensor_ok ta -> tensor_ok tb ->
  allclose_rayon chunk t ti o close ta tb = allclose o close ta tb.
Proof. exact l_allclose_rayon. Qed.
Example C61_example_rayon : allclose_rayon 64 (Node 1 Leaf (Node 1 Leaf Leaf)) (fun _ => Node 1 Leaf Leaf) RowMajor Z.eqb ex_long ex_long = Ok true.
Proof. vm_compute. reflexivity. Qed.
Print Assumptions C61_allclose_rayon.

(** C62: for signed integers isclose compares the true distance with the tolerance, as long as the distance and |b| fit into the type.  Missing: larger distances, refuted below. *)
Theorem C62_isclose_signed_partial : forall checks w rtol atol a b, 0 < w -> Z.abs (a - b) < 2 ^ (w - 1) -> Z.abs b < 2 ^ (w - 1) ->
  isclose_signed checks w rtol atol a b = Ok (SFleb (f64_of_Z (Z.abs (a - b))) (f64_add atol (f64_mul rtol (f64_of_Z (Z.abs b))))).
Proof. exact l_isclose_signed. Qed.
Example C62_example : isclose_signed true 8 (f64_of_Z 0) (f64_of_Z 2) (-100) (-101) = Ok true /\ isclose_signed true 8 (f64_of_Z 0) (f64_of_Z 2) 3 (-101) = Ok false.
Proof. split; vm_compute; reflexivity. Qed.
Print Assumptions C62_isclose_signed_partial.

(** C62 refuted: two integers whose distance does not fit into their signed type make isclose panic in a build with overflow checks; in any other build the distance wraps to a negative number, so that the two are reported close. *)
Theorem C62_isclose_signed_refuted : forall w a b, 0 < w -> - 2 ^ (w - 1) <= a < 2 ^ (w - 1) -> - 2 ^ (w - 1) <= b < 2 ^ (w - 1) -> 2 ^ (w - 1) <= Z.abs (a - b) ->
  (forall rtol atol, isclose_signed true w rtol atol a b = Panic) /\ signed_abs_diff false w a b = Ok (Z.abs (a - b) - 2 ^ w) /\ Z.abs (a - b) - 2 ^ w < 0.
Proof. exact l_isclose_signed_refuted. Qed.
Example C62_example_signed : isclose_signed true 8 (f64_of_Z 0) (f64_of_Z 0) (-128) 127 = Panic /\ isclose_signed false 8 (f64_of_Z 0) (f64_of_Z 0) (-128) 127 = Ok true.
Proof. split; vm_compute; reflexivity. Qed.
Print Assumptions C62_isclose_signed_refuted.

(** C62 refuted: with a positive relative tolerance every finite f64 is close to an infinite second operand, and no infinity is close to itself. *)
Theorem C62_isclose_infinite_refuted : forall (s : bool) (rtol atol a : f64) equal_nan, f64_finite a -> f64_finite atol -> (exists m e, rtol = S754_finite false m e) ->
  isclose_f64 rtol atol equal_nan a (S754_infinity s) = true /\ isclose_f64 rtol atol equal_nan (S754_infinity s) (S754_infinity s) = false.
Proof. exact l_isclose_infinite_refuted. Qed.
Example C62_example_infinite : isclose_f64 (S754_finite false 5902958103587057 (-69)) (S754_zero false) false (f64_of_Z 1) (S754_infinity false) = true.
Proof. vm_compute. reflexivity. Qed.
Print Assumptions C62_isclose_infinite_refuted.
