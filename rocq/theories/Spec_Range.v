(** Independent specification of indices and ranges of Rust's integer types *)
From Verif Require Import Base Spec.
Local Open Scope Z_scope.

(** the integer types that can be used as an index or as the bounds of a range, 64-bit platform *)
Inductive index_type := Usize | Isize | U32 | I32 | U64 | I64.
Definition has_value (t : index_type) (z : Z) : Prop :=
  match t with
  | Usize | U64 => 0 <= z < 2 ^ 64
  | Isize | I64 => - 2 ^ 63 <= z < 2 ^ 63
  | U32 => 0 <= z < 2 ^ 32
  | I32 => - 2 ^ 31 <= z < 2 ^ 31
  end.
(** a..b, a.., ..b and .. *)
Inductive range := Between (a b : Z) | From (a : Z) | To (b : Z) | Everything.
Definition lower (r : range) : option Z := match r with Between a _ | From a => Some a | _ => None end.
Definition upper (r : range) : option Z := match r with Between _ b | To b => Some b | _ => None end.
(** [P] holds of the bounds of [r]. *)
Definition bounds (r : range) (P : Z -> Prop) : Prop := (forall a, lower r = Some a -> P a) /\ (forall b, upper r = Some b -> P b).
(** The first index and the number of indices of [0, d) in a range without negative bounds. *)
Definition first_of (r : range) : nat := match lower r with Some a => Z.to_nat a | None => 0 end.
Definition clipped (z : Z) (d : nat) : nat := Z.to_nat (Z.min z (Z.of_nat d)).
Definition count_of (r : range) (d : nat) : nat :=
  ((match upper r with Some b => clipped b d | None => d end) - (match lower r with Some a => clipped a d | None => 0 end))%nat.
