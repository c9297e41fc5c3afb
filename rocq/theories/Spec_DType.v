(** Vocabulary for element types: what the values of the machine types denote. *)
From Coq Require Import QArith SpecFloat.
From Verif Require Import Base M_Layout M_Tensor.
Local Open Scope Z_scope.

(** the element types; usize and isize have 64 bits *)
Inductive dtype := Tbool | Tu8 | Tu16 | Tu32 | Tu64 | Ti8 | Ti16 | Ti32 | Ti64 | Tusize | Tisize | Tf32 | Tf64 | Tc32 | Tc64.
(** machine values *)
Inductive num := Nbool (b : bool) | Nint (z : Z) | Nfloat (x : spec_float) | Ncomplex (re im : spec_float).
(** smallest and largest value of an integer type *)
Definition int_range (t : dtype) : option (Z * Z) :=
  match t with
  | Tu8 => Some (0, 2 ^ 8 - 1) | Tu16 => Some (0, 2 ^ 16 - 1) | Tu32 => Some (0, 2 ^ 32 - 1) | Tu64 | Tusize => Some (0, 2 ^ 64 - 1)
  | Ti8 => Some (- 2 ^ 7, 2 ^ 7 - 1) | Ti16 => Some (- 2 ^ 15, 2 ^ 15 - 1) | Ti32 => Some (- 2 ^ 31, 2 ^ 31 - 1) | Ti64 | Tisize => Some (- 2 ^ 63, 2 ^ 63 - 1)
  | _ => None
  end.
(** precision and exponent bound of a floating type or of the parts of a complex type *)
Definition float_format (t : dtype) : option (Z * Z) :=
  match t with Tf32 | Tc32 => Some (24, 128) | Tf64 | Tc64 => Some (53, 1024) | _ => None end.
Definition is_complex (t : dtype) : bool := match t with Tc32 | Tc64 => true | _ => false end.
Definition has_type (t : dtype) (v : num) : Prop :=
  match v with
  | Nbool _ => t = Tbool
  | Nint z => exists lo hi, int_range t = Some (lo, hi) /\ lo <= z <= hi
  | Nfloat x => is_complex t = false /\ exists p m, float_format t = Some (p, m) /\ valid_binary p m x = true
  | Ncomplex re im => is_complex t = true /\ exists p m, float_format t = Some (p, m) /\ valid_binary p m re = true /\ valid_binary p m im = true
  end.

(** numbers with infinities and not-a-number *)
Inductive ext := Fin (q : Q) | PInf | NInf | NaN.
Definition float_value (x : spec_float) : ext :=
  match x with
  | S754_zero _ => Fin 0
  | S754_infinity s => if s then NInf else PInf
  | S754_nan => NaN
  | S754_finite s m e => Fin (inject_Z (if s then Zneg m else Zpos m) * (2 # 1) ^ e)%Q
  end.
(** real and imaginary part of what a value denotes; true is 1, false is 0 *)
Definition value (v : num) : ext * ext :=
  match v with
  | Nbool b => (Fin (if b then 1 else 0)%Q, Fin 0)
  | Nint z => (Fin (inject_Z z), Fin 0)
  | Nfloat x => (float_value x, Fin 0)
  | Ncomplex re im => (float_value re, float_value im)
  end.
(** the same number; not-a-number is the same as itself here *)
Definition same_ext (x y : ext) : Prop :=
  match x, y with Fin p, Fin q => (p == q)%Q | PInf, PInf | NInf, NInf | NaN, NaN => True | _, _ => False end.
Definition same_value (v w : num) : Prop := same_ext (fst (value v)) (fst (value w)) /\ same_ext (snd (value v)) (snd (value w)).
(** type [t] has a value that denotes the same number *)
Definition representable (t : dtype) (v : num) : Prop := exists w, has_type t w /\ same_value v w.

(** arithmetic comparison; not-a-number is not equal to, less or greater than anything *)
Definition eq_ext (x y : ext) : Prop := x <> NaN /\ same_ext x y.
Definition lt_ext (x y : ext) : Prop :=
  match x, y with
  | NaN, _ | _, NaN => False
  | Fin p, Fin q => (p < q)%Q
  | NInf, NInf => False
  | NInf, _ => True
  | _, NInf => False
  | PInf, _ => False
  | Fin _, PInf => True
  end.
Inductive relation := Equal | NotEqual | Greater | GreaterEqual | Less | LessEqual.
Definition ordering (r : relation) : bool := match r with Equal | NotEqual => false | _ => true end.
Definition real (v : num) : ext := fst (value v).
Definition imag (v : num) : ext := snd (value v).
Definition related (r : relation) (v w : num) : Prop :=
  match r with
  | Equal => eq_ext (real v) (real w) /\ eq_ext (imag v) (imag w)
  | NotEqual => ~ (eq_ext (real v) (real w) /\ eq_ext (imag v) (imag w))
  | Less => lt_ext (real v) (real w)
  | Greater => lt_ext (real w) (real v)
  | LessEqual => lt_ext (real v) (real w) \/ eq_ext (real v) (real w)
  | GreaterEqual => lt_ext (real w) (real v) \/ eq_ext (real v) (real w)
  end.
(** every element of the tensor has type [t] and denotes a number that type [r] has *)
Definition elements_fit (t r : dtype) (a : tensor num) : Prop := forall ix x, at_ a ix = Some x -> has_type t x /\ representable r x.
