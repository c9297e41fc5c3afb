(** Model of rstsr-dtype-traits/src/promotion.rs, ext_real.rs and ext_num.rs (promotion, casts, comparison, extrema, floor division, sign, abs), and of the tensor
    functions that use them (op_ternary_common.rs, op_binary_common.rs of the devices).  Not modelled: half-precision types, 128-bit integers, the CAN_CAST_ and
    SAME_TYPE constants (nothing reads them).  usize and isize have 64 bits. *)
From Coq Require Import SpecFloat.
From Verif Require Import Base Spec Spec_DType M_Layout M_Kernel M_Tensor M_Binary.
Local Open Scope Z_scope.

Definition dtype_eqb (a b : dtype) : bool :=
  match a, b with
  | Tbool, Tbool | Tu8, Tu8 | Tu16, Tu16 | Tu32, Tu32 | Tu64, Tu64 | Ti8, Ti8 | Ti16, Ti16 | Ti32, Ti32 | Ti64, Ti64
  | Tusize, Tusize | Tisize, Tisize | Tf32, Tf32 | Tf64, Tf64 | Tc32, Tc32 | Tc64, Tc64 => true
  | _, _ => false
  end.
(** impl_promotion_asable!(T1, T2, _, _, Res), promotion.rs:231-364; line 231 is a comment, so (i8, i16) is not in the list *)
Definition asable : list (dtype * dtype * dtype) :=
  [
   (Ti8, Ti32, Ti32); (Ti8, Ti64, Ti64); (Ti8, Tu8, Ti16); (Ti8, Tu16, Ti32); (Ti8, Tu32, Ti64); (Ti8, Tu64, Tf64); (Ti8, Tf32, Tf32); (Ti8, Tf64, Tf64); (Ti16, Ti8, Ti16);
   (Ti16, Ti32, Ti32); (Ti16, Ti64, Ti64); (Ti16, Tu8, Ti16); (Ti16, Tu16, Ti32); (Ti16, Tu32, Ti64); (Ti16, Tu64, Tf64); (Ti16, Tf32, Tf32); (Ti16, Tf64, Tf64); (Ti32, Ti8, Ti32);
   (Ti32, Ti16, Ti32); (Ti32, Ti64, Ti64); (Ti32, Tu8, Ti32); (Ti32, Tu16, Ti32); (Ti32, Tu32, Ti64); (Ti32, Tu64, Tf64); (Ti32, Tf32, Tf64); (Ti32, Tf64, Tf64); (Ti64, Ti8, Ti64);
   (Ti64, Ti16, Ti64); (Ti64, Ti32, Ti64); (Ti64, Tu8, Ti64); (Ti64, Tu16, Ti64); (Ti64, Tu32, Ti64); (Ti64, Tu64, Tf64); (Ti64, Tf32, Tf64); (Ti64, Tf64, Tf64); (Tu8, Ti8, Ti16);
   (Tu8, Ti16, Ti16); (Tu8, Ti32, Ti32); (Tu8, Ti64, Ti64); (Tu8, Tu16, Tu16); (Tu8, Tu32, Tu32); (Tu8, Tu64, Tu64); (Tu8, Tf32, Tf32); (Tu8, Tf64, Tf64); (Tu16, Ti8, Ti32);
   (Tu16, Ti16, Ti32); (Tu16, Ti32, Ti32); (Tu16, Ti64, Ti64); (Tu16, Tu8, Tu16); (Tu16, Tu32, Tu32); (Tu16, Tu64, Tu64); (Tu16, Tf32, Tf32); (Tu16, Tf64, Tf64); (Tu32, Ti8, Ti64);
   (Tu32, Ti16, Ti64); (Tu32, Ti32, Ti64); (Tu32, Ti64, Ti64); (Tu32, Tu8, Tu32); (Tu32, Tu16, Tu32); (Tu32, Tu64, Tu64); (Tu32, Tf32, Tf64); (Tu32, Tf64, Tf64); (Tu64, Ti8, Tf64);
   (Tu64, Ti16, Tf64); (Tu64, Ti32, Tf64); (Tu64, Ti64, Tf64); (Tu64, Tu8, Tu64); (Tu64, Tu16, Tu64); (Tu64, Tu32, Tu64); (Tu64, Tf32, Tf64); (Tu64, Tf64, Tf64); (Tf32, Ti8, Tf32);
   (Tf32, Ti16, Tf32); (Tf32, Ti32, Tf64); (Tf32, Ti64, Tf64); (Tf32, Tu8, Tf32); (Tf32, Tu16, Tf32); (Tf32, Tu32, Tf64); (Tf32, Tu64, Tf64); (Tf32, Tf64, Tf64); (Tf64, Ti8, Tf64);
   (Tf64, Ti16, Tf64); (Tf64, Ti32, Tf64); (Tf64, Ti64, Tf64); (Tf64, Tu8, Tf64); (Tf64, Tu16, Tf64); (Tf64, Tu32, Tf64); (Tf64, Tu64, Tf64); (Tf64, Tf32, Tf64); (Tisize, Ti8, Tisize);
   (Tisize, Ti16, Tisize); (Tisize, Ti32, Tisize); (Tisize, Ti64, Tisize); (Tisize, Tu8, Tisize); (Tisize, Tu16, Tisize); (Tisize, Tu32, Tisize); (Tisize, Tu64, Tf64); (Tisize, Tf32, Tf64); (Tisize, Tf64, Tf64);
   (Ti8, Tisize, Tisize); (Ti16, Tisize, Tisize); (Ti32, Tisize, Tisize); (Ti64, Tisize, Tisize); (Tu8, Tisize, Tisize); (Tu16, Tisize, Tisize); (Tu32, Tisize, Tisize); (Tu64, Tisize, Tf64); (Tf32, Tisize, Tf64);
   (Tf64, Tisize, Tf64); (Tusize, Ti8, Tf64); (Tusize, Ti16, Tf64); (Tusize, Ti32, Tf64); (Tusize, Ti64, Tf64); (Tusize, Tu8, Tusize); (Tusize, Tu16, Tusize); (Tusize, Tu32, Tusize); (Tusize, Tu64, Tusize);
   (Tusize, Tf32, Tf64); (Tusize, Tf64, Tf64); (Ti8, Tusize, Tf64); (Ti16, Tusize, Tf64); (Ti32, Tusize, Tf64); (Ti64, Tusize, Tf64); (Tu8, Tusize, Tusize); (Tu16, Tusize, Tusize); (Tu32, Tusize, Tusize);
   (Tu64, Tusize, Tusize); (Tf32, Tusize, Tf64); (Tf64, Tusize, Tf64)].
(** impl_promotion_complex_primitive_*!(TComp, TPrim, _, _, ResComp), promotion.rs:406-431 *)
Definition complex_primitive : list (dtype * dtype * dtype) :=
  [
   (Tc32, Ti8, Tc32); (Tc32, Ti16, Tc32); (Tc32, Tu8, Tc32); (Tc32, Tu16, Tc32); (Tc32, Tf32, Tc32); (Tc64, Ti8, Tc64); (Tc64, Ti16, Tc64); (Tc64, Ti32, Tc64); (Tc64, Ti64, Tc64);
   (Tc64, Tisize, Tc64); (Tc64, Tu8, Tc64); (Tc64, Tu16, Tc64); (Tc64, Tu32, Tc64); (Tc64, Tu64, Tc64); (Tc64, Tusize, Tc64); (Tc64, Tf32, Tc64); (Tc64, Tf64, Tc64); (Tc32, Ti32, Tc64);
   (Tc32, Ti64, Tc64); (Tc32, Tisize, Tc64); (Tc32, Tu32, Tc64); (Tc32, Tu64, Tc64); (Tc32, Tusize, Tc64); (Tc32, Tf64, Tc64)].
(** impl_promotion_primitive_complex_*!(TComp, TPrim, _, _, ResComp), promotion.rs:487-512 *)
Definition primitive_complex : list (dtype * dtype * dtype) :=
  [
   (Ti8, Tc32, Tc32); (Ti16, Tc32, Tc32); (Tu8, Tc32, Tc32); (Tu16, Tc32, Tc32); (Tf32, Tc32, Tc32); (Ti8, Tc64, Tc64); (Ti16, Tc64, Tc64); (Ti32, Tc64, Tc64); (Ti64, Tc64, Tc64);
   (Tisize, Tc64, Tc64); (Tu8, Tc64, Tc64); (Tu16, Tc64, Tc64); (Tu32, Tc64, Tc64); (Tu64, Tc64, Tc64); (Tusize, Tc64, Tc64); (Tf32, Tc64, Tc64); (Tf64, Tc64, Tc64); (Ti32, Tc32, Tc64);
   (Ti64, Tc32, Tc64); (Tisize, Tc32, Tc64); (Tu32, Tc32, Tc64); (Tu64, Tc32, Tc64); (Tusize, Tc32, Tc64); (Tf64, Tc32, Tc64)].
(** complex to complex, promotion.rs:518-544 *)
Definition complex_complex : list (dtype * dtype * dtype) := [(Tc64, Tc32, Tc64); (Tc32, Tc64, Tc64)].
Definition lookup (a b : dtype) (l : list (dtype * dtype * dtype)) : option dtype :=
  option_map snd (find (fun p => dtype_eqb (fst (fst p)) a && dtype_eqb (snd (fst p)) b) l).
(** <TA as DTypePromoteAPI<TB>>::Res; None: there is no implementation, so that the call does not compile.
    Same type, :40-53; bool, :124-200; the tables above *)
Definition promote (a b : dtype) : option dtype :=
  if dtype_eqb a b then Some a
  else match a, b with
  | Tbool, _ => Some b
  | _, Tbool => Some a
  | _, _ => lookup a b (asable ++ complex_primitive ++ primitive_complex ++ complex_complex)
  end.
(** DTypeIntoFloatAPI::FloatType, promotion.rs:67-118; bool has none *)
Definition float_type (a : dtype) : option dtype :=
  match a with Tbool => None | Tf32 | Tf64 | Tc32 | Tc64 => Some a | _ => Some Tf64 end.

(** Rust's [as] to an integer type with values [lo..hi]: from integers modulo 2^bits, from floats towards zero and saturating, not-a-number to 0 *)
Definition wrap (lo hi z : Z) : Z := lo + (z - lo) mod (hi - lo + 1).
Definition truncated (s : bool) (m : positive) (e : Z) : Z :=
  let q := if 0 <=? e then Zpos m * 2 ^ e else Zpos m / 2 ^ (- e) in if s then - q else q.
Definition float_to_int (lo hi : Z) (x : spec_float) : Z :=
  match x with
  | S754_zero _ | S754_nan => 0
  | S754_infinity s => if s then lo else hi
  | S754_finite s m e => Z.max lo (Z.min hi (truncated s m e))
  end.
(** Rust's [as] to a floating type: nearest, ties to even *)
Definition int_to_float (p m : Z) (z : Z) : spec_float := binary_normalize p m z 0 false.
Definition float_to_float (p m : Z) (x : spec_float) : spec_float :=
  match x with S754_finite s k e => binary_normalize p m (if s then Zneg k else Zpos k) e s | _ => x end.
Definition to_float (p m : Z) (v : num) : spec_float :=
  match v with
  | Nbool b => int_to_float p m (if b then 1 else 0)
  | Nint z => int_to_float p m z
  | Nfloat x => float_to_float p m x
  | Ncomplex re _ => re
  end.
Definition nonzero_float (x : spec_float) : bool := negb (SFeqb x (S754_zero false)).
(** conversion of a value to type [t]: one::<T>() or zero::<T>() of a bool, promotion.rs:131-135, 155-159, 173-180; [!= zero] to bool, :164-169; [as],
    :212-227; Complex::new(x as _, 0 as _), :384, 450; Complex::new(re as _, im as _), :396-399, 525-560.  promote_self, promote_other and into_cast all have
    these bodies; a conversion to the value's own type is the identity in the code (:40-62); here it is for values of that type. *)
Definition convert (t : dtype) (v : num) : num :=
  match int_range t, float_format t with
  | Some (lo, hi), _ => Nint match v with Nbool b => if b then 1 else 0 | Nint z => wrap lo hi z | Nfloat x => float_to_int lo hi x | Ncomplex re _ => float_to_int lo hi re end
  | None, Some (p, m) =>
    if is_complex t then match v with Ncomplex re im => Ncomplex (float_to_float p m re) (float_to_float p m im) | _ => Ncomplex (to_float p m v) (int_to_float p m 0) end
    else Nfloat (to_float p m v)
  | None, None => Nbool match v with Nbool b => b | Nint z => negb (z =? 0) | Nfloat x => nonzero_float x | Ncomplex re im => nonzero_float re || nonzero_float im end
  end.
(** promote_pair, promotion.rs:32-37 *)
Definition promote_pair (a b : dtype) (v w : num) : option (num * num) := option_map (fun r => (convert r v, convert r w)) (promote a b).
(** DTypeIntoFloatAPI::into_float, promotion.rs:67-118 *)
Definition into_float (a : dtype) (v : num) : option num := option_map (fun r => convert r v) (float_type a).
(** DTypeCastAPI: which casts exist, promotion.rs:55-60, 164-180, 221-226, 454-458, 479-483, 546-560.  A complex number cannot be cast to a real type. *)
Definition castable (a t : dtype) : bool :=
  dtype_eqb a t || match a, t with Tbool, _ | _, Tbool => true | _, _ => false end
  || existsb (fun p => dtype_eqb (fst (fst p)) a && dtype_eqb (snd (fst p)) t) (asable ++ primitive_complex ++ complex_complex).

(** PartialEq and PartialOrd of the element types *)
Definition num_eqb (v w : num) : bool :=
  match v, w with
  | Nbool a, Nbool b => Bool.eqb a b
  | Nint a, Nint b => a =? b
  | Nfloat a, Nfloat b => SFeqb a b
  | Ncomplex a b, Ncomplex c d => SFeqb a c && SFeqb b d
  | _, _ => false
  end.
Definition num_ltb (v w : num) : bool :=
  match v, w with
  | Nbool a, Nbool b => negb a && b
  | Nint a, Nint b => a <? b
  | Nfloat a, Nfloat b => SFltb a b
  | _, _ => false
  end.
Definition num_leb (v w : num) : bool :=
  match v, w with
  | Nbool a, Nbool b => negb a || b
  | Nint a, Nint b => a <=? b
  | Nfloat a, Nfloat b => SFleb a b
  | _, _ => false
  end.
Definition holds (r : relation) (v w : num) : bool :=
  match r with
  | Equal => num_eqb v w
  | NotEqual => negb (num_eqb v w)
  | Greater => num_ltb w v
  | GreaterEqual => num_leb w v
  | Less => num_ltb v w
  | LessEqual => num_leb v w
  end.
(** equal_f, not_equal_f, greater_f, greater_equal_f, less_f, less_equal_f of two tensors, device_cpu_serial/operators/op_ternary_common.rs:72-110 (rayon:
    feature_rayon/auto_impl/op_ternary_common.rs, same text); None: the types have no promotion *)
Definition compare_tensors (k : dimty) (dflt o : order) (r : relation) (a b : dtype) (ta tb : tensor num) : option (res (tensor bool)) :=
  option_map (fun t => op_common k dflt o (fun v w => holds r (convert t v) (convert t w)) ta tb) (promote a b).
(** [tensor cmp number] and [number cmp tensor], op_ternary_common.rs:112-139 *)
Definition compare_number (k : dimty) (dflt : order) (r : relation) (a b : dtype) (ta : tensor num) (w : num) : option (res (tensor bool)) :=
  option_map (fun t => op_refa_numb k dflt (fun v w => holds r (convert t v) (convert t w)) ta w) (promote a b).

(** ext_max and ext_min: Ord::max and Ord::min of integers, ext_real.rs:39-47, 59-67; f32::max and f64::max, :77-86, which ignore not-a-number *)
Definition float_max (x y : spec_float) : spec_float :=
  match x, y with S754_nan, _ => y | _, S754_nan => x | _, _ => if SFltb x y then y else x end.
Definition float_min (x y : spec_float) : spec_float :=
  match x, y with S754_nan, _ => y | _, S754_nan => x | _, _ => if SFltb y x then y else x end.
Definition num_max (v w : num) : num :=
  match v, w with Nint a, Nint b => Nint (Z.max a b) | Nfloat a, Nfloat b => Nfloat (float_max a b) | _, _ => v end.
Definition num_min (v w : num) : num :=
  match v, w with Nint a, Nint b => Nint (Z.min a b) | Nfloat a, Nfloat b => Nfloat (float_min a b) | _, _ => v end.
(** maximum_f and minimum_f of two tensors, op_ternary_common.rs:75-76, 86-110; complex numbers and bool do not implement ExtReal *)
Definition extremum_tensors (k : dimty) (dflt o : order) (most : bool) (a b : dtype) (ta tb : tensor num) : option (res (tensor num)) :=
  option_map (fun t => op_common k dflt o (fun v w => (if most then num_max else num_min) (convert t v) (convert t w)) ta tb) (promote a b).
(** ext_floor_divide of the integers, ext_real.rs:34-36, 54-56: Integer::div_floor; a zero divisor and MIN / -1 panic *)
Definition floor_divide (t : dtype) (a b : Z) : res Z :=
  match int_range t with
  | Some (lo, hi) => if b =? 0 then Panic else if (a =? lo) && (b =? -1) && (lo <? 0) then Panic else Ok (a / b)
  | None => Panic
  end.

(** ext_sign, ext_num.rs:82-90, 122-133, 159-171 *)
Definition float_one (t : dtype) (s : bool) : spec_float :=
  match float_format t with Some (p, m) => binary_normalize p m (if s then -1 else 1) 0 false | None => S754_nan end.
Definition num_sign (t : dtype) (v : num) : num :=
  match v with
  | Nint z => Nint (if 0 <? z then 1 else if z <? 0 then -1 else 0)
  | Nfloat x => Nfloat match x with S754_nan => x | _ => if SFltb (S754_zero false) x then float_one t false else if SFltb x (S754_zero false) then float_one t true else S754_zero false end
  | _ => v
  end.
(** ext_abs of the integers and floats, ext_num.rs:71-74, 109-112, 155-158; [checks]: overflow checks *)
Definition num_abs (checks : bool) (t : dtype) (v : num) : res num :=
  match v, int_range t with
  | Nint z, Some (lo, hi) => if lo <? 0 then (if (Z.abs z <=? hi) then Ok (Nint (Z.abs z)) else if checks then Panic else Ok (Nint z)) else Ok v
  | Nfloat x, _ => Ok (Nfloat (SFabs x))
  | _, _ => Ok v
  end.
(** Signed::is_positive of num-traits, which signbit writes, op_binary_common.rs:94: greater than zero for integers, a clear sign bit for floats *)
Definition is_positive (v : num) : bool :=
  match v with
  | Nint z => 0 <? z
  | Nfloat x => match x with S754_zero s | S754_infinity s | S754_finite s _ _ => negb s | S754_nan => true end
  | _ => false
  end.
(** sign_f and signbit_f of a tensor, op_unary_common.rs:139-157 with op_binary_common.rs:92-117, 213-232 *)
Definition sign_tensor (k : dimty) (dflt : order) (t : dtype) (a : tensor num) : res (tensor num) := map_f k dflt (num_sign t) a.
Definition signbit_tensor (k : dimty) (dflt : order) (a : tensor num) : res (tensor bool) := map_f k dflt is_positive a.
