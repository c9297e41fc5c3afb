(** Property theorems about element types: promotion and casts (C79), comparison, extrema and floor division (C80), sign and absolute value (C81).  Statements use
    Spec.v, Spec_DType.v and M_DType.v only. *)
From Coq Require Import QArith Qround SpecFloat.
From Verif Require Import Base Spec Spec_DType M_Layout M_Kernel M_Tensor M_Binary M_DType P_Float P_Tensor Q_DType.
Local Open Scope Z_scope.

(** i32 column of 2 and u8 row of 2: the promoted type is i32 *)
Definition dt_a : tensor num := mkTensor [Nint (-3); Nint 250] (mkLayout [2; 1]%nat [1; 2] 0).
Definition dt_b : tensor num := mkTensor [Nint 250; Nint 7] (mkLayout [2]%nat [1] 0).
Definition dt_half : spec_float := S754_finite false (2 ^ 52) (-53).
Lemma dt_a_ok : tensor_ok dt_a. Proof. unfold dt_a. concrete_tensor. Qed.
Lemma dt_b_ok : tensor_ok dt_b. Proof. unfold dt_b. concrete_tensor. Qed.
Lemma dt_in (a : tensor num) (P : num -> Prop) : (forall x, In x (t_data a) -> P x) -> forall ix x, at_ a ix = Some x -> P x.
Proof. intros H ix x E. unfold at_, elem in E. unfold peek in E. destruct (_ <? 0); try discriminate E. apply H. eapply nth_error_In. exact E. Qed.
Lemma dt_a_fit : elements_fit Ti32 Ti32 dt_a.
Proof. unfold elements_fit. apply dt_in. intros x [<-|[<-|[]]]; (split; [exists (- 2 ^ 31), (2 ^ 31 - 1); split; [reflexivity|lia]|]); (match goal with |- representable _ ?v => exists v end; split; [exists (- 2 ^ 31), (2 ^ 31 - 1); split; [reflexivity|lia]|split; reflexivity]). Qed.
Lemma dt_b_fit : elements_fit Tu8 Ti32 dt_b.
Proof. unfold elements_fit. apply dt_in. intros x [<-|[<-|[]]]; (split; [exists 0, (2 ^ 8 - 1); split; [reflexivity|lia]|]); (match goal with |- representable _ ?v => exists v end; split; [exists (- 2 ^ 31), (2 ^ 31 - 1); split; [reflexivity|lia]|split; reflexivity]). Qed.

(** C79: two element types have a promoted type except for i8 with i16 (in that order) and usize with isize. *)
Theorem C79_promote_defined : forall a b, promote a b = None <-> In (a, b) [(Ti8, Ti16); (Tusize, Tisize); (Tisize, Tusize)].
Proof. exact l_promote_defined. Qed.
Example C79_promote_defined_example : promote Ti16 Ti8 = Some Ti16 /\ promote Tu32 Ti32 = Some Ti64 /\ promote Tu64 Ti64 = Some Tf64 /\ promote Tf32 Ti32 = Some Tf64 /\ promote Tc32 Tf64 = Some Tc64.
Proof. repeat split. Qed.
Print Assumptions C79_promote_defined.

(** C79: where both orders have a promoted type it is the same. Missing: that both orders have one (refuted below). *)
Theorem C79_promote_comm_partial : forall a b r, promote a b = Some r -> promote b a = None \/ promote b a = Some r.
Proof. exact l_promote_comm_partial. Qed.
Example C79_promote_comm_partial_example : promote Tu8 Tf32 = Some Tf32 /\ promote Tf32 Tu8 = Some Tf32. Proof. split; reflexivity. Qed.
Print Assumptions C79_promote_comm_partial.

(** C79, refuted: i16 with i8 has a promoted type, i8 with i16 has none (its line stands inside a comment). *)
Theorem C79_promote_comm_refuted : exists a b r, promote a b = Some r /\ promote b a = None.
Proof. exact l_promote_comm_refuted. Qed.
Print Assumptions C79_promote_comm_refuted.

(** C79: a type promoted with itself or with bool is unchanged. *)
Theorem C79_promote_same : forall a, promote a a = Some a /\ promote Tbool a = Some a /\ promote a Tbool = Some a.
Proof. exact l_promote_same. Qed.
Example C79_promote_same_example : promote Tc64 Tbool = Some Tc64. Proof. reflexivity. Qed.
Print Assumptions C79_promote_same.

(** C79, refuted for three operands: the promoted type depends on the grouping, (i8, u16), f32 gives f64 and i8, (u16, f32) gives f32. *)
Theorem C79_promote_assoc_refuted : exists a b c ab bc l r, promote a b = Some ab /\ promote ab c = Some l /\ promote b c = Some bc /\ promote a bc = Some r /\ l <> r.
Proof. exact l_promote_assoc_refuted. Qed.
Print Assumptions C79_promote_assoc_refuted.

(** C79: a cast between two types exists except for i8 to i16, between usize and isize, and from complex to real numbers. *)
Theorem C79_cast_defined : forall a t, castable a t = false <-> In (a, t) [(Ti8, Ti16); (Tusize, Tisize); (Tisize, Tusize)] \/ (is_complex a = true /\ is_complex t = false /\ t <> Tbool).
Proof. exact l_cast_defined. Qed.
Example C79_cast_defined_example : castable Tf64 Tu8 = true /\ castable Tbool Tc32 = true /\ castable Tc32 Tbool = true /\ castable Tc64 Tf64 = false. Proof. repeat split. Qed.
Print Assumptions C79_cast_defined.

(** C79: a cast keeps the number whenever the target type has it, whatever the types (integers, floats, complex, bool). *)
Theorem C79_cast_exact : forall a t v, castable a t = true -> has_type a v -> representable t v -> has_type t (convert t v) /\ same_value v (convert t v).
Proof. exact l_cast_exact. Qed.
Example C79_cast_exact_example : castable Ti32 Tf32 = true /\ has_type Ti32 (Nint (-2 ^ 24)) /\ convert Tf32 (Nint (-2 ^ 24)) = Nfloat (S754_finite true (2 ^ 23) 1) /\ convert Tu8 (Nint 300) = Nint 44 /\ convert Tu8 (Nfloat (S754_infinity false)) = Nint 255.
Proof. split; [reflexivity|]. split; [exists (- 2 ^ 31), (2 ^ 31 - 1); split; [reflexivity|lia]|]. repeat split; vm_compute; reflexivity. Qed.
Print Assumptions C79_cast_exact.

(** C79: promotion brings both operands to the promoted type without changing numbers that type has. *)
Theorem C79_promote_exact : forall a b r v w, promote a b = Some r -> has_type a v -> has_type b w -> representable r v -> representable r w ->
  exists v' w', promote_pair a b v w = Some (v', w') /\ has_type r v' /\ has_type r w' /\ same_value v v' /\ same_value w w'.
Proof. exact l_promote_exact. Qed.
Example C79_promote_exact_example : promote_pair Ti8 Tf32 (Nint (-3)) (Nfloat (S754_infinity true)) = Some (Nfloat (S754_finite true 12582912 (-22)), Nfloat (S754_infinity true)). Proof. vm_compute. reflexivity. Qed.
Print Assumptions C79_promote_exact.

(** C79: the promoted type has every value of both operand types, up to integers beyond 2^53 that become floats. *)
Theorem C79_promote_representable : forall a b r t v, promote a b = Some r -> t = a \/ t = b -> has_type t v -> (forall z, v = Nint z -> float_format r <> None -> Z.abs z <= 2 ^ 53) -> representable r v.
Proof. exact l_promote_representable. Qed.
Example C79_promote_representable_example : promote Ti32 Tf32 = Some Tf64 /\ has_type Ti32 (Nint (2 ^ 31 - 1)) /\ Z.abs (2 ^ 31 - 1) <= 2 ^ 53.
Proof. split; [reflexivity|]. split; [exists (- 2 ^ 31), (2 ^ 31 - 1); split; [reflexivity|lia]|lia]. Qed.
Print Assumptions C79_promote_representable.

(** C79, refuted beyond 2^53: i64 with u64 promotes to f64, and two different i64 numbers become the same. *)
Theorem C79_promote_loss_refuted : exists v w v' w', has_type Ti64 v /\ has_type Ti64 w /\ ~ same_value v w /\ promote_pair Ti64 Tu64 v (Nint 0) = Some (v', Nfloat (S754_zero false)) /\ promote_pair Ti64 Tu64 w (Nint 0) = Some (w', Nfloat (S754_zero false)) /\ v' = w'.
Proof. exact l_promote_loss_refuted. Qed.
Print Assumptions C79_promote_loss_refuted.

(** C79: a cast of an integer to an integer type is the number in that type's range that differs by a multiple of the range's size. *)
Theorem C79_cast_wrap : forall t lo hi z, int_range t = Some (lo, hi) -> exists y k, convert t (Nint z) = Nint y /\ lo <= y <= hi /\ y = z + k * (hi - lo + 1).
Proof. exact l_cast_wrap. Qed.
Example C79_cast_wrap_example : convert Ti8 (Nint 200) = Nint (-56) /\ convert Tu16 (Nint (-1)) = Nint 65535. Proof. split; reflexivity. Qed.
Print Assumptions C79_cast_wrap.

(** C79: a cast of a float to an integer type rounds to zero, saturates at the bounds, and gives 0 for not-a-number. *)
Theorem C79_cast_saturate : forall t lo hi x, int_range t = Some (lo, hi) -> exists y, convert t (Nfloat x) = Nint y /\ lo <= y <= hi /\
  match float_value x with
  | Fin q => ((0 <= q)%Q -> y = Z.min hi (Qfloor q)) /\ ((q <= 0)%Q -> y = Z.max lo (Qceiling q))
  | PInf => y = hi | NInf => y = lo | NaN => y = 0
  end.
Proof. exact l_cast_saturate. Qed.
Example C79_cast_saturate_example : convert Ti8 (Nfloat (S754_finite true 7 (-1))) = Nint (-3) /\ convert Ti8 (Nfloat (S754_finite true 1 20)) = Nint (-128) /\ convert Tu8 (Nfloat S754_nan) = Nint 0. Proof. repeat split. Qed.
Print Assumptions C79_cast_saturate.

(** C79: a cast to bool is false exactly for zero. *)
Theorem C79_cast_bool : forall a v, has_type a v -> exists b, convert Tbool v = Nbool b /\ (b = false <-> eq_ext (real v) (Fin 0) /\ eq_ext (imag v) (Fin 0)).
Proof. exact l_cast_bool. Qed.
Example C79_cast_bool_example : convert Tbool (Ncomplex (S754_zero true) dt_half) = Nbool true /\ convert Tbool (Nfloat S754_nan) = Nbool true. Proof. split; reflexivity. Qed.
Print Assumptions C79_cast_bool.

(** C79: every type but bool has a floating type for functions such as sin: integers f64, floating and complex types themselves. *)
Theorem C79_float_defined : forall a, (float_type a = None <-> a = Tbool) /\
  (forall r, float_type a = Some r -> float_format r <> None /\ (float_format a <> None -> r = a) /\ (int_range a <> None -> r = Tf64)).
Proof. exact l_float_defined. Qed.
Example C79_float_defined_example : float_type Tu8 = Some Tf64 /\ float_type Tc32 = Some Tc32. Proof. split; reflexivity. Qed.
Print Assumptions C79_float_defined.

(** C79: the conversion to the floating type keeps the number, integers up to 2^53. *)
Theorem C79_float_exact : forall a r v, float_type a = Some r -> has_type a v -> (forall z, v = Nint z -> Z.abs z <= 2 ^ 53) ->
  exists w, into_float a v = Some w /\ has_type r w /\ same_value v w.
Proof. exact l_float_exact. Qed.
Example C79_float_exact_example : has_type Ti16 (Nint (-3)) /\ into_float Ti16 (Nint (-3)) = Some (Nfloat (S754_finite true 6755399441055744 (-51))) /\ into_float Tf32 (Nfloat S754_nan) = Some (Nfloat S754_nan).
Proof. split; [exists (- 2 ^ 15), (2 ^ 15 - 1); split; [reflexivity|lia]|]. split; vm_compute; reflexivity. Qed.
Print Assumptions C79_float_exact.

(** C79, refuted beyond 2^53: different i64 numbers have the same floating value. *)
Theorem C79_float_loss_refuted : exists v w x, has_type Ti64 v /\ has_type Ti64 w /\ ~ same_value v w /\ into_float Ti64 v = Some x /\ into_float Ti64 w = Some x.
Proof. exact l_float_loss_refuted. Qed.
Print Assumptions C79_float_loss_refuted.

(** C80: comparing tensors of any two types (with a promotion) broadcasts, and each element is true exactly when the two numbers are so related; not-a-number is unequal to everything and unordered. *)
Theorem C80_compare : forall k dflt o rel a b (ta tb : tensor num), tensor_ok ta -> tensor_ok tb ->
  (forall r, promote a b = Some r -> elements_fit a r ta /\ elements_fit b r tb /\ (ordering rel = true -> is_complex r = false)) ->
  match compare_tensors k dflt o rel a b ta tb with
  | Some (Ok c) => tensor_ok c /\ broadcasts o (t_shape ta) (t_shape tb) (t_shape c) /\
      forall ix, valid (t_shape c) ix -> exists v w q, at_ ta (source_index o (t_shape ta) ix) = Some v /\ at_ tb (source_index o (t_shape tb) ix) = Some w /\ at_ c ix = Some q /\ (q = true <-> related rel v w)
  | Some (Err _) => forall s, ~ broadcasts o (t_shape ta) (t_shape tb) s
  | Some Panic => False
  | None => promote a b = None
  end.
Proof. exact l_compare. Qed.
Example C80_compare_example : tensor_ok dt_a /\ tensor_ok dt_b /\ elements_fit Ti32 Ti32 dt_a /\ elements_fit Tu8 Ti32 dt_b /\ promote Ti32 Tu8 = Some Ti32 /\
  (exists c, compare_tensors Fixed RowMajor RowMajor LessEqual Ti32 Tu8 dt_a dt_b = Some (Ok c) /\ t_data c = [true; true; true; false]) /\ holds LessEqual (Nfloat S754_nan) (Nfloat S754_nan) = false.
Proof. split; [exact dt_a_ok|]. split; [exact dt_b_ok|]. split; [exact dt_a_fit|]. split; [exact dt_b_fit|]. split; [reflexivity|]. split; [eexists; split; vm_compute; reflexivity|reflexivity]. Qed.
Print Assumptions C80_compare.

(** C80: the same with a number of another type in place of the second tensor. *)
Theorem C80_compare_number : forall k dflt rel a b (ta : tensor num) (w : num), tensor_ok ta -> has_type b w ->
  (forall r, promote a b = Some r -> elements_fit a r ta /\ representable r w /\ (ordering rel = true -> is_complex r = false)) ->
  match compare_number k dflt rel a b ta w with
  | Some (Ok c) => tensor_ok c /\ t_shape c = t_shape ta /\ forall ix, valid (t_shape c) ix -> exists v q, at_ ta ix = Some v /\ at_ c ix = Some q /\ (q = true <-> related rel v w)
  | Some _ => False
  | None => promote a b = None
  end.
Proof. exact l_compare_number. Qed.
Example C80_compare_number_example : exists c, compare_number Fixed RowMajor Greater Ti32 Tf64 dt_a (Nfloat dt_half) = Some (Ok c) /\ t_data c = [false; true].
Proof. eexists. split; vm_compute; reflexivity. Qed.
Print Assumptions C80_compare_number.

(** C80, refuted for numbers the promoted type lacks: an i64 tensor holding 2^53+1 and a u64 tensor holding 2^53 compare equal. *)
Theorem C80_compare_refuted : exists (ta tb : tensor num) v w, tensor_ok ta /\ tensor_ok tb /\ t_data ta = [v] /\ t_data tb = [w] /\ has_type Ti64 v /\ has_type Tu64 w /\
  related Less w v /\ compare_tensors Fixed RowMajor RowMajor Equal Ti64 Tu64 ta tb = Some (Ok (mkTensor [true] (mkLayout [1%nat] [1] 0))).
Proof. exact l_compare_refuted. Qed.
Print Assumptions C80_compare_refuted.

(** C80: maximum and minimum of two tensors give, element by element, one of the two numbers, and neither exceeds (falls below) it; the result is not-a-number only if both are. *)
Theorem C80_extremum : forall k dflt o (most : bool) a b (ta tb : tensor num), tensor_ok ta -> tensor_ok tb ->
  (forall r, promote a b = Some r -> elements_fit a r ta /\ elements_fit b r tb /\ r <> Tbool /\ is_complex r = false) ->
  match extremum_tensors k dflt o most a b ta tb with
  | Some (Ok c) => tensor_ok c /\ broadcasts o (t_shape ta) (t_shape tb) (t_shape c) /\
      forall ix, valid (t_shape c) ix -> exists v w z, at_ ta (source_index o (t_shape ta) ix) = Some v /\ at_ tb (source_index o (t_shape tb) ix) = Some w /\ at_ c ix = Some z /\
        (same_value z v \/ same_value z w) /\ (forall u, u = v \/ u = w -> ~ (if most then lt_ext (real z) (real u) else lt_ext (real u) (real z))) /\ (real z = NaN -> real v = NaN /\ real w = NaN)
  | Some (Err _) => forall s, ~ broadcasts o (t_shape ta) (t_shape tb) s
  | Some Panic => False
  | None => promote a b = None
  end.
Proof. exact l_extremum. Qed.
Example C80_extremum_example : (exists c, extremum_tensors Fixed RowMajor RowMajor true Ti32 Tu8 dt_a dt_b = Some (Ok c) /\ t_data c = [Nint 250; Nint 7; Nint 250; Nint 250]) /\
  num_max (Nfloat S754_nan) (Nfloat dt_half) = Nfloat dt_half.
Proof. split; [eexists; split; vm_compute; reflexivity|reflexivity]. Qed.
Print Assumptions C80_extremum.

(** C80: floor division of integers rounds to minus infinity and stays in the type; it panics exactly for a zero divisor and for MIN by -1. *)
Theorem C80_floor_divide : forall t lo hi a b, int_range t = Some (lo, hi) -> lo <= a <= hi -> lo <= b <= hi ->
  match floor_divide t a b with
  | Ok q => b <> 0 /\ lo <= q <= hi /\ (0 < b -> q * b <= a < q * b + b) /\ (b < 0 -> q * b + b < a <= q * b)
  | Err _ => False
  | Panic => b = 0 \/ (b = -1 /\ a = lo /\ ~ lo <= - a <= hi)
  end.
Proof. exact l_floor_divide. Qed.
Example C80_floor_divide_example : floor_divide Ti8 (-7) 2 = Ok (-4) /\ floor_divide Ti8 7 (-2) = Ok (-4) /\ floor_divide Ti8 (-128) (-1) = Panic /\ floor_divide Tu8 7 2 = Ok 3. Proof. repeat split. Qed.
Print Assumptions C80_floor_divide.

(** C81: sign gives 1, -1 or 0 of the element's type by the sign of each element, and not-a-number for not-a-number. *)
Theorem C81_sign : forall k dflt t (a : tensor num), tensor_ok a -> t <> Tbool -> is_complex t = false -> (forall ix x, at_ a ix = Some x -> has_type t x) ->
  exists c, sign_tensor k dflt t a = Ok c /\ tensor_ok c /\ t_shape c = t_shape a /\ forall ix, valid (t_shape a) ix -> exists x y, at_ a ix = Some x /\ at_ c ix = Some y /\ has_type t y /\
    (lt_ext (Fin 0) (real x) -> same_ext (real y) (Fin 1)) /\ (lt_ext (real x) (Fin 0) -> same_ext (real y) (Fin (-1 # 1))) /\ (eq_ext (real x) (Fin 0) -> same_ext (real y) (Fin 0)) /\ (real x = NaN -> real y = NaN).
Proof. exact l_sign. Qed.
Example C81_sign_example : exists c, sign_tensor Fixed RowMajor Ti32 dt_a = Ok c /\ t_data c = [Nint (-1); Nint 1]. Proof. eexists. split; vm_compute; reflexivity. Qed.
Print Assumptions C81_sign.

(** C81, refuted: signbit is true exactly for the elements that are not negative, the opposite of its name and of the array API, for every tensor without zeros and not-a-number. *)
Theorem C81_signbit_refuted : forall k dflt t (a : tensor num), tensor_ok a -> t <> Tbool -> is_complex t = false -> (forall ix x, at_ a ix = Some x -> has_type t x /\ real x <> NaN /\ ~ eq_ext (real x) (Fin 0)) ->
  exists c, signbit_tensor k dflt a = Ok c /\ t_shape c = t_shape a /\ forall ix, valid (t_shape a) ix -> exists x q, at_ a ix = Some x /\ at_ c ix = Some q /\ (q = true <-> ~ lt_ext (real x) (Fin 0)).
Proof. exact l_signbit_refuted. Qed.
Example C81_signbit_refuted_example : exists c, signbit_tensor Fixed RowMajor dt_a = Ok c /\ t_data c = [false; true]. Proof. eexists. split; vm_compute; reflexivity. Qed.
Print Assumptions C81_signbit_refuted.

(** C81: abs gives the absolute value in the same type; only for the smallest signed integer it panics (with overflow checks) or returns its argument (without). *)
Theorem C81_abs : forall checks t v, t <> Tbool -> is_complex t = false -> has_type t v ->
  match num_abs checks t v with
  | Ok y => has_type t y /\ ((exists lo hi, int_range t = Some (lo, hi) /\ v = Nint lo /\ lo < 0 /\ checks = false /\ y = v) \/
      (lt_ext (real v) (Fin 0) /\ (match real v, real y with Fin p, Fin q => (q == - p)%Q | NInf, PInf => True | _, _ => False end)) \/ (~ lt_ext (real v) (Fin 0) /\ same_ext (real y) (real v)))
  | Err _ => False
  | Panic => checks = true /\ exists lo hi, int_range t = Some (lo, hi) /\ v = Nint lo /\ lo < 0
  end.
Proof. exact l_abs. Qed.
Example C81_abs_example : num_abs true Ti8 (Nint (-127)) = Ok (Nint 127) /\ num_abs true Ti8 (Nint (-128)) = Panic /\ num_abs true Tf32 (Nfloat (S754_zero true)) = Ok (Nfloat (S754_zero false)). Proof. repeat split. Qed.
Print Assumptions C81_abs.

(** C81, refuted without overflow checks: the absolute value of the smallest signed integer is that negative number. *)
Theorem C81_abs_refuted : forall t lo hi, int_range t = Some (lo, hi) -> lo < 0 -> has_type t (Nint lo) /\ num_abs false t (Nint lo) = Ok (Nint lo).
Proof. exact l_abs_refuted. Qed.
Example C81_abs_refuted_example : num_abs false Ti64 (Nint (- 2 ^ 63)) = Ok (Nint (- 2 ^ 63)). Proof. reflexivity. Qed.
Print Assumptions C81_abs_refuted.
