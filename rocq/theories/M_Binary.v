(** Model of the reductions over two operands: unrolled_binary_reduce and reduce_all_binary in
    rstsr-native-impl/src/cpu_serial/reduction.rs and cpu_rayon/reduction.rs, and allclose in rstsr-core/src/tensor/reduction.rs and
    device_cpu_serial/reduction.rs.  The closures are pure functions, as in M_Reduce.v. *)
From Coq Require Import SpecFloat.
From Verif Require Import Base Spec M_Layout M_Indexer M_Broadcast M_Rearr M_Iter M_Kernel M_Tensor M_Reduce.
Local Open Scope Z_scope.

Section Binary.
  Context {A B S O : Type} (init : S) (f : S -> A * B -> S) (fsum : S -> S -> S) (fout : S -> O).

  (** the loop of unrolled_binary_reduce, reduction.rs:113-125: while both slices have at least eight elements *)
  Fixpoint unrolled_loop2 (xs : list A) (ys : list B) (p0 p1 p2 p3 p4 p5 p6 p7 : S) : S * S * S * S * S * S * S * S * list A * list B :=
    match xs, ys with
    | x0 :: x1 :: x2 :: x3 :: x4 :: x5 :: x6 :: x7 :: xr, y0 :: y1 :: y2 :: y3 :: y4 :: y5 :: y6 :: y7 :: yr =>
      unrolled_loop2 xr yr (f p0 (x0, y0)) (f p1 (x1, y1)) (f p2 (x2, y2)) (f p3 (x3, y3)) (f p4 (x4, y4)) (f p5 (x5, y5)) (f p6 (x6, y6)) (f p7 (x7, y7))
    | _, _ => (p0, p1, p2, p3, p4, p5, p6, p7, xs, ys)
    end.
  (** unrolled_binary_reduce, reduction.rs:93-140; the last loop stops at i >= 7 *)
  Definition unrolled_binary_reduce (xs : list A) (ys : list B) : S :=
    let '(p0, p1, p2, p3, p4, p5, p6, p7, xs, ys) := unrolled_loop2 xs ys init init init init init init init init in
    let acc := fsum init (fsum p0 p4) in
    let acc := fsum acc (fsum p1 p5) in
    let acc := fsum acc (fsum p2 p6) in
    let acc := fsum acc (fsum p3 p7) in
    fold_left f (firstn 7 (combine xs ys)) acc.

  (** [f(acc, (a[idx_a].clone(), b[idx_b].clone()))] *)
  Definition add_pair (a : list A) (b : list B) (acc : S) (p : Z * Z) : res S :=
    let* x := zget a (fst p) in let* y := zget b (snd p) in Ok (f acc (x, y)).
  (** [f_sum(acc, unrolled_binary_reduce(&a[idx_a..idx_a + n], &b[idx_b..idx_b + n], ..))] *)
  Definition add_slices (a : list A) (b : list B) (n : nat) (acc : S) (p : Z * Z) : res S :=
    let* xs := slice_get a (fst p) n in let* ys := slice_get b (snd p) n in Ok (fsum acc (unrolled_binary_reduce xs ys)).
  (** reduce_all_binary_cpu_serial, reduction.rs:374-419 *)
  Definition reduce_all_binary (k : dimty) (a : list A) (la : layout) (b : list B) (lb : layout) : res O :=
    let* full := translate_to_col_major RowMajor [la; lb] OK in
    let '(contig, n) := with_contig full in
    let* acc :=
      (if (reduce_switch <=? n)%nat
       then dispatch k contig (fun acc p => match p with [i; j] => add_slices a b n acc (i, j) | _ => Panic end) init
       else match full with
            | [l1; l2] => let* ps := positions_col k l1 in let* qs := positions_col k l2 in fold_res (add_pair a b) (combine ps qs) init
            | _ => Panic
            end) in
    Ok (fout acc).

  (** rayon's [(iter_a, iter_b).into_par_iter().fold(init, g).reduce(init, f_sum)]: the zipped producer splits both iterators at the
      same point, anywhere within the shorter length (compare [par_reduce] in M_Reduce.v) *)
  Fixpoint par_reduce2 (k : dimty) (t : split_tree) (it1 it2 : iter_layout) (g : S -> Z * Z -> res S) : res S :=
    match t with
    | Leaf => let* xs := collect it1 in let* ys := collect it2 in let* r := fold_res g (combine xs ys) init in Ok (fsum init r)
    | Node n a b =>
      let* len1 := il_len it1 in
      let* len2 := il_len it2 in
      let m := Nat.min n (Nat.min len1 len2) in
      let* p := il_split_at k it1 m in
      let* q := il_split_at k it2 m in
      let* x := par_reduce2 k a (fst p) (fst q) g in
      let* y := par_reduce2 k b (snd p) (snd q) g in Ok (fsum x y)
    end.
  (** reduce_all_binary_cpu_rayon, cpu_rayon/reduction.rs:334-432; [t] and [ti] are the schedules of the outer loop and of the inner
      loop for each outer position.  PARALLEL_SWITCH = PARALLEL_CHUNK_MAX = 1024 ([chunk]). *)
  Definition reduce_all_binary_rayon (chunk : nat) (t : split_tree) (ti : Z * Z -> split_tree) (k : dimty) (a : list A) (la : layout) (b : list B) (lb : layout) : res O :=
    if (l_size la <? chunk)%nat then reduce_all_binary k a la b lb else
    let* full := translate_to_col_major RowMajor [la; lb] OK in
    let '(contig, n) := with_contig full in
    let* acc :=
      (if (reduce_switch <=? n)%nat then
         match contig with
         | [l1; l2] =>
           let* it1 := iter_new ColMajor k l1 in
           let* it2 := iter_new ColMajor k l2 in
           if (n <? chunk)%nat then par_reduce2 k t (mkIterLayout ColMajor it1) (mkIterLayout ColMajor it2) (add_slices a b n)
           else par_reduce2 k t (mkIterLayout ColMajor it1) (mkIterLayout ColMajor it2) (fun acc p =>
                  let* r := par_reduce_list init fsum (ti p) (chunks chunk n) (fun acc c => add_slices a b (snd c) acc (fst p + Z.of_nat (fst c), snd p + Z.of_nat (fst c))) in
                  Ok (fsum acc r))
         | _ => Panic
         end
       else match full with
            | [l1; l2] =>
              let* it1 := iter_new ColMajor k l1 in
              let* it2 := iter_new ColMajor k l2 in
              par_reduce2 k t (mkIterLayout ColMajor it1) (mkIterLayout ColMajor it2) (add_pair a b)
            | _ => Panic
            end) in
    Ok (fout acc).
End Binary.

(** allclose_all of the devices, device_cpu_serial/reduction.rs:660-683 and feature_rayon/auto_impl/reduction.rs:725-750, with the
    reduction as a parameter; [close] is isclose with its tolerances *)
Definition allclose_all {A B} (reduce : bool -> (bool -> A * B -> bool) -> (bool -> bool -> bool) -> (bool -> bool) -> list A -> layout -> list B -> layout -> res bool)
  (close : A -> B -> bool) (a : list A) (la : layout) (b : list B) (lb : layout) : res bool :=
  if (l_size la =? 0)%nat || (l_size lb =? 0)%nat then Err InvalidValue
  else reduce true (fun acc p => acc && close (fst p) (snd p)) andb (fun acc => acc) a la b lb.
(** allclose_all_f, rstsr-core/src/tensor/reduction.rs:324-351 (allclose, allclose_f and allclose_all call it), on the serial device *)
Definition allclose {A B} (o : order) (close : A -> B -> bool) (ta : tensor A) (tb : tensor B) : res bool :=
  let* p := broadcast_layout (t_layout ta) (t_layout tb) o in
  allclose_all (fun i f s out a la b lb => reduce_all_binary i f s out Dyn a la b lb) close (t_data ta) (fst p) (t_data tb) (snd p).
(** the same on the rayon devices *)
Definition allclose_rayon {A B} (chunk : nat) (t : split_tree) (ti : Z * Z -> split_tree) (o : order) (close : A -> B -> bool) (ta : tensor A) (tb : tensor B) : res bool :=
  let* p := broadcast_layout (t_layout ta) (t_layout tb) o in
  allclose_all (fun i f s out a la b lb => reduce_all_binary_rayon i f s out chunk t ti Dyn a la b lb) close (t_data ta) (fst p) (t_data tb) (snd p).

(** isclose, rstsr-dtype-traits/src/isclose.rs:92-106, for f64 operands and f64 tolerances (promote_pair and into_cast are then
    identities).  Floats are the IEEE 754 binary64 values of Coq's SpecFloat, rounding to nearest, ties to even. *)
Definition f64 := spec_float.
Definition f64_add : f64 -> f64 -> f64 := SFadd 53 1024.
Definition f64_sub : f64 -> f64 -> f64 := SFsub 53 1024.
Definition f64_mul : f64 -> f64 -> f64 := SFmul 53 1024.
Definition f64_is_nan (x : f64) : bool := match x with S754_nan => true | _ => false end.
(** [diff <= atol + rtol * abs_b], isclose.rs:103 *)
Definition within_tolerance (rtol atol diff abs_b : f64) : bool := SFleb diff (f64_add atol (f64_mul rtol abs_b)).
(** ext_abs_diff and ext_abs of f64, ext_num.rs:156-162 *)
Definition isclose_f64 (rtol atol : f64) (equal_nan : bool) (a b : f64) : bool :=
  within_tolerance rtol atol (SFabs (f64_sub a b)) (SFabs b) || (equal_nan && f64_is_nan a && f64_is_nan b).
(** An operation of a signed integer type of [w] bits whose exact result is [z]: out of range it panics when the crate is built
    with overflow checks, and wraps around otherwise. *)
Definition signed (checks : bool) (w : Z) (z : Z) : res Z :=
  if (- 2 ^ (w - 1) <=? z) && (z <? 2 ^ (w - 1)) then Ok z
  else if checks then Panic else Ok ((z + 2 ^ (w - 1)) mod 2 ^ w - 2 ^ (w - 1)).
(** ext_abs_diff and ext_abs of the signed integers, ext_num.rs:110-120 *)
Definition signed_abs_diff (checks : bool) (w a b : Z) : res Z := signed checks w (if b <=? a then a - b else b - a).
Definition signed_abs (checks : bool) (w a : Z) : res Z := signed checks w (Z.abs a).
(** conversion of an integer to f64, [as f64] *)
Definition f64_of_Z (z : Z) : f64 := binary_normalize 53 1024 z 0 false.
(** isclose of two integers of one signed type with f64 tolerances; integers are never NaN *)
Definition isclose_signed (checks : bool) (w : Z) (rtol atol : f64) (a b : Z) : res bool :=
  let* diff := signed_abs_diff checks w a b in
  let* abs_b := signed_abs checks w b in
  Ok (within_tolerance rtol atol (f64_of_Z diff) (f64_of_Z abs_b)).
