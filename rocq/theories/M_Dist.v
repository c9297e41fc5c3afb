(** Model of rstsr-sci-traits/src/distance: native_impl.rs (cdist_serial, cdist_rayon and the weighted versions), metric.rs (the metrics), and cdist_f of
    impl_cpu_serial.rs, impl_faer.rs and auto_impl_rayon.rs (which differ in the native function only).
    The float operations are arbitrary functions; size_of::<T>() is a parameter. *)
From Verif Require Import Base Spec M_Layout M_Kernel M_Tensor M_Matmul.
Local Open Scope Z_scope.

(** (0..n).step_by(b) *)
Definition step_by (n b : nat) : list nat := map (fun q => (q * b)%nat) (seq 0 ((n + b - 1) / b)).
(** the pairs in the order of the four nested loops, native_impl.rs:43-68, 115-150, 201-227, 286-320 *)
Definition batch_cells (m n b : nat) : list (nat * nat) :=
  flat_map (fun i0 => flat_map (fun j0 => flat_map (fun i => map (fun j => (i, j)) (seq j0 (Nat.min (j0 + b) n - j0))) (seq i0 (Nat.min (i0 + b) m - i0))) (step_by n b)) (step_by m b).
(** batch_size, native_impl.rs:37, 108, 195, 279: an integer division by 0 panics *)
Definition batch_size (size_t k : nat) : res nat :=
  if (size_t * k =? 0)%nat then Panic else Ok (Z.to_nat (Z.min 64 (Z.max 8 (262144 / Z.of_nat (size_t * k) / 2)))).

(** A metric: the check of the number of columns against the number of weights, a statistic of every row (norms, means, sums; computed once by initialize),
    an accumulator, a step per pair of entries (and weight), and a final formula of the statistics, the number of columns (or the sum of the weights) and the
    accumulator.  [P] is unit for the metrics without initialize. *)
Record metric (T W P S O : Type) := mkMetric {
  m_fits : nat -> nat -> bool; m_stat : list W -> list T -> P; m_start : S; m_step : P -> P -> S -> T -> T -> W -> S; m_finish : P -> P -> W -> S -> O }.
Arguments mkMetric {T W P S O} _ _ _ _ _.
Arguments m_fits {T W P S O} _ _ _.
Arguments m_stat {T W P S O} _ _ _.
Arguments m_start {T W P S O} _.
Arguments m_step {T W P S O} _ _ _ _ _ _ _.
Arguments m_finish {T W P S O} _ _ _ _ _.

Section Cdist.
  Context {T W P S O : Type} (M : metric T W P S O).
  (** zero, one and addition of the weights; a number of columns as a weight *)
  Context (zero one : W) (add : W -> W -> W) (of_size : nat -> W).

  (** one row as initialize reads it: la.index_uncheck(&[i, j]), metric.rs:463-475 etc. *)
  Definition init_row (d : list T) (l : layout) (i : nat) : res (list T) := map_res (fun j => zget d (index_uncheck l [i; j])) (seq 0 (extent l 1)).
  (** initialize and weighted_initialize, metric.rs:448-482, 531-578, 647-693, 744-803, 890-925.  The rows are read here for all metrics; those without
      initialize read the same entries later. *)
  Definition initialize (d : list T) (l : layout) (w : list W) : res (list P) :=
    map_res (fun i => let* r := init_row d l i in Ok (m_stat M w r)) (seq 0 (extent l 0)).
  (** the two vectors as distance reads them: slices if not STRIDED, metric.rs:303-317, 364-383 *)
  Definition slice_of (d : list T) (off : Z) (size : nat) : res (list T) := map_res (fun i => zget d (off + Z.of_nat i)) (seq 0 size).
  Definition strided_of (d : list T) (off stride : Z) (size : nat) : res (list T) := map_res (fun i => zget d (off + Z.of_nat i * stride)) (seq 0 size).
  Definition accumulate (pu pv : P) (uvw : list (T * T * W)) : S := fold_left (fun s x => m_step M pu pv s (fst (fst x)) (snd (fst x)) (snd x)) uvw (m_start M).
  (** distance, metric.rs:290-321, 414-446, 611-645, 834-888 *)
  Definition distance (strided : bool) (d e : list T) (ou ov su sv : Z) (size : nat) (pu pv : P) (wt : W) : res O :=
    let* u := if strided then strided_of d ou su size else slice_of d ou size in
    let* v := if strided then strided_of e ov sv size else slice_of e ov size in
    Ok (m_finish M pu pv wt (accumulate pu pv (combine (combine u v) (repeat one size)))).
  (** weighted_distance, metric.rs:348-386, 492-529, 703-742: izip! ends with the shortest vector; weights[i] may panic *)
  Definition weighted_distance (strided : bool) (d e : list T) (ou ov su sv : Z) (size : nat) (w : list W) (pu pv : P) (wt : W) : res O :=
    let* u := if strided then strided_of d ou su size else slice_of d ou size in
    let* v := if strided then strided_of e ov sv size else slice_of e ov size in
    let* w := if strided then map_res (fun i => vget w i) (seq 0 size) else Ok w in
    Ok (m_finish M pu pv wt (accumulate pu pv (combine (combine u v) w))).

  (** cdist_serial and cdist_weighted_serial, native_impl.rs:8-157, for the cells in the given order; [w]: the weights ([None]: without).
      The unwritten cells of the uninitialised vector are [None]. *)
  Definition cdist_cells (order_of_cells : list (nat * nat) -> list (nat * nat)) (size_t : nat)
    (xa xb : list T) (la lb : layout) (w : option (list W)) (o : order) : res (list O) :=
    let* _ := check (extent la 1 =? extent lb 1)%nat InvalidLayout in
    let k := extent la 1 in
    let m := extent la 0 in
    let n := extent lb 0 in
    let ws := match w with Some w => w | None => repeat one k end in
    let* _ := check (m_fits M k (length ws)) InvalidLayout in
    let* pa := initialize xa la ws in
    let* pb := initialize xb lb ws in
    let* b := batch_size size_t k in
    let sa := l_stride la in
    let sb := l_stride lb in
    let strided := negb (nth 1 sa 0 =? 1) || negb (nth 1 sb 0 =? 1) in
    let wt := match w with Some w => fold_left add w zero | None => of_size k end in
    let* d := fold_res (fun d ij =>
        let '(i, j) := ij in
        let ou := l_offset la + Z.of_nat i * nth 0 sa 0 in
        let ov := l_offset lb + Z.of_nat j * nth 0 sb 0 in
        let* pu := vget pa i in
        let* pv := vget pb j in
        let* x := match w with
                  | Some w => weighted_distance strided xa xb ou ov (nth 1 sa 0) (nth 1 sb 0) k w pu pv wt
                  | None => distance strided xa xb ou ov (nth 1 sa 0) (nth 1 sb 0) k pu pv wt
                  end in
        zset d (Z.of_nat (match o with RowMajor => i * n + j | ColMajor => i + j * m end)) (Some x))
      (order_of_cells (batch_cells m n b)) (repeat None (m * n)) in
    assume_init d.
  (** cdist_f, impl_cpu_serial.rs:9-84, impl_faer.rs, auto_impl_rayon.rs.  The weights' storage is passed as a whole.
      [dev]: the device's default order. *)
  Definition cdist (sigma : list (nat * nat) -> list (nat * nat)) (size_t : nat) (dev : order) (xa xb : tensor T) (w : option (tensor W)) : res (tensor O) :=
    let la := t_layout xa in
    let lb := t_layout xb in
    let* _ := check (ndim la =? 2)%nat InvalidLayout in
    let* _ := check (ndim lb =? 2)%nat InvalidLayout in
    let* wd := match w with
               | None => Ok None
               | Some w => let* _ := check (ndim (t_layout w) =? 1)%nat InvalidLayout in
                           let* w := change_contig Fixed dev w RowMajor in Ok (Some (t_data w))
               end in
    let* d := cdist_cells sigma size_t (t_data xa) (t_data xb) la lb wd dev in
    tensor_new d (new_contig Fixed [extent la 0; extent lb 0] 0 dev).
  (** on the serial device: the cells in the order of the loops *)
  Definition cdist_serial := cdist (fun cells => cells).
  (** on the parallel devices (cdist_rayon and cdist_weighted_rayon, native_impl.rs:158-331): the batches are shared out among the threads, so the cells are
      written in some order *)
  Definition cdist_rayon (size_t : nat) (dev : order) (xa xb : tensor T) (w : option (tensor W)) (r : res (tensor O)) : Prop :=
    exists sigma, (forall cells, Permutation (sigma cells) cells) /\ r = cdist sigma size_t dev xa xb w.
End Cdist.

(** ** The metrics of the table, metric.rs:148-285 (weighted: 326-343).  [wx]: false for the version without weights, whose steps do not multiply by a weight;
    [w] is one there. *)
Section Metrics.
  Context {T R : Type} (zero one two : R) (add sub mul div max : R -> R -> R) (is_zero : R -> bool).
  (** entries: difference, sum, absolute value, equality *)
  Context (subt addt : T -> T -> T) (abs : T -> R) (eqt : T -> T -> bool) (wx : bool).
  Definition any_weights (_ _ : nat) : bool := true.
  Definition no_stat {A B} (_ : list A) (_ : list B) : unit := tt.
  Definition weigh (w x : R) : R := if wx then mul w x else x.
  (** the metrics that add up a term per pair of entries and apply a final formula *)
  Definition sum_metric (term : T -> T -> R) (final : R -> R) : metric T R unit R R :=
    mkMetric any_weights no_stat zero (fun _ _ s u v w => add s (weigh w (term u v))) (fun _ _ _ s => final s).
  (** MetricEuclidean (powi(2), sqrt), MetricSqEuclidean, MetricCityBlock, MetricMinkowski (powf), rows 1-4 of the tables, metric.rs:271-274, 329-332 *)
  Definition euclidean (square : T -> R) (sqrt : R -> R) : metric T R unit R R := sum_metric (fun u v => square (subt u v)) sqrt.
  Definition sq_euclidean (square : T -> R) : metric T R unit R R := sum_metric (fun u v => square (subt u v)) (fun s => s).
  Definition city_block : metric T R unit R R := sum_metric (fun u v => abs (subt u v)) (fun s => s).
  Definition minkowski (powf : R -> R -> R) (p : R) : metric T R unit R R := sum_metric (fun u v => powf (abs (subt u v)) p) (fun s => powf s (div one p)).
  (** inner_canberra, metric.rs:168-183: w * snum / sdenom is (w * snum) / sdenom *)
  Definition canberra : metric T R unit R R :=
    mkMetric any_weights no_stat zero (fun _ _ s u v w => let snum := abs (subt u v) in let sdenom := add (abs u) (abs v) in
      if is_zero sdenom then s else add s (div (weigh w snum) sdenom)) (fun _ _ _ s => s).
  (** inner_chebyshev, metric.rs:200-210; the weighted version skips weights 0 *)
  Definition chebyshev : metric T R unit R R :=
    mkMetric any_weights no_stat zero (fun _ _ s u v w => if wx && is_zero w then s else max s (abs (subt u v))) (fun _ _ _ s => s).
  (** inner_bray_curtis, metric.rs:186-198 *)
  Definition bray_curtis : metric T R unit (R * R) R :=
    mkMetric any_weights no_stat (zero, zero) (fun _ _ s u v w => (add (fst s) (weigh w (abs (subt u v))), add (snd s) (weigh w (abs (addt u v))))) (fun _ _ _ s => div (fst s) (snd s)).
  (** MetricHamming: divided by the number of columns or the sum of the weights *)
  Definition hamming : metric T R unit R R :=
    mkMetric any_weights no_stat zero (fun _ _ s u v w => if eqt u v then s else add s w) (fun _ _ wt s => div s wt).
  (** inner_jaccard, metric.rs:148-166 *)
  Definition jaccard : metric bool R unit (R * R) R :=
    mkMetric any_weights no_stat (zero, zero) (fun _ _ s u v w => let '(num, denom) := s in (if xorb u v then add num w else num, if u || v then add denom w else denom))
      (fun _ _ _ s => div (fst s) (snd s)).
  (** inner_yule and inner_yule_finalize, metric.rs:212-242 *)
  Definition yule : metric bool R unit (R * R * R * R) R :=
    mkMetric any_weights no_stat (zero, zero, zero, zero)
      (fun _ _ n u v w => let '(ntt, nff, nft, ntf) := n in
         match u, v with
         | true, true => (add ntt w, nff, nft, ntf)
         | false, false => (ntt, add nff w, nft, ntf)
         | true, false => (ntt, nff, add nft w, ntf)
         | false, true => (ntt, nff, nft, add ntf w)
         end)
      (fun _ _ _ n => let '(ntt, nff, nft, ntf) := n in let half_r := mul ntf nft in if is_zero half_r then zero else div (mul two half_r) (add (mul ntt nff) half_r)).
  (** inner_dice, metric.rs:244-265 *)
  Definition dice_step (_ _ : unit) (n : R * R) (u v : bool) (w : R) : R * R :=
    let '(ntt, ndiff) := n in
    match u, v with
    | true, true => (add ntt w, ndiff)
    | false, false => (ntt, ndiff)
    | true, false => (ntt, add ndiff w)
    | false, true => (ntt, add ndiff w)
    end.
  Definition dice : metric bool R unit (R * R) R :=
    mkMetric any_weights no_stat (zero, zero) dice_step (fun _ _ _ n => div (snd n) (add (mul two (fst n)) (snd n))).
  Definition rogers_tanimoto : metric bool R unit (R * R) R :=
    mkMetric any_weights no_stat (zero, zero) dice_step (fun _ _ wt n => div (mul two (snd n)) (add wt (snd n))).
  Definition sokal_sneath : metric bool R unit (R * R) R :=
    mkMetric any_weights no_stat (zero, zero) dice_step (fun _ _ _ n => div (mul two (snd n)) (add (mul two (snd n)) (fst n))).
  (** MetricRussellRao *)
  Definition russell_rao : metric bool R unit R R :=
    mkMetric any_weights no_stat zero (fun _ _ ntt u v w => if u && v then add ntt w else ntt) (fun _ _ wt ntt => div (sub wt ntt) wt).
End Metrics.
(** ** The metrics with row statistics *)
Section RowMetrics.
  Context {R : Type} (zero one two : R) (add sub mul div : R -> R -> R) (sqrt ln : R -> R) (of_nat : nat -> R) (wx : bool).
  Definition as_many_weights (k w : nat) : bool := (k =? w)%nat.
  (** MetricCosine, metric.rs:390-579: the norms of the rows *)
  Definition norm_of (mean : R) (w u : list R) : R :=
    sqrt (fold_left (fun s x => add s (if wx then mul (mul (snd x) (sub (fst x) mean)) (sub (fst x) mean) else mul (sub (fst x) mean) (sub (fst x) mean))) (combine u w) zero).
  Definition plain_norm (w u : list R) : R :=
    sqrt (fold_left (fun s x => add s (if wx then mul (mul (snd x) (fst x)) (fst x) else mul (fst x) (fst x))) (combine u w) zero).
  Definition cosine : metric R R R R R :=
    mkMetric as_many_weights plain_norm zero (fun _ _ s u v w => add s (if wx then mul (mul w u) v else mul u v)) (fun nu nv _ s => sub one (div s (mul nu nv))).
  (** MetricCorrelation, metric.rs:585-803: means and norms; the mean is not weighted *)
  Definition mean_of (u : list R) : R := div (fold_left add u zero) (of_nat (length u)).
  Definition correlation : metric R R (R * R) R R :=
    mkMetric as_many_weights (fun w u => (mean_of u, norm_of (mean_of u) w u)) zero
      (fun pu pv s u v w => add s (if wx then mul (mul w (sub u (fst pu))) (sub v (fst pv)) else mul (sub u (fst pu)) (sub v (fst pv))))
      (fun pu pv _ s => sub one (div s (mul (snd pu) (snd pv)))).
  (** MetricJensenShannon, metric.rs:810-925 (without weights only) *)
  Context (inf : R) (lt le : R -> R -> bool).
  Definition jensen_shannon : metric R R R R R :=
    mkMetric any_weights (fun _ u => fold_left add u zero) zero
      (fun sum_u sum_v s u v _ =>
         if lt u zero || lt v zero then inf
         else let p := div u sum_u in
              let q := div v sum_v in
              let m := div (add p q) two in
              let s := if lt zero p then add s (mul p (ln (div p m))) else s in
              if lt zero q then add s (mul q (ln (div q m))) else s)
      (fun sum_u sum_v _ s => if le sum_u zero && le sum_v zero then inf else sqrt (div s two)).
End RowMetrics.
