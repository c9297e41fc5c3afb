(** Model of rstsr-native-impl/src/cpu_serial/reduction.rs, cpu_rayon/reduction.rs and their use in
    rstsr-core/src/device_cpu_serial/reduction.rs.  The accumulator closures are pure functions: [init] is the value of
    init(), [f] adds an element to an accumulator, [fsum] joins two accumulators, [fout] finishes. *)
From Verif Require Import Base Spec M_Layout M_Indexer M_Broadcast M_Rearr M_Iter M_Kernel M_Tensor.
Local Open Scope Z_scope.

(** [&a[p..p + n]] *)
Definition slice_get {T} (a : list T) (p : Z) (n : nat) : res (list T) :=
  if (0 <=? p) && (p + Z.of_nat n <=? Z.of_nat (length a)) then Ok (firstn n (skipn (Z.to_nat p) a)) else Panic.
(** items of a tuple of column-major iterators that are zipped or walked alone *)
Definition positions_col (k : dimty) (l : layout) : res (list Z) := dispatch_positions k l.
(** items of IterLayoutRowMajor::new(l), iterator.rs:396-410 *)
Definition positions_row (k : dimty) (l : layout) : res (list Z) :=
  let* it := iter_new RowMajor k l in collect (mkIterLayout RowMajor it).
(** [for i in axes: shape[i]] multiplied up, reduction.rs:226-229; indexing out of range panics *)
Definition product_at (sh : list nat) (axes : list nat) : res nat :=
  let* ds := map_res (vget sh) axes in Ok (size ds).

Section Reduce.
  Context {T S O : Type} (init : S) (f : S -> T -> S) (fsum : S -> S -> S) (fout : S -> O).

  (** the loop of unrolled_reduce, reduction.rs:57-68 *)
  Fixpoint unrolled_loop (xs : list T) (p0 p1 p2 p3 p4 p5 p6 p7 : S) : S * S * S * S * S * S * S * S * list T :=
    match xs with
    | x0 :: x1 :: x2 :: x3 :: x4 :: x5 :: x6 :: x7 :: r =>
      unrolled_loop r (f p0 x0) (f p1 x1) (f p2 x2) (f p3 x3) (f p4 x4) (f p5 x5) (f p6 x6) (f p7 x7)
    | _ => (p0, p1, p2, p3, p4, p5, p6, p7, xs)
    end.
  (** unrolled_reduce, reduction.rs:44-83; the last loop stops at i >= 7 *)
  Definition unrolled_reduce (xs : list T) : S :=
    let '(p0, p1, p2, p3, p4, p5, p6, p7, xs) := unrolled_loop xs init init init init init init init init in
    let acc := fsum init (fsum p0 p4) in
    let acc := fsum acc (fsum p1 p5) in
    let acc := fsum acc (fsum p2 p6) in
    let acc := fsum acc (fsum p3 p7) in
    fold_left f (firstn 7 xs) acc.

  (** [acc = f(acc, a[idx].clone())] *)
  Definition add_at (a : list T) (acc : S) (p : Z) : res S := let* x := zget a p in Ok (f acc x).
  (** [acc = f_sum(acc, unrolled_reduce(&a[idx..idx + n]))] *)
  Definition add_slice (a : list T) (n : nat) (acc : S) (p : Z) : res S :=
    let* slc := slice_get a p n in Ok (fsum acc (unrolled_reduce slc)).

  (** CONTIG_SWITCH, reduction.rs:37 *)
  Definition reduce_switch : nat := 32.
  (** reduce_all_cpu_serial, reduction.rs:144-178 *)
  Definition reduce_all (k : dimty) (a : list T) (la : layout) : res O :=
    let* l := translate_unary RowMajor la OK in
    let '(contig, n) := with_contig [l] in
    let* acc := (if (reduce_switch <=? n)%nat
                 then dispatch k contig (fun acc p => match p with [i] => add_slice a n acc i | _ => Panic end) init
                 else let* ps := positions_col k l in fold_res (add_at a) ps init) in
    Ok (fout acc).

  (** rayon's [iter.into_par_iter().fold(init, g).reduce(init, f_sum)] over a layout iterator, as used in
      cpu_rayon/reduction.rs.  The bridge splits the producer where it likes (here: at any point within the length), each
      leaf is folded from init and joined to an init by the reducer's folder, and results are joined pairwise. *)
  Fixpoint par_reduce (k : dimty) (t : split_tree) (it : iter_layout) (g : S -> Z -> res S) : res S :=
    match t with
    | Leaf => let* xs := collect it in let* r := fold_res g xs init in Ok (fsum init r)
    | Node n a b =>
      let* len := il_len it in
      let* p := il_split_at k it (Nat.min n len) in
      let* x := par_reduce k a (fst p) g in
      let* y := par_reduce k b (snd p) g in Ok (fsum x y)
    end.
  (** the same over the range [(0..n).step_by(chunk)], given by its items *)
  Fixpoint par_reduce_list {X} (t : split_tree) (xs : list X) (g : S -> X -> res S) : res S :=
    match t with
    | Leaf => let* r := fold_res g xs init in Ok (fsum init r)
    | Node n a b => let* x := par_reduce_list a (firstn n xs) g in let* y := par_reduce_list b (skipn n xs) g in Ok (fsum x y)
    end.
  (** start and length of each chunk: chunks_mut(c).enumerate(), reduction.rs:285-287, and (0..n).step_by(c) with
      [chunk.min(n - idx)], cpu_rayon/reduction.rs:76-80 *)
  Definition chunks (c n : nat) : list (nat * nat) :=
    map (fun i => (i * c, Nat.min c (n - i * c))%nat) (seq 0 ((n + c - 1) / c)).
  (** reduce_all_cpu_rayon, cpu_rayon/reduction.rs:21-104; [t] and [ti] are the schedules of the outer loop and of the
      inner loop for each outer position.  PARALLEL_SWITCH = PARALLEL_CHUNK_MAX = 1024. *)
  Definition reduce_all_rayon (chunk : nat) (t : split_tree) (ti : Z -> split_tree) (k : dimty) (a : list T) (la : layout) : res O :=
    if (l_size la <? chunk)%nat then reduce_all k a la else
    let* l := translate_unary RowMajor la OK in
    let '(contig, n) := with_contig [l] in
    let* acc :=
      (if (reduce_switch <=? n)%nat then
         match contig with
         | [lc] =>
           let* it := iter_new ColMajor k lc in
           if (n <? chunk)%nat then par_reduce k t (mkIterLayout ColMajor it) (add_slice a n)
           else par_reduce k t (mkIterLayout ColMajor it) (fun acc p =>
                  let* r := par_reduce_list (ti p) (chunks chunk n) (fun acc c => add_slice a (snd c) acc (p + Z.of_nat (fst c))) in
                  Ok (fsum acc r))
         | _ => Panic
         end
       else let* it := iter_new ColMajor k l in par_reduce k t (mkIterLayout ColMajor it) (add_at a)) in
    Ok (fout acc).

  (** [let acc_before = acc; for _ in 1..n { acc = f_sum(acc, acc_before) }], reduction.rs:250-253, 297-300, 320-323 *)
  Definition repeat_sum (acc : S) (n : nat) : S := fold_left (fun s _ => fsum s acc) (seq 1 (n - 1)) acc.
  (** How the accumulation over the summed axes is run for one remaining position: a fold (serial), or rayon's
      fold/reduce. *)
  Definition runner := Z -> layout -> (S -> Z -> res S) -> res S.
  Definition run_serial (k : dimty) : runner := fun _ l g => let* ps := positions_col k l in fold_res g ps init.
  Definition run_rayon (k : dimty) (tr : Z -> split_tree) : runner :=
    fun i l g => let* it := iter_new ColMajor k l in par_reduce k (tr i) (mkIterLayout ColMajor it) g.
  (** The three branches of reduce_axes give the list of writes out[position] = value.  (Simplification: all values are
      computed before the first write.  They only depend on the input, never on the output.) *)
  (** branch 1, reduction.rs:231-256, cpu_rayon/reduction.rs:167-199: the summed axes have a contiguous part of [n] elements *)
  Definition axes_branch1 (run : runner) (k : dimty) (a : list T) (offset : Z) (n s0 : nat) (lmcd locd lsd : layout) : res (list (Z * O)) :=
    let* mcd := positions_col k lmcd in
    let* ocd := positions_col k locd in
    map_res (fun p =>
      let* acc := run (fst p) lsd (fun acc i => add_slice a n acc (fst p + i - offset)) in
      Ok (snd p, fout (repeat_sum acc s0))) (combine mcd ocd).
  (** one chunk of branch 2, reduction.rs:285-296 *)
  Definition chunk_acc (a : list T) (base : Z) (scd : list Z) (offset : Z) (c : nat * nat) : res (list S) :=
    fold_res (fun vacc i =>
      let* slc := slice_get a (base + i - offset + Z.of_nat (fst c)) (snd c) in
      Ok (map (fun p => f (fst p) (snd p)) (combine vacc slc))) scd (repeat init (snd c)).
  (** branch 2, reduction.rs:257-305, cpu_rayon/reduction.rs:200-251: the remaining axes have a contiguous part of [n]
      elements, accumulated in chunks *)
  Definition axes_branch2 (k : dimty) (chunk : nat) (a : list T) (offset : Z) (n s0 : nat) (lscd lmd lod loc : layout) : res (list (Z * O)) :=
    let* scd := positions_col k lscd in
    let* md := positions_col k lmd in
    let* od := positions_col k lod in
    let* _ := check (f_contig loc) Miscellaneous in
    let* ws := map_res (fun p =>
      let* vs := map_res (chunk_acc a (fst p) scd offset) (chunks chunk n) in
      Ok (map (fun q => (snd p + Z.of_nat (fst q), fout (repeat_sum (snd q) s0))) (combine (seq 0 n) (concat vs)))) (combine md od) in
    Ok (concat ws).
  (** branch 3, reduction.rs:306-327, cpu_rayon/reduction.rs:252-284: no contiguous part *)
  Definition axes_branch3 (run : runner) (k : dimty) (a : list T) (offset : Z) (s0 : nat) (lmd lod lsd : layout) : res (list (Z * O)) :=
    let* md := positions_col k lmd in
    let* od := positions_col k lod in
    map_res (fun p =>
      let* acc := run (fst p) lsd (fun acc i => add_at a acc (fst p + i - offset)) in
      Ok (snd p, fout (repeat_sum acc s0))) (combine md od).
  (** the broadcast remaining axes, reduction.rs:330-349, cpu_rayon/reduction.rs:287-306; reading an unwritten cell is
      undefined behaviour ([Panic]) *)
  Definition axes_spread (k : dimty) (offset : Z) (lo0 locd : layout) (out : list (option O)) : res (list (option O)) :=
    let* o0 := positions_col k lo0 in
    let* ocd := positions_col k locd in
    fold_res (fun out i0 => fold_res (fun out i =>
      let* v := zget out i in
      match v with Some v => zset out (i0 + i - offset) (Some v) | None => Panic end) ocd out) o0 out.
  (** dim_split_axes with usize axes cast to isize, first component *)
  Definition sub_layout (l : layout) (axes : list nat) : res layout :=
    let* p := dim_split_axes l (map Z.of_nat axes) in Ok (fst p).
  Definition write_out (out : list (option O)) (w : Z * O) : res (list (option O)) := zset out (fst w) (Some (snd w)).
  (** layouts, writes and the final spreading, reduction.rs:214-349 up to the execution of the writes *)
  Definition axes_writes (run : runner) (chunk : nat) (dflt : order) (a : list T) (la : layout) (axes : list Z) :
    res (layout * layout * list (Z * O) * (list (option O) -> res (list (option O)))) :=
    let* p := dim_split_axes la axes in
    let '(ls, lm) := p in
    let offset := l_offset la in
    let* lo := layout_for_array_copy Dyn dflt lm OK in
    let '(_, as0, asc, asd) := get_axes_composition ls in
    let '(_, am0, amc, amd) := get_axes_composition lm in
    let* size_s0 := product_at (l_shape lm) as0 in
    let* size_sc := product_at (l_shape ls) asc in
    let* size_m0 := product_at (l_shape lm) am0 in
    let* size_mc := product_at (l_shape lm) amc in
    let* ws :=
      (if (1 <? size_sc)%nat then
         let* lmcd := sub_layout lm (amc ++ amd) in
         let* locd := sub_layout lo (amc ++ amd) in
         let* lsd := sub_layout ls asd in
         axes_branch1 run Dyn a offset size_sc size_s0 lmcd locd lsd
       else if (1 <? size_mc)%nat then
         let* lscd := sub_layout ls (asc ++ asd) in
         let* lmd := sub_layout lm amd in
         let* lod := sub_layout lo amd in
         let* loc := sub_layout lo amc in
         axes_branch2 Dyn chunk a offset size_mc size_s0 lscd lmd lod loc
       else
         let* lmd := sub_layout lm amd in
         let* lod := sub_layout lo amd in
         let* lsd := sub_layout ls asd in
         axes_branch3 run Dyn a offset size_s0 lmd lod lsd) in
    Ok (lm, lo, ws, fun out =>
      if (1 <? size_m0)%nat then
        let* lo0 := sub_layout lo am0 in
        let* locd := sub_layout lo (amc ++ amd) in
        axes_spread Dyn offset lo0 locd out
      else Ok out).
  (** the end of reduce_axes, reduction.rs:350-367; [dio] is TensorIterOrder::default(), K unless the user changed it *)
  Definition axes_finish (dflt : order) (dio : iter_order) (lm lo : layout) (out : list (option O)) : res (list O * layout) :=
    let* out := assume_init out in
    match dio with
    | OK => Ok (out, lo)
    | _ => let* lo_default := layout_for_array_copy Dyn dflt lm dio in
           if layout_eqb lo_default lo then Ok (out, lo)
           else let* d := op_muta_refb Dyn (uninit O (Z.of_nat (l_size lo_default))) lo_default out lo (fun _ y => Some y) in
                let* d := assume_init d in Ok (d, lo)
    end.
  (** reduce_axes_cpu_serial, reduction.rs:180-368; [dflt] is the default memory order.  Layouts are IxD.  (The error kind
      RuntimeError is rendered Miscellaneous.) *)
  Definition reduce_axes (dflt : order) (dio : iter_order) (a : list T) (la : layout) (axes : list Z) : res (list O * layout) :=
    let* p := axes_writes (run_serial Dyn) 48 dflt a la axes in
    let '(lm, lo, ws, spread) := p in
    let* out := fold_res write_out ws (uninit O (Z.of_nat (l_size lo))) in
    let* out := spread out in
    axes_finish dflt dio lm lo out.
  (** reduce_axes_cpu_rayon, cpu_rayon/reduction.rs:107-330: the writes happen in some order, the sums of branches 1 and 3
      are split by some schedule.  [switch] is PARALLEL_SWITCH = 1024. *)
  Definition reduce_axes_rayon (switch : nat) (tr : Z -> split_tree) (dflt : order) (dio : iter_order) (a : list T) (la : layout) (axes : list Z)
    (r : res (list O * layout)) : Prop :=
    if (l_size la <? switch)%nat then r = reduce_axes dflt dio a la axes else
    match axes_writes (run_rayon Dyn tr) 64 dflt a la axes with
    | Ok (lm, lo, ws, spread) => exists out, in_some_order write_out ws (uninit O (Z.of_nat (l_size lo))) out /\
        r = (let* out := out in let* out := spread out in axes_finish dflt dio lm lo out)
    | Err e => r = Err e
    | Panic => r = Panic
    end.
End Reduce.

(** ** Arg reductions *)
Section Arg.
  Context {T : Type} (fcomp feq : option T -> T -> option bool).

  (** [cur_idx < acc_idx] on arrays/vectors: lexicographic *)
  Fixpoint lex_lt (a b : list nat) : bool :=
    match a, b with
    | [], _ :: _ => true
    | x :: a', y :: b' => (x <? y)%nat || ((x =? y)%nat && lex_lt a' b')
    | _, _ => false
    end.
  (** fold_func, reduction.rs:438-468 *)
  Definition arg_fold (a : list T) (acc : option (list nat * T)) (cur : list nat * Z) : res (option (list nat * T)) :=
    let* v := zget a (snd cur) in
    let prev := option_map snd acc in
    match fcomp prev v with
    | Some true => Ok (Some (fst cur, v))
    | Some false =>
      match feq prev v with
      | Some true => match acc with
                     | Some (i, _) => if lex_lt (fst cur) i then Ok (Some (fst cur, v)) else Ok acc
                     | None => Ok (Some (fst cur, v))
                     end
      | _ => Ok acc
      end
    | None => Ok acc
    end.
  (** items of an indexed iterator, consumed from the front *)
  Fixpoint collect_indexed_loop (fuel : nat) (it : iter_layout) : res (list (list nat * Z)) :=
    match fuel with
    | O => Panic
    | S fuel => let* p := indexed_next it in
                match fst p with None => Ok [] | Some v => let* r := collect_indexed_loop fuel (snd p) in Ok (v :: r) end
    end.
  Definition collect_indexed (it : iter_layout) : res (list (list nat * Z)) := let* n := il_len it in collect_indexed_loop (S n) it.
  (** reduce_all_unraveled_arg_cpu_serial, reduction.rs:425-477 *)
  Definition reduce_all_unraveled_arg (k : dimty) (a : list T) (la : layout) : res (list nat) :=
    let* _ := check (0 <? l_size la)%nat InvalidLayout in
    let* it := indexed_new k la RowMajor in
    let* xs := collect_indexed it in
    let* acc := fold_res (arg_fold a) xs None in
    match acc with Some (i, _) => Ok i | None => Err InvalidValue end.
  (** reduce_axes_unraveled_arg_cpu_serial, reduction.rs:479-529 *)
  Definition reduce_axes_unraveled_arg (dflt : order) (dio : iter_order) (k : dimty) (a : list T) (la : layout) (axes : list Z) : res (list (list nat) * layout * layout) :=
    let* _ := check (0 <? l_size la)%nat InvalidLayout in
    let* p := dim_split_axes la axes in
    let '(laxes, lrest) := p in
    let* lout := layout_for_array_copy Dyn dflt lrest dio in
    let* sw := translate_to_col_major dflt [lout; lrest] dio in
    match sw with
    | [lout_s; lrest_s] =>
      let* po := positions_row Dyn lout_s in
      let* pr := positions_row Dyn lrest_s in
      let* out := fold_res (fun out p =>
        let* i := reduce_all_unraveled_arg Dyn a (mkLayout (l_shape laxes) (l_stride laxes) (snd p)) in
        zset out (fst p) (Some i)) (combine po pr) (uninit (list nat) (Z.of_nat (l_size lout))) in
      let* out := assume_init out in
      Ok (out, laxes, lout)
    | _ => Panic
    end.
  (** ravelling of the index, reduction.rs:544-550, 573-579 *)
  Definition ravel (o : order) (k : dimty) (sh ix : list nat) : Z := index_uncheck (new_contig k sh 0 o) ix.
  (** reduce_all_arg_cpu_serial, reduction.rs:531-551 *)
  Definition reduce_all_arg (k : dimty) (a : list T) (la : layout) (o : order) : res Z :=
    let* ix := reduce_all_unraveled_arg k a la in Ok (ravel o k (l_shape la) ix).
  (** reduce_axes_arg_cpu_serial, reduction.rs:553-581 *)
  Definition reduce_axes_arg (dflt : order) (dio : iter_order) (k : dimty) (a : list T) (la : layout) (axes : list Z) (o : order) : res (list Z * layout) :=
    let* r := reduce_axes_unraveled_arg dflt dio k a la axes in
    let '(idx, laxes, lout) := r in
    Ok (map (ravel o Dyn (l_shape laxes)) idx, lout).

  (** sum_func, cpu_rayon/reduction.rs:489-496 *)
  Definition arg_join (a : list T) (la : layout) (x y : option (list nat * T)) : res (option (list nat * T)) :=
    match x, y with
    | Some _, Some (i, _) => arg_fold a x (i, index_uncheck la i)
    | Some _, None => Ok x
    | None, _ => Ok y
    end.
  (** [iter_a.into_par_iter().fold(|| None, fold_func).reduce(|| None, sum_func)], as for [par_reduce] *)
  Fixpoint par_arg (k : dimty) (t : split_tree) (a : list T) (la : layout) (it : iter_layout) : res (option (list nat * T)) :=
    match t with
    | Leaf => let* xs := collect_indexed it in let* r := fold_res (arg_fold a) xs None in arg_join a la None r
    | Node n x y =>
      let* len := il_len it in
      let* p := il_split_at k it (Nat.min n len) in
      let* u := par_arg k x a la (fst p) in
      let* v := par_arg k y a la (snd p) in arg_join a la u v
    end.
  (** reduce_all_unraveled_arg_cpu_rayon, cpu_rayon/reduction.rs:440-510, [switch] is PARALLEL_SWITCH = 1024 *)
  Definition reduce_all_unraveled_arg_rayon (switch : nat) (t : split_tree) (k : dimty) (a : list T) (la : layout) : res (list nat) :=
    let* _ := check (0 <? l_size la)%nat InvalidLayout in
    if (l_size la <? switch)%nat then reduce_all_unraveled_arg k a la else
    let* it := indexed_new k la RowMajor in
    let* acc := par_arg k t a la it in
    match acc with Some (i, _) => Ok i | None => Err InvalidValue end.
  (** reduce_all_arg_cpu_rayon, cpu_rayon/reduction.rs:577-598 *)
  Definition reduce_all_arg_rayon (switch : nat) (t : split_tree) (k : dimty) (a : list T) (la : layout) (o : order) : res Z :=
    let* ix := reduce_all_unraveled_arg_rayon switch t k a la in Ok (ravel o k (l_shape la) ix).
  (** reduce_axes_unraveled_arg_cpu_rayon, cpu_rayon/reduction.rs:512-575.  [tr] is the schedule of each inner reduction.
      (Simplification: the writes, which go to different cells, are listed in the order of the iterators.) *)
  Definition reduce_axes_unraveled_arg_rayon (switch : nat) (tr : Z -> split_tree) (dflt : order) (dio : iter_order) (k : dimty) (a : list T) (la : layout) (axes : list Z) :
    res (list (list nat) * layout * layout) :=
    if (l_size la <? switch)%nat then reduce_axes_unraveled_arg dflt dio k a la axes else
    let* p := dim_split_axes la axes in
    let '(laxes, lrest) := p in
    let* laxes := translate_unary dflt laxes dio in
    let* lout := layout_for_array_copy Dyn dflt lrest dio in
    let* sw := translate_to_col_major dflt [lout; lrest] dio in
    match sw with
    | [lout_s; lrest_s] =>
      let* po := positions_row Dyn lout_s in
      let* pr := positions_row Dyn lrest_s in
      let* out := fold_res (fun out p =>
        let* i := reduce_all_unraveled_arg_rayon switch (tr (snd p)) Dyn a (mkLayout (l_shape laxes) (l_stride laxes) (snd p)) in
        zset out (fst p) (Some i)) (combine po pr) (uninit (list nat) (Z.of_nat (l_size lout))) in
      let* out := assume_init out in
      Ok (out, laxes, lout)
    | _ => Panic
    end.
  (** reduce_axes_arg_cpu_rayon, cpu_rayon/reduction.rs:600-630 *)
  Definition reduce_axes_arg_rayon (switch : nat) (tr : Z -> split_tree) (dflt : order) (dio : iter_order) (k : dimty) (a : list T) (la : layout) (axes : list Z) (o : order) : res (list Z * layout) :=
    let* r := reduce_axes_unraveled_arg_rayon switch tr dflt dio k a la axes in
    let '(idx, laxes, lout) := r in
    Ok (map (ravel o Dyn (l_shape laxes)) idx, lout).
End Arg.

(** the comparison closures of argmin and argmax, device_cpu_serial/reduction.rs:336-349, 387-400: [lt y x] is [y < x]
    for argmin and [y > x] for argmax *)
Definition arg_comp {T} (lt : T -> T -> bool) (x : option T) (y : T) : option bool :=
  match x with Some x => Some (lt y x) | None => Some true end.
Definition arg_eq {T} (eqb : T -> T -> bool) (x : option T) (y : T) : option bool :=
  match x with Some x => Some (eqb y x) | None => Some false end.

(** ** The reductions offered by the device, rstsr-core/src/device_cpu_serial/reduction.rs (the rayon device passes the same
    closures to the rayon kernels).  The arithmetic of the element type is a parameter. *)
Section DeviceReduce.
  Context {T : Type}.
  (** sum_all and prod_all, reduction.rs:14-21, 125-132 *)
  Definition sum_all (zero : T) (add : T -> T -> T) (k : dimty) (t : tensor T) : res T :=
    reduce_all zero add add (fun x => x) k (t_data t) (t_layout t).
  (** min_all and max_all, reduction.rs:46-56, 84-95; [worst] is ext_max_value() for min *)
  Definition min_all (worst : T) (mn : T -> T -> T) (k : dimty) (t : tensor T) : res T :=
    if (l_size (t_layout t) =? 0)%nat then Err InvalidValue else reduce_all worst mn mn (fun x => x) k (t_data t) (t_layout t).
  (** mean_all, reduction.rs:157-166; [div x n] is x / T::from_usize(n) *)
  Definition mean_all (zero : T) (add : T -> T -> T) (div : T -> nat -> T) (k : dimty) (t : tensor T) : res T :=
    reduce_all zero add add (fun x => div x (l_size (t_layout t))) k (t_data t) (t_layout t).
  (** var_all, reduction.rs:194-212, for a real type: sums of x and of x * x *)
  Definition var_all (zero : T) (add sub mul : T -> T -> T) (div : T -> nat -> T) (k : dimty) (t : tensor T) : res T :=
    let n := l_size (t_layout t) in
    reduce_all (zero, zero) (fun acc x => (add (fst acc) x, add (snd acc) (mul x x)))
      (fun a b => (add (fst a) (fst b), add (snd a) (snd b)))
      (fun acc => let mean := div (fst acc) n in sub (div (snd acc) n) (mul mean mean)) k (t_data t) (t_layout t).
  (** count_nonzero_all, reduction.rs:494-501 *)
  Definition count_nonzero_all (is_zero : T -> bool) (k : dimty) (t : tensor T) : res nat :=
    reduce_all 0%nat (fun acc x => if negb (is_zero x) then (acc + 1)%nat else acc) Nat.add (fun x => x) k (t_data t) (t_layout t).
End DeviceReduce.
(** all_all and any_all, reduction.rs:431-438, 462-469 *)
Definition all_all (k : dimty) (t : tensor bool) : res bool := reduce_all true andb andb (fun x => x) k (t_data t) (t_layout t).
Definition any_all (k : dimty) (t : tensor bool) : res bool := reduce_all false orb orb (fun x => x) k (t_data t) (t_layout t).

(** ** Reductions over axes, same file (the rayon device passes the same closures to the rayon kernels) *)
Section DeviceAxes.
  Context {T : Type} (dflt : order) (dio : iter_order).
  (** sum_axes and prod_axes, reduction.rs:23-36, 134-147 *)
  Definition sum_axes (zero : T) (add : T -> T -> T) (t : tensor T) (axes : list Z) : res (list T * layout) :=
    reduce_axes zero add add (fun x => x) dflt dio (t_data t) (t_layout t) axes.
  (** mean_axes, reduction.rs:168-184 *)
  Definition mean_axes (zero : T) (add : T -> T -> T) (div : T -> nat -> T) (t : tensor T) (axes : list Z) : res (list T * layout) :=
    let* p := dim_split_axes (t_layout t) axes in
    reduce_axes zero add add (fun x => div x (l_size (fst p))) dflt dio (t_data t) (t_layout t) axes.
  (** min_axes, max_axes and var_axes are in M_Stats.v *)
End DeviceAxes.
(** AxesIndex::as_ref, rstsr-common/src/axis_index.rs (None has no axes) *)
Definition axes_list (axes : axes_index) : list Z := match axes with AxNone => [] | AxVal a => [a] | AxVec v => v end.
(** sum_axes_f, min_axes_f, mean_axes_f etc., rstsr-core/src/tensor/reduction.rs:14-36: [all] and [some] are the functions
    of the device *)
Definition reduce_axes_f {O} (all : res O) (some : list Z -> res (list O * layout)) (axes : axes_index) : res (tensor O) :=
  match axes with
  | AxNone => let* s := all in let* l := layout_new [] [] 0 in tensor_new [s] l
  | _ => let* p := some (axes_list axes) in tensor_new (fst p) (snd p)
  end.
