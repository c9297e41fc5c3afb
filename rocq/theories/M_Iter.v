(** Model of rstsr-common/src/layout/iterator.rs. *)
From Verif Require Import Base Spec M_Layout M_Indexer M_Broadcast M_Rearr.
Local Open Scope Z_scope.

(** struct IterLayoutColMajor / IterLayoutRowMajor, iterator.rs:23-36, 346-359 *)
Record iter := mkIter {
  it_layout : layout;
  it_istart : list nat; it_start : nat; it_ostart : Z;
  it_iend : list nat; it_end : nat; it_oend : Z }.

(** one axis as seen by the index stepping: extent, stride, index *)
Definition axis := (nat * Z * nat)%type.
(** forward step from the fastest axis on, iterator.rs:122-197 and 447-522.  The unrolled branches for 1..4 axes
    ([wrap = false]) never wrap the slowest axis, the generic loop for 5 and more axes ([wrap = true]) does. *)
Fixpoint step_up (wrap : bool) (ax : list axis) (off : Z) : list nat * Z :=
  match ax with
  | [] => ([], off)
  | (d, t, i) :: r =>
    let off := off + t in
    if (S i =? d)%nat && (wrap || negb (length r =? 0)%nat) then
      let p := step_up wrap r (off - Z.of_nat d * t) in (0%nat :: fst p, snd p)
    else (S i :: map snd r, off)
  end.
(** backward step, iterator.rs:200-281 and 525-606; [index - 1] and [shape - 1] underflow at 0 *)
Fixpoint step_down (wrap : bool) (ax : list axis) (off : Z) : res (list nat * Z) :=
  match ax with
  | [] => Ok ([], off)
  | (d, t, i) :: r =>
    if (i =? 0)%nat && (wrap || negb (length r =? 0)%nat) then
      if (d =? 0)%nat then Panic else
      let* p := step_down wrap r (off + Z.of_nat (d - 1) * t) in Ok ((d - 1)%nat :: fst p, snd p)
    else if (i =? 0)%nat then Panic
    else Ok ((i - 1)%nat :: map snd r, off - t)
  end.
(** axes from the fastest on: first axis first for column-major, last axis first for row-major *)
Definition fastest {A} (o : order) (l : list A) : list A := match o with ColMajor => l | RowMajor => rev l end.
Definition axes_of (o : order) (l : layout) (ix : list nat) : list axis :=
  fastest o (combine (combine (l_shape l) (l_stride l)) ix).
Definition wraps (l : layout) : bool := (4 <? ndim l)%nat.

Definition unravel (o : order) (k : dimty) (s : list nat) (n : nat) : res (list nat) :=
  match o with ColMajor => unravel_index_f k s n | RowMajor => unravel_index_c k s n end.

(** new, iterator.rs:73-87 and 396-410 *)
Definition iter_new (o : order) (k : dimty) (l : layout) : res iter :=
  let i0 := repeat 0%nat (ndim l) in
  let* ie := (if (l_size l =? 0)%nat then Ok i0 else unravel o k (l_shape l) (l_size l)) in
  Ok (mkIter l i0 0 (l_offset l) ie (l_size l) (index_uncheck l ie)).
(** split_at, iterator.rs:89-114 and 412-437 *)
Definition iter_split_at (o : order) (k : dimty) (it : iter) (index : nat) : res (iter * iter) :=
  let mid := (it_start it + index)%nat in
  let* im := unravel o k (l_shape (it_layout it)) mid in
  let om := index_uncheck (it_layout it) im in
  Ok (mkIter (it_layout it) (it_istart it) (it_start it) (it_ostart it) im mid om,
      mkIter (it_layout it) im mid om (it_iend it) (it_end it) (it_oend it)).
(** try_into::<usize>().unwrap() *)
Definition to_usize (z : Z) : res Z := if z <? 0 then Panic else Ok z.
(** next, iterator.rs:290-297 and 615-622 *)
Definition iter_next (o : order) (it : iter) : res (option Z * iter) :=
  if (it_end it <=? it_start it)%nat then Ok (None, it) else
  let p := step_up (wraps (it_layout it)) (axes_of o (it_layout it) (it_istart it)) (it_ostart it) in
  let* v := to_usize (it_ostart it) in
  Ok (Some v, mkIter (it_layout it) (fastest o (fst p)) (S (it_start it)) (snd p) (it_iend it) (it_end it) (it_oend it)).
(** next_back, iterator.rs:304-311 and 629-636 *)
Definition iter_next_back (o : order) (it : iter) : res (option Z * iter) :=
  if (it_end it <=? it_start it)%nat then Ok (None, it) else
  let* p := step_down (wraps (it_layout it)) (axes_of o (it_layout it) (it_iend it)) (it_oend it) in
  let* v := to_usize (snd p) in
  Ok (Some v, mkIter (it_layout it) (it_istart it) (it_start it) (it_ostart it) (fastest o (fst p)) (it_end it - 1) (snd p)).
(** len, iterator.rs:318 and 643; the subtraction underflows when the end lies before the start *)
Definition iter_len (it : iter) : res nat := if (it_end it <? it_start it)%nat then Panic else Ok (it_end it - it_start it)%nat.

(** enum IterLayout, iterator.rs:660-757: an iterator together with its kind *)
Record iter_layout := mkIterLayout { il_order : order; il_iter : iter }.
(** IterLayout::new, iterator.rs:672-700 *)
Definition iter_layout_new (dflt : order) (k : dimty) (l : layout) (o : iter_order) : res iter_layout :=
  match o with
  | OC => let* it := iter_new RowMajor k l in Ok (mkIterLayout RowMajor it)
  | OF => let* it := iter_new ColMajor k l in Ok (mkIterLayout ColMajor it)
  | OA => let* it := iter_new dflt k l in Ok (mkIterLayout dflt it)
  | OK | OG => let* l := translate_unary dflt l OK in let* it := iter_new ColMajor k l in Ok (mkIterLayout ColMajor it)
  | OB => Err InvalidValue
  end.
(** impl Iterator, DoubleEndedIterator, ExactSizeIterator, IterSplitAtAPI for IterLayout, iterator.rs:703-757 *)
Definition il_next (it : iter_layout) : res (option Z * iter_layout) :=
  let* p := iter_next (il_order it) (il_iter it) in Ok (fst p, mkIterLayout (il_order it) (snd p)).
Definition il_next_back (it : iter_layout) : res (option Z * iter_layout) :=
  let* p := iter_next_back (il_order it) (il_iter it) in Ok (fst p, mkIterLayout (il_order it) (snd p)).
Definition il_len (it : iter_layout) : res nat := iter_len (il_iter it).
Definition il_split_at (k : dimty) (it : iter_layout) (n : nat) : res (iter_layout * iter_layout) :=
  let* p := iter_split_at (il_order it) k (il_iter it) n in
  Ok (mkIterLayout (il_order it) (fst p), mkIterLayout (il_order it) (snd p)).

(** IndexedIterLayout, iterator.rs:764-831 *)
Definition indexed_new (k : dimty) (l : layout) (o : order) : res iter_layout :=
  iter_layout_new o k l (match o with RowMajor => OC | ColMajor => OF end).
(** next and next_back both read index_start before stepping, iterator.rs:788-795, 801-808 *)
Definition indexed_next (it : iter_layout) : res (option (list nat * Z) * iter_layout) :=
  let index := it_istart (il_iter it) in
  let* p := il_next it in Ok (option_map (fun v => (index, v)) (fst p), snd p).
Definition indexed_next_back (it : iter_layout) : res (option (list nat * Z) * iter_layout) :=
  let index := it_istart (il_iter it) in
  let* p := il_next_back it in Ok (option_map (fun v => (index, v)) (fst p), snd p).

(** A sequence of calls on an iterator, collecting what next and next_back return; after a split the run goes on with
    the chosen half.  (Not code of the library: the client the theorems quantify over.) *)
Fixpoint run_calls (k : dimty) (ops : list iop) (it : iter_layout) : res (list (option Z) * iter_layout) :=
  match ops with
  | [] => Ok ([], it)
  | Front :: r => let* p := il_next it in let* q := run_calls k r (snd p) in Ok (fst p :: fst q, snd q)
  | Back :: r => let* p := il_next_back it in let* q := run_calls k r (snd p) in Ok (fst p :: fst q, snd q)
  | KeepLeft n :: r => let* p := il_split_at k it n in run_calls k r (fst p)
  | KeepRight n :: r => let* p := il_split_at k it n in run_calls k r (snd p)
  end.

(** for_each / collect over an iterator: the items until the first None.  The loop of Iterator::for_each ends when the
    iterator is exhausted; an iterator of length n needs n + 1 calls, which is the fuel. *)
Fixpoint collect_loop (fuel : nat) (it : iter_layout) : res (list Z) :=
  match fuel with
  | O => Panic
  | S fuel => let* p := il_next it in
              match fst p with None => Ok [] | Some v => let* r := collect_loop fuel (snd p) in Ok (v :: r) end
  end.
Definition collect (it : iter_layout) : res (list Z) := let* n := il_len it in collect_loop (S n) it.
(** layout_col_major_dim_dispatch_1/2/3, iterator.rs:838-953: visited positions, one list per operand, walked in lock
    step and stopping at the shortest.  Feature dispatch_dim_layout_iter handles 0 axes directly and converts to a fixed rank otherwise. *)
Definition dispatch_positions (k : dimty) (l : layout) : res (list Z) :=
  let* it := iter_new ColMajor k l in collect (mkIterLayout ColMajor it).

(** rstsr-common/src/par_iter.rs:11-62: rayon's bridge splits the producer as it likes (a tree) and consumes each leaf
    front to back.  The result lists what every leaf visits. *)
Fixpoint run_tree (k : dimty) (t : split_tree) (it : iter_layout) : res (list (list Z)) :=
  match t with
  | Leaf => let* xs := collect it in Ok [xs]
  | Node n a b => let* p := il_split_at k it n in
                  let* x := run_tree k a (fst p) in let* y := run_tree k b (snd p) in Ok (x ++ y)
  end.
(** calls on an indexed iterator *)
Fixpoint run_indexed (ops : list iop) (it : iter_layout) : res (list (option (list nat * Z)) * iter_layout) :=
  match ops with
  | Front :: r => let* p := indexed_next it in let* q := run_indexed r (snd p) in Ok (fst p :: fst q, snd q)
  | Back :: r => let* p := indexed_next_back it in let* q := run_indexed r (snd p) in Ok (fst p :: fst q, snd q)
  | _ => Ok ([], it)
  end.
