(** Model of rstsr-core/src/tensor/iterator_elem.rs: iterators over the elements of a tensor.  A reference to an element is the element's position in the
    storage; what a client does through it is part of the client. *)
From Verif Require Import Base Spec M_Layout M_Rearr M_Iter M_Tensor.
Local Open Scope Z_scope.

(** IterVecView, IterVecMut, IndexedIterVecView and IndexedIterVecMut, iterator_elem.rs:6-12, 93-99, 184-190, 284-290: a layout iterator and the storage *)
Record elem_iter (T : Type) := mkElems { ei_iter : iter_layout; ei_view : list T }.
Arguments mkElems {T} _ _.
Arguments ei_iter {T} _.
Arguments ei_view {T} _.
Section Elems.
  Context {T : Type}.
  (** iter_with_order_f and iter_mut_with_order_f, iterator_elem.rs:61-69, 155-160 *)
  Definition elems_with_order (dflt : order) (k : dimty) (t : tensor T) (o : iter_order) : res (elem_iter T) :=
    let* it := iter_layout_new dflt k (t_layout t) o in Ok (mkElems it (t_data t)).
  (** iter_f and iter_mut_f, iterator_elem.rs:75-82, 166-173; [dev]: the device's default order *)
  Definition elems (dflt : order) (k : dimty) (dev : order) (t : tensor T) : res (elem_iter T) :=
    elems_with_order dflt k t (match dev with RowMajor => OC | ColMajor => OF end).
  (** &self.view[offset] panics outside the storage *)
  Definition look (d : list T) (p : option Z) : res (option T) := match p with None => Ok None | Some p => let* x := zget d p in Ok (Some x) end.
  (** next and next_back of IterVecView, iterator_elem.rs:20-22, 29-31 *)
  Definition elem_next (e : elem_iter T) : res (option T * elem_iter T) :=
    let* p := il_next (ei_iter e) in let* x := look (ei_view e) (fst p) in Ok (x, mkElems (snd p) (ei_view e)).
  Definition elem_next_back (e : elem_iter T) : res (option T * elem_iter T) :=
    let* p := il_next_back (ei_iter e) in let* x := look (ei_view e) (fst p) in Ok (x, mkElems (snd p) (ei_view e)).
  (** next and next_back of IterVecMut, iterator_elem.rs:107-109, 116-118, with the client's update through the reference; *)
  Definition rewrite_at (f : T -> T) (d : list T) (p : option Z) : res (list T) := match p with None => Ok d | Some p => let* x := zget d p in zset d p (f x) end.
  Definition update_next (f : T -> T) (e : elem_iter T) : res (elem_iter T) :=
    let* p := il_next (ei_iter e) in let* d := rewrite_at f (ei_view e) (fst p) in Ok (mkElems (snd p) d).
  Definition update_next_back (f : T -> T) (e : elem_iter T) : res (elem_iter T) :=
    let* p := il_next_back (ei_iter e) in let* d := rewrite_at f (ei_view e) (fst p) in Ok (mkElems (snd p) d).
  (** len, iterator_elem.rs:38-40, 125-127, 224-226, 326-328 *)
  Definition elem_len (e : elem_iter T) : res nat := il_len (ei_iter e).
  (** split_at, iterator_elem.rs:47-52, 134-146, 233-238, 335-345: both halves see the whole storage *)
  Definition elem_split_at (k : dimty) (e : elem_iter T) (n : nat) : res (elem_iter T * elem_iter T) :=
    let* p := il_split_at k (ei_iter e) n in Ok (mkElems (fst p) (ei_view e), mkElems (snd p) (ei_view e)).

  (** A client of iter(): a history of calls, going on with one half after a split; what next and next_back return *)
  Fixpoint run_elems (k : dimty) (ops : list iop) (e : elem_iter T) : res (list (option T) * elem_iter T) :=
    match ops with
    | [] => Ok ([], e)
    | Front :: r => let* p := elem_next e in let* q := run_elems k r (snd p) in Ok (fst p :: fst q, snd q)
    | Back :: r => let* p := elem_next_back e in let* q := run_elems k r (snd p) in Ok (fst p :: fst q, snd q)
    | KeepLeft n :: r => let* p := elem_split_at k e n in run_elems k r (fst p)
    | KeepRight n :: r => let* p := elem_split_at k e n in run_elems k r (snd p)
    end.
  (** collect: the elements until the first None (the fuel suffices, see M_Iter.collect_loop) *)
  Fixpoint elem_collect_loop (fuel : nat) (e : elem_iter T) : res (list T) :=
    match fuel with
    | O => Panic
    | S fuel => let* p := elem_next e in match fst p with None => Ok [] | Some x => let* r := elem_collect_loop fuel (snd p) in Ok (x :: r) end
    end.
  Definition elem_collect (e : elem_iter T) : res (list T) := let* n := elem_len e in elem_collect_loop (S n) e.
  (** A client of iter_mut() that replaces every element it is handed by [f] of it *)
  Fixpoint run_updates (k : dimty) (f : T -> T) (ops : list iop) (e : elem_iter T) : res (elem_iter T) :=
    match ops with
    | [] => Ok e
    | Front :: r => let* e := update_next f e in run_updates k f r e
    | Back :: r => let* e := update_next_back f e in run_updates k f r e
    | KeepLeft n :: r => let* p := elem_split_at k e n in run_updates k f r (fst p)
    | KeepRight n :: r => let* p := elem_split_at k e n in run_updates k f r (snd p)
    end.
  (** iter_mut().into_par_iter().for_each(x := f x), rstsr-common/src/par_iter.rs:11-62: the iterator is split as the scheduler likes, and the parts
      are worked off in any interleaving (here: in any order of all positions) *)
  Definition par_updates (k : dimty) (f : T -> T) (t : split_tree) (e : elem_iter T) (r : res (list T)) : Prop :=
    match run_tree k t (ei_iter e) with
    | Ok parts => exists ps, Permutation ps (concat parts) /\ r = fold_res (fun d p => rewrite_at f d (Some p)) ps (ei_view e)
    | Err x => r = Err x
    | Panic => r = Panic
    end.

  (** indexed_iter_with_order_f and indexed_iter_mut_with_order_f, iterator_elem.rs:247-261, 354-366 *)
  Definition indexed_elems_with_order (dflt : order) (k : dimty) (t : tensor T) (o : iter_order) : res (elem_iter T) :=
    match o with
    | OC | OF => elems_with_order dflt k t o
    | _ => Err InvalidValue
    end.
  (** next and next_back of IndexedIterVecView (the mutable one alike), iterator_elem.rs:198-204, 211-217, 298-304, 311-319: both take the index of the front *)
  Definition indexed_elem_next (e : elem_iter T) : res (option (list nat * T) * elem_iter T) :=
    let index := it_istart (il_iter (ei_iter e)) in
    let* p := elem_next e in Ok (option_map (fun x => (index, x)) (fst p), snd p).
  Definition indexed_elem_next_back (e : elem_iter T) : res (option (list nat * T) * elem_iter T) :=
    let index := it_istart (il_iter (ei_iter e)) in
    let* p := elem_next_back e in Ok (option_map (fun x => (index, x)) (fst p), snd p).
  (** a client of indexed_iter(): calls of next and next_back *)
  Fixpoint run_indexed_elems (ops : list iop) (e : elem_iter T) : res (list (option (list nat * T)) * elem_iter T) :=
    match ops with
    | Front :: r => let* p := indexed_elem_next e in let* q := run_indexed_elems r (snd p) in Ok (fst p :: fst q, snd q)
    | Back :: r => let* p := indexed_elem_next_back e in let* q := run_indexed_elems r (snd p) in Ok (fst p :: fst q, snd q)
    | _ => Ok ([], e)
    end.
End Elems.
