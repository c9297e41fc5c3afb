(** Model of the parallel versions of the indexed iterators and of the iterators over sub-views: rstsr-core/src/feature_rayon/par_iter.rs:8-36 and
    rstsr-common/src/par_iter.rs:7-62.  rayon calls split_at as often and wherever it likes ([split_tree], Spec.v) and then works off each part from the
    front; the parts are independent, so that any interleaving of their items may occur.  Simplified: rayon itself (its choice of splits is the
    quantified tree; it never splits a part of fewer than two items). *)
From Verif Require Import Base Spec M_Layout M_Rearr M_Iter M_Tensor M_Kernel M_Reduce M_Manip M_IterElem.
Local Open Scope Z_scope.

Section Par.
  Context {T : Type}.
  (** indexed_iter().into_par_iter(), par_iter.rs:8-20; a part is consumed by [next], iterator_elem.rs:198-204, until it returns None (the fuel suffices, see M_Iter.collect_loop) *)
  Fixpoint indexed_elem_loop (fuel : nat) (e : elem_iter T) : res (list (list nat * T)) :=
    match fuel with
    | O => Panic
    | S fuel => let* p := indexed_elem_next e in match fst p with None => Ok [] | Some x => let* r := indexed_elem_loop fuel (snd p) in Ok (x :: r) end
    end.
  Definition indexed_elem_collect (e : elem_iter T) : res (list (list nat * T)) := let* n := elem_len e in indexed_elem_loop (S n) e.
  (** split_at of IndexedIterVecView, iterator_elem.rs:233-238 *)
  Fixpoint par_indexed (k : dimty) (t : split_tree) (e : elem_iter T) : res (list (list (list nat * T))) :=
    match t with
    | Leaf => let* xs := indexed_elem_collect e in Ok [xs]
    | Node n a b => let* p := elem_split_at k e n in let* x := par_indexed k a (fst p) in let* y := par_indexed k b (snd p) in Ok (x ++ y)
    end.
  (** indexed_iter_mut().into_par_iter(): the indices and the references (positions in the storage) the workers are handed; next and split_at of
      IndexedIterVecMut, iterator_elem.rs:298-304, 335-345 *)
  Fixpoint par_places (k : dimty) (t : split_tree) (it : iter_layout) : res (list (list (list nat * Z))) :=
    match t with
    | Leaf => let* xs := collect_indexed it in Ok [xs]
    | Node n a b => let* p := il_split_at k it n in let* x := par_places k a (fst p) in let* y := par_places k b (snd p) in Ok (x ++ y)
    end.
  (** a client that replaces the element [x] handed out with index [ix] by [f ix x]: for_each in any interleaving *)
  Definition par_indexed_updates (k : dimty) (f : list nat -> T -> T) (t : split_tree) (e : elem_iter T) (r : res (list T)) : Prop :=
    match par_places k t (ei_iter e) with
    | Ok parts => exists ps, Permutation ps (concat parts) /\ r = fold_res (fun d p => rewrite_at (f (fst p)) d (Some (snd p))) ps (ei_view e)
    | Err x => r = Err x
    | Panic => r = Panic
    end.
End Par.

(** axes_iter().into_par_iter(), par_iter.rs:22-36; split_at, iterator_axes.rs:64-70, 219-225: the views the workers are handed *)
Fixpoint par_axes (t : split_tree) (it : axes_iter) : res (list (list layout)) :=
  match t with
  | Leaf => let* vs := axes_iter_views it in Ok [vs]
  | Node n a b => let* p := axes_iter_split_at it n in let* x := par_axes a (fst p) in let* y := par_axes b (snd p) in Ok (x ++ y)
  end.
(** axes_iter_mut().into_par_iter(): a client that replaces every element of every view it is handed by [f] of it, in any interleaving *)
Definition par_axes_updates {T} (f : T -> T) (t : split_tree) (it : axes_iter) (d : list T) (r : res (list T)) : Prop :=
  match par_axes t it with
  | Ok parts => exists ps, Permutation ps (flat_map (addrs RowMajor) (concat parts)) /\ r = fold_res (fun d p => rewrite_at f d (Some p)) ps d
  | Err x => r = Err x
  | Panic => r = Panic
  end.
(** indexed_axes_iter().into_par_iter() and the mutable one: next and split_at, iterator_axes.rs:341-350, 382-388, 519-528, 560-566 *)
Fixpoint indexed_axes_loop (fuel : nat) (it : axes_iter) : res (list (list nat * layout)) :=
  match fuel with
  | O => Panic
  | S fuel => let* p := indexed_axes_next it in match fst p with None => Ok [] | Some x => let* r := indexed_axes_loop fuel (snd p) in Ok (x :: r) end
  end.
Definition indexed_axes_collect (it : axes_iter) : res (list (list nat * layout)) := let* n := il_len (ai_iter it) in indexed_axes_loop (S n) it.
Fixpoint par_indexed_axes (t : split_tree) (it : axes_iter) : res (list (list (list nat * layout))) :=
  match t with
  | Leaf => let* xs := indexed_axes_collect it in Ok [xs]
  | Node n a b => let* p := axes_iter_split_at it n in let* x := par_indexed_axes a (fst p) in let* y := par_indexed_axes b (snd p) in Ok (x ++ y)
  end.
