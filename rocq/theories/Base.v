(** Shared vocabulary: outcomes of Rust functions, list helpers, stable sorting. *)
From Coq Require Export List Arith ZArith Lia Bool Permutation Sorted.
From Coq Require Export ZifyBool ZifyNat.
Export ListNotations.
Ltac Zify.zify_post_hook ::= Z.div_mod_to_equations.

(** Error kinds, after enum RSTSRError in rstsr-common/src/error.rs.  Only the kinds raised by
    modelled code are listed; messages and backtraces are dropped. *)
Inductive err : Type :=
| InvalidLayout | IndexError | AxisError | ValueOutOfRange | InvalidValue | Miscellaneous | DeviceMismatch | FaerError.

(** Outcome of a Rust call: a value, a [Result::Err], or a panic. *)
Inductive res (A : Type) : Type :=
| Ok (a : A)
| Err (e : err)
| Panic.
Arguments Ok {A} a.
Arguments Err {A} e.
Arguments Panic {A}.

Definition bind {A B} (m : res A) (f : A -> res B) : res B :=
  match m with Ok a => f a | Err e => Err e | Panic => Panic end.
Notation "'let*' x ':=' m 'in' f" := (bind m (fun x => f))
  (at level 61, x pattern, m at next level, f at level 200, right associativity).
Notation "'let*' ' p ':=' m 'in' f" := (bind m (fun x => match x with p => f end))
  (at level 61, p pattern, m at next level, f at level 200, right associativity).

(** [rstsr_assert!(cond, Kind)?] *)
Definition check (b : bool) (e : err) : res unit := if b then Ok tt else Err e.

Definition is_ok {A} (m : res A) : bool := match m with Ok _ => true | _ => false end.
Definition is_err {A} (m : res A) : bool := match m with Err _ => true | _ => false end.

Fixpoint map_res {A B} (f : A -> res B) (l : list A) : res (list B) :=
  match l with
  | [] => Ok []
  | x :: r => let* y := f x in let* ys := map_res f r in Ok (y :: ys)
  end.

Fixpoint fold_res {A S} (f : S -> A -> res S) (l : list A) (s : S) : res S :=
  match l with
  | [] => Ok s
  | x :: r => let* s' := f s x in fold_res f r s'
  end.

(** Slice indexing [v[i]] on a Vec: panics when out of range. *)
Definition vget {A} (l : list A) (i : nat) : res A :=
  match nth_error l i with Some x => Ok x | None => Panic end.

(** Overwrite position [i] (no change if out of range). *)
Fixpoint upd {A} (l : list A) (i : nat) (v : A) : list A :=
  match l, i with
  | [], _ => []
  | _ :: r, O => v :: r
  | x :: r, S k => x :: upd r k v
  end.

(** [v[i] = x]: panics when out of range. *)
Definition vset {A} (l : list A) (i : nat) (v : A) : res (list A) :=
  if i <? length l then Ok (upd l i v) else Panic.

(** Storage access by a machine address computed in isize; a negative address cast to usize is far out of
    range of any Vec, hence a panic. *)
Definition zget {A} (l : list A) (i : Z) : res A :=
  if (i <? 0)%Z then Panic else vget l (Z.to_nat i).
Definition zset {A} (l : list A) (i : Z) (v : A) : res (list A) :=
  if (i <? 0)%Z then Panic else vset l (Z.to_nat i) v.

(** [Vec::remove] / [Vec::insert] / [slice::swap] on in-range positions. *)
Definition remove_at {A} (l : list A) (i : nat) : list A := firstn i l ++ skipn (S i) l.
Definition insert_at {A} (l : list A) (i : nat) (x : A) : list A := firstn i l ++ x :: skipn i l.
Definition swap_at {A} (l : list A) (i j : nat) : list A :=
  match nth_error l i, nth_error l j with
  | Some x, Some y => upd (upd l i y) j x
  | _, _ => l
  end.

(** Stable sort, as [slice::sort_by] / [sort_by_key] (both are stable); [le x y] is "x is not greater than y". *)
Fixpoint insert_sorted {A} (le : A -> A -> bool) (x : A) (l : list A) : list A :=
  match l with
  | [] => [x]
  | y :: r => if le x y then x :: y :: r else y :: insert_sorted le x r
  end.
Definition sort_by {A} (le : A -> A -> bool) (l : list A) : list A :=
  fold_right (insert_sorted le) [] l.

(** [x as usize] for an isize [x] on a 64-bit target (two's complement). *)
Definition as_usize (z : Z) : Z := if (z <? 0)%Z then (z + 2 ^ 64)%Z else z.
