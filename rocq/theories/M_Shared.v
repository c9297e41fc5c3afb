(** Model of rstsr-core/src/storage/data.rs (DataOwned, DataArc) and of the ownership conversions of
    tensor/ownership_conversion.rs on a reference-counted heap.  A program holds tensor variables; several of
    them may be handles on one reference-counted buffer. *)
From Verif Require Import Base Spec M_Layout M_Rearr M_Tensor.
Open Scope Z_scope.

(** The heap cells behind std's Arc<C>, C = Vec<T>: contents and strong count (weak counts are never used by the
    library).  A cell whose count reached zero is kept, unreachable. *)
Definition heap (T : Type) := list (list T * nat).

(** Arc::new *)
Definition arc_new {T} (h : heap T) (v : list T) : heap T * nat := (h ++ [(v, 1%nat)], length h).
(** Arc::clone: one more handle *)
Definition arc_clone {T} (h : heap T) (p : nat) : heap T :=
  match nth_error h p with Some (v, n) => upd h p (v, S n) | None => h end.
(** drop of an Arc: one handle less *)
Definition arc_drop {T} (h : heap T) (p : nat) : heap T :=
  match nth_error h p with Some (v, n) => upd h p (v, (n - 1)%nat) | None => h end.
(** Deref of an Arc *)
Definition arc_get {T} (h : heap T) (p : nat) : list T :=
  match nth_error h p with Some (v, _) => v | None => [] end.
(** Arc::strong_count *)
Definition arc_count {T} (h : heap T) (p : nat) : nat :=
  match nth_error h p with Some (_, n) => n | None => 0%nat end.
(** Arc::try_unwrap(..).ok(): the contents if this is the only handle; the handle is consumed either way *)
Definition arc_try_unwrap {T} (h : heap T) (p : nat) : heap T * option (list T) :=
  (arc_drop h p, if (arc_count h p =? 1)%nat then Some (arc_get h p) else None).
(** Arc::make_mut: the buffer to write to, a fresh copy unless this is the only handle *)
Definition arc_make_mut {T} (h : heap T) (p : nat) : heap T * nat :=
  if (arc_count h p =? 1)%nat then (h, p) else arc_new (arc_drop h p) (arc_get h p).
(** a write through the reference returned by Arc::make_mut *)
Definition arc_set {T} (h : heap T) (p : nat) (v : list T) : heap T :=
  match nth_error h p with Some (_, n) => upd h p (v, n) | None => h end.

(** DataOwned and DataArc, data.rs:10-13, 33-36.  DataCow::Owned is represented as DataOwned (the types differ
    only in which methods the compiler offers); borrowed storages end with the borrow and hold no handle. *)
Inductive data (T : Type) : Type :=
| DOwned (v : list T)
| DArc (p : nat).
Arguments DOwned {T} v.
Arguments DArc {T} p.

(** DataAPI::raw, data.rs:213-220, 336-343 *)
Definition data_raw {T} (h : heap T) (d : data T) : list T :=
  match d with DOwned v => v | DArc p => arc_get h p end.
(** drop glue of the storage *)
Definition data_drop {T} (h : heap T) (d : data T) : heap T :=
  match d with DOwned _ => h | DArc p => arc_drop h p end.
(** DataCloneAPI::into_owned, data.rs:222-229, 345-352: the unwrap of try_unwrap panics when shared *)
Definition data_into_owned {T} (h : heap T) (d : data T) : res (heap T * data T) :=
  match d with
  | DOwned v => Ok (h, DOwned v)
  | DArc p => match arc_try_unwrap h p with (h', Some v) => Ok (h', DOwned v) | (_, None) => Panic end
  end.
(** DataCloneAPI::into_shared, data.rs:231-235, 354-357 *)
Definition data_into_shared {T} (h : heap T) (d : data T) : heap T * data T :=
  match d with
  | DOwned v => let '(h', p) := arc_new h v in (h', DArc p)
  | DArc p => (h, DArc p)
  end.
(** DataMutAPI::raw_mut, data.rs:397-402, 414-422, followed by writes that leave [v'] in the buffer *)
Definition data_write {T} (h : heap T) (d : data T) (f : list T -> list T) : heap T * data T :=
  match d with
  | DOwned v => (h, DOwned (f v))
  | DArc p => let '(h', q) := arc_make_mut h p in (arc_set h' q (f (arc_get h' q)), DArc q)
  end.

(** Program state: the heap and the tensor variables ([None]: moved out or dropped). *)
Record store (T : Type) : Type := mkStore { s_heap : heap T; s_vars : list (option (data T * layout)) }.
Arguments mkStore {T} s_heap s_vars.
Arguments s_heap {T} s.
Arguments s_vars {T} s.

(** The test shared by into_owned and into_shared, ownership_conversion.rs:97-98, 106-107 *)
Definition keeps_layout {T} (a : tensor T) : res bool :=
  let* b := unwrap (bounds_index (t_layout a)) in
  Ok ((fst b =? 0) && (snd b =? Z.of_nat (length (t_data a))) && (snd b =? Z.of_nat (l_size (t_layout a)))).

(** What a program does with its variables.  [Mutate i f] is any use of [view_mut()] / [raw_mut()] on variable i:
    f says what the borrower leaves in the buffer, given the tensor it saw. *)
Inductive op (T : Type) : Type :=
| New (v : list T) (l : layout)      (* Tensor::new_f, tensorbase.rs:120-129, into a new variable *)
| Alias (i : nat) (l : layout)       (* TensorBase::new_f over DataArc::from(Arc::clone(..)), into a new variable *)
| CloneOf (i : nat)                  (* to_owned / clone, ownership_conversion.rs:114-129, into a new variable *)
| Mutate (i : nat) (f : tensor T -> list T)
| IntoOwned (i : nat)
| IntoShared (i : nat)
| IntoCow (i : nat)
| Drop (i : nat).
Arguments New {T} v l.
Arguments Alias {T} i l.
Arguments CloneOf {T} i.
Arguments Mutate {T} i f.
Arguments IntoOwned {T} i.
Arguments IntoShared {T} i.
Arguments IntoCow {T} i.
Arguments Drop {T} i.

Section Step.
Context {T : Type} (k : dimty) (dflt : order).

Definition push (h : heap T) (vs : list (option (data T * layout))) (d : data T) (l : layout) : store T :=
  mkStore h (vs ++ [Some (d, l)]).
Definition put (h : heap T) (vs : list (option (data T * layout))) (i : nat) (d : data T) (l : layout) : store T :=
  mkStore h (upd vs i (Some (d, l))).

(** into_owned on a variable, ownership_conversion.rs:96-103 (into_owned_keep_layout: 54-63); when the elements are
    copied, the consumed tensor is dropped after the copy *)
Definition step_into_owned (s : store T) (i : nat) (d : data T) (l : layout) : res (store T) :=
  let t := mkTensor (data_raw (s_heap s) d) l in
  let* keep := keeps_layout t in
  if keep then let* '(h', d') := data_into_owned (s_heap s) d in Ok (put h' (s_vars s) i d' l)
  else
    let* c := unwrap (asarray k dflt t OK) in
    Ok (put (data_drop (s_heap s) d) (s_vars s) i (DOwned (t_data c)) (t_layout c)).

(** into_shared, ownership_conversion.rs:105-112 (into_shared_keep_layout: 76-85).  The copy is shared by a recursive call; [Panic] in that second
    call stands for a third one, i.e. for endless recursion. *)
Definition step_into_shared (s : store T) (i : nat) (d : data T) (l : layout) : res (store T) :=
  let t := mkTensor (data_raw (s_heap s) d) l in
  let* keep := keeps_layout t in
  if keep then let '(h', d') := data_into_shared (s_heap s) d in Ok (put h' (s_vars s) i d' l)
  else
    let* c := unwrap (asarray k dflt t OK) in
    let* keep' := keeps_layout c in
    if keep' then
      let '(h', d') := data_into_shared (data_drop (s_heap s) d) (DOwned (t_data c)) in
      Ok (put h' (s_vars s) i d' (t_layout c))
    else Panic.

(** One statement of the program.  Naming a variable that is absent, or aliasing one that is not shared, does not
    compile: the model answers [Err Miscellaneous]. *)
Definition step (s : store T) (o : op T) : res (store T) :=
  let on i (g : data T -> layout -> res (store T)) :=
    match nth_error (s_vars s) i with Some (Some (d, l)) => g d l | _ => Err Miscellaneous end in
  match o with
  | New v l => let* t := tensor_new v l in Ok (push (s_heap s) (s_vars s) (DOwned (t_data t)) (t_layout t))
  | Alias i l => on i (fun d _ =>
      match d with
      | DArc p => let* t := tensor_new (arc_get (s_heap s) p) l in
                  Ok (push (arc_clone (s_heap s) p) (s_vars s) (DArc p) (t_layout t))
      | DOwned _ => Err Miscellaneous
      end)
  | CloneOf i => on i (fun d l =>
      let* c := into_owned k dflt (mkTensor (data_raw (s_heap s) d) l) in
      Ok (push (s_heap s) (s_vars s) (DOwned (t_data c)) (t_layout c)))
  | Mutate i f => on i (fun d l =>
      let '(h', d') := data_write (s_heap s) d (fun v => f (mkTensor v l)) in Ok (put h' (s_vars s) i d' l))
  | IntoOwned i => on i (step_into_owned s i)
  | IntoShared i => on i (step_into_shared s i)
  (* into_cow, ownership_conversion.rs:33-41, data.rs:465-470, 496-504: an Arc is unwrapped without looking at the layout *)
  | IntoCow i => on i (fun d l =>
      let* '(h', d') := data_into_owned (s_heap s) d in Ok (put h' (s_vars s) i d' l))
  | Drop i => on i (fun d _ => Ok (mkStore (data_drop (s_heap s) d) (upd (s_vars s) i None)))
  end.

(** A whole program, from no variables. *)
Definition run (ops : list (op T)) : res (store T) := fold_res step ops (mkStore [] []).

End Step.

(** DataArc::strong_count of variable i, data.rs:147-151 *)
Definition strong_count {T} (s : store T) (i : nat) : option nat :=
  match nth_error (s_vars s) i with Some (Some (DArc p, _)) => Some (arc_count (s_heap s) p) | _ => None end.
